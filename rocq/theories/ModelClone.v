(** * ModelClone: Clone of the maps and of their owning iterators, when the values' Clone and Drop
    have effects and may panic.

    Every Clone implementation of the crate clones the underlying [Box<[T]>], [[T; N]],
    [vec::IntoIter] or [array::IntoIter]. These standard types all clone element by element from
    the front, and when a clone panics they drop the clones made so far, from the front,
    before the panic goes on; a second panic there aborts the process. (For a [Copy] type the
    standard library may copy the elements without calling Clone; [cl] is then the identity.) *)
From Verif Require Import Base Spec ModelOrdinal ModelValues ModelArrayBuilder ModelIter ModelTotal ModelMap.
From Coq Require Import List. Import ListNotations.

Inductive copy (C : Type) := Cloned (c : C) | Unwound (w : panic) | Aborted | Stuck.
Arguments Cloned {C} _. Arguments Unwound {C} _. Arguments Aborted {C}. Arguments Stuck {C}.
Definition copy_map {C D} (f : C -> D) (c : copy C) : copy D :=
  match c with Cloned c => Cloned (f c) | Unwound w => Unwound w | Aborted => Aborted | Stuck => Stuck end.

Section Slice.
  Context {A St : Type} (cl : St -> A -> St * res A) (drop : St -> A -> St * res unit).

  (** The loop: the clones made, in order, and how it ended. *)
  Fixpoint clone_loop (l : list A) (st : St) : St * list A * res unit :=
    match l with
    | [] => (st, [], Val tt)
    | x :: l' =>
        let '(st1, r) := cl st x in
        match r with
        | Val y => let '(st', made, r') := clone_loop l' st1 in (st', y :: made, r')
        | Panic w => (st1, [], Panic w)
        | NoCompile => (st1, [], NoCompile)
        | UB => (st1, [], UB)
        | OutOfFuel => (st1, [], OutOfFuel)
        end
    end.
  (** Drop the elements while a panic unwinds the stack. *)
  Fixpoint unwind_drop (l : list A) (w : panic) (st : St) : St * copy (list A) :=
    match l with
    | [] => (st, Unwound w)
    | x :: l' =>
        let '(st1, r) := drop st x in
        match r with
        | Val _ => unwind_drop l' w st1
        | Panic _ => (st1, Aborted)
        | _ => (st1, Stuck)
        end
    end.
  Definition clone_slice (l : list A) (st : St) : St * copy (list A) :=
    let '(st', made, r) := clone_loop l st in
    match r with
    | Val _ => (st', Cloned made)
    | Panic w => unwind_drop made w st'
    | _ => (st', Stuck)
    end.
End Slice.

Section Clone.
  Context {V St : Type} (cl : St -> V -> St * res V) (drop : St -> V -> St * res unit).

  (** Clone and Drop of [Option<V>]. *)
  Definition opt_cl (st : St) (o : option V) : St * res (option V) :=
    match o with
    | None => (st, Val None)
    | Some v => let '(st', r) := cl st v in (st', (v' <- r ;; Val (Some v')))
    end.
  Definition opt_drop (st : St) (o : option V) : St * res unit :=
    match o with None => (st, Val tt) | Some v => drop st v end.
  Let slots := clone_slice opt_cl opt_drop.

  (** The length is kept, so that the type stays [[A; S]]. *)
  Definition as_array {A} {S : nat} (c : copy (list A)) : copy (arr A S) :=
    match c with
    | Cloned l => match try_arr S l with Some a => Cloned a | None => Stuck end
    | Unwound w => Unwound w
    | Aborted => Aborted
    | Stuck => Stuck
    end.
  (** map/enumerate.rs:56-65 over an owning iterator *)
  Definition enumerate_copy {A} (c : St * copy (list A)) (next : N) : St * copy (enumerate A) :=
    (fst c, copy_map (fun l => {| e_next := next; e_items := l |}) (snd c)).

  (** map/total/map.rs:132-139 *)
  Definition OrdinalTotalMap_clone_with (m : @OrdinalTotalMap V) (st : St) : St * copy (@OrdinalTotalMap V) :=
    clone_slice cl drop m st.
  (** map/total/array_map.rs:204-211 *)
  Definition OrdinalTotalArrayMap_clone_with {S : nat} (m : OrdinalTotalArrayMap S V) (st : St)
      : St * copy (OrdinalTotalArrayMap S V) :=
    let '(st', c) := clone_slice cl drop (arr_list m) st in (st', as_array c).
  (** map/map.rs:164-171 *)
  Definition OrdinalMap_clone_with (m : @OrdinalMap V) (st : St) : St * copy (@OrdinalMap V) := slots m st.
  (** map/array_map.rs:176-182 *)
  Definition OrdinalArrayMap_clone_with {S : nat} (m : @OrdinalArrayMap V S) (st : St) : St * copy (@OrdinalArrayMap V S) :=
    let '(st', c) := slots (arr_list m) st in (st', as_array c).
  (** map/total/iter.rs:156-162, 222-228 *)
  Definition TIntoIterArray_clone_with (s : @TIntoIterArray V) (st : St) : St * copy (@TIntoIterArray V) :=
    enumerate_copy (clone_slice cl drop (e_items s) st) (e_next s).
  Definition TIntoIter_clone_with (s : @TIntoIter V) (st : St) : St * copy (@TIntoIter V) :=
    enumerate_copy (clone_slice cl drop (e_items s) st) (e_next s).
  (** map/iter.rs:364-371, 423-429 *)
  Definition IntoIterArray_clone_with (s : @IntoIterArray V) (st : St) : St * copy (@IntoIterArray V) :=
    enumerate_copy (slots (e_items s) st) (e_next s).
  Definition IntoIter_clone_with (s : @IntoIter V) (st : St) : St * copy (@IntoIter V) :=
    enumerate_copy (slots (e_items s) st) (e_next s).
End Clone.

(** map/total/map.rs:112-116, map/total/array_map.rs:213-217, when [V::default()] has effects and may
    panic. *)
Definition OrdinalTotalMap_default_with {cfg : Config} {K V St : Type} (O : Ordinal K) (default : St -> St * res V) (st : St)
    : St * res (@OrdinalTotalMap V) :=
  OrdinalTotalMap_new O (fun st _ => default st) st.
Definition OrdinalTotalArrayMap_default_with {cfg : Config} {K V St : Type} (O : Ordinal K) (S : nat)
    (default : St -> St * res V) (st : St) : St * res (OrdinalTotalArrayMap S V) :=
  let '(st', b) := OrdinalTotalArrayMap_new O S (fun st _ => default st) st in (st', returned b).
