(** * ModelCatch: the operations of maps and sets, with the object that is left behind when a call
    panics and the panic is caught ([std::panic::catch_unwind]).

    The other model files return the new object only if the call returns. Here every function
    that takes [&mut self] says what it has written when a panic leaves it. Functions that take
    [&self] leave the object as it is, and so does a client that assigns the result of a call
    that did not return. Simplification: the functions take the object out and put the new one
    back where the code writes to a single slot or word. *)
From Verif Require Import Base Spec SpecMap SpecTotal SpecSet SpecCatch ModelOrdinal ModelValues ModelArrayBuilder
  ModelIter ModelTotal ModelMap ModelSet ModelResume ModelUnwind MapMachine TotalMachine SetMachine.

(** How a call ends. *)
Inductive ending (A : Type) :=
| Ended (a : A)
| Unwinds (w : panic)
| Aborts                 (* a panic during unwinding *)
| Stuck.                 (* the program does not compile, or the model says undefined *)
Arguments Ended {A} a.
Arguments Unwinds {A} w.
Arguments Aborts {A}.
Arguments Stuck {A}.

Definition ending_of {A} (r : res A) : ending A :=
  match r with Val a => Ended a | Panic w => Unwinds w | NoCompile | UB | OutOfFuel => Stuck end.

(** A function with [&mut self]. *)
Definition act (M A : Type) : Type := M -> M * ending A.
Definition ret {M A} (a : A) : act M A := fun m => (m, Ended a).
Definition abind {M A B} (x : act M A) (f : A -> act M B) : act M B :=
  fun m => let '(m', e) := x m in
           match e with
           | Ended a => f a m'
           | Unwinds w => (m', Unwinds w)
           | Aborts => (m', Aborts)
           | Stuck => (m', Stuck)
           end.
(** Code that only reads [self]. *)
Definition look {M A} (f : M -> res A) : act M A := fun m => (m, ending_of (f m)).
(** A write. *)
Definition put {M} (m' : M) : act M unit := fun _ => (m', Ended tt).
Notation "x <! e ;; k" := (abind e (fun x => k)) (at level 61, e at next level, right associativity).
Notation "' p <! e ;; k" := (abind e (fun p => k)) (at level 61, p pattern, e at next level, right associativity).
Notation "e ;;! k" := (abind e (fun _ => k)) (at level 61, right associativity).

(** An object that is read and then assigned to: [m = f(&m)], where nothing is written unless
    [f] returns. *)
Definition replaces {M A} (f : M -> res (A * M)) : act M A :=
  '(a, m') <! look f ;; put m' ;;! ret a.

(** A program that makes every call inside [catch_unwind]. [None]: it does not get to the end. *)
Fixpoint catch_run {Op M Out} (step : Op -> act M Out) (ops : list Op) (m : M) : option (list (seen Out) * M) :=
  match ops with
  | [] => Some ([], m)
  | op :: ops' =>
      let '(m', e) := step op m in
      match e with
      | Ended o => match catch_run step ops' m' with Some (l, m2) => Some (Seen o :: l, m2) | None => None end
      | Unwinds w => match catch_run step ops' m' with Some (l, m2) => Some (Caught w :: l, m2) | None => None end
      | Aborts | Stuck => None
      end
  end.

Section Maps.
  Context {cfg : Config} {K V : Type} (O : Ordinal K).
  Local Notation out := (map_out K V).

  (** A Drain in a local variable, forgotten ([mem::forget]) or dropped after the calls of
      [sched]; a panic in a call runs its destructor (map/iter.rs:278-282). *)
  Definition drain_act (sched : list dir) (leak : bool) : act (list (option V)) out :=
    fun storage =>
      let st := (tt, Drain_new storage (TIterMut_new (slots (length storage)))) in
      let '(got, st1, r) := drain_calls (pure_from O) sched st in
      match r, leak with
      | Val _, true => (fst (snd st1), Ended (OutEntries got))
      | _, _ =>
          let '(got, _, storage', f) := drain_use (pure_from O) sched st in
          (storage', match f with
                     | Returned => Ended (OutEntries got)
                     | Unwound w => Unwinds w
                     | Aborted => Aborts
                     | Wrong => Stuck
                     end)
      end.
  (** map/map.rs:142-144, map/array_map.rs:140-142 *)
  Definition clear_act : act (list (option V)) out :=
    fun storage =>
      let '(_, _, storage', f) := clear_map (pure_from O) tt storage in
      (storage', match f with
                 | Returned => Ended OutUnit
                 | Unwound w => Unwinds w
                 | Aborted => Aborts
                 | Wrong => Stuck
                 end).

  (** *** map/map.rs *)
  (** map/map.rs:74-82 *)
  Definition OrdinalMap_init_full_map_act : act (@OrdinalMap V) unit :=
    size <! look (fun _ => ORDINAL_SIZE O) ;;
    empty <! look (fun m => Val (llen m =? 0)) ;;
    if (empty : bool) then put (repeat None (N.to_nat size)) else ret tt.
  (** map/map.rs:86-89 *)
  Definition OrdinalMap_insert_act (key : K) (value : V) : act (@OrdinalMap V) (option V) :=
    OrdinalMap_init_full_map_act ;;!
    i <! look (fun _ => ordinal O key) ;;
    old <! look (fun m => index m i) ;;
    m <! look (fun m => Val m) ;;
    put (store_at m i (Some value)) ;;!
    ret old.
  (** map/map.rs:92-96 *)
  Definition OrdinalMap_entry_act (key : K) : act (@OrdinalMap V) (Entry K) :=
    OrdinalMap_init_full_map_act ;;!
    i <! look (fun _ => ordinal O key) ;;
    entry <! look (fun m => index_slot m i) ;;
    look (fun m => Entry_new m key entry).
  (** map/map.rs:100-102 *)
  Definition OrdinalMap_remove_act (key : K) : act (@OrdinalMap V) (option V) :=
    i <! look (fun _ => ordinal O key) ;;
    s <! look (fun m => Val (slice_get m i)) ;;
    match s with
    | None => ret None
    | Some o => m <! look (fun m => Val m) ;; put (store_at m i None) ;;! ret o
    end.

  (** The operations of MapMachine; what a client does with a reference or an entry is one
      assignment at the end ([replaces]). *)
  Definition heap_act (op : map_op K V) : act (@OrdinalMap V) out :=
    match op with
    | OpInsert k v => o <! OrdinalMap_insert_act k v ;; ret (OutValue o)
    | OpRemove k => o <! OrdinalMap_remove_act k ;; ret (OutValue o)
    | OpEntryDrop k => e <! OrdinalMap_entry_act k ;; ret (entry_drop e)
    | OpEntryMatch k v w => e <! OrdinalMap_entry_act k ;; replaces (fun m => entry_match m e v w)
    | OpEntryOrInsert k v w => e <! OrdinalMap_entry_act k ;; replaces (fun m => entry_or_insert m e v w)
    | OpClear => clear_act
    | OpDrain sched leak => drain_act sched leak
    | OpGet _ | OpGetMut _ _ | OpContainsKey _ | OpLen | OpIsEmpty | OpIter _ | OpKeys _ | OpValues _
    | OpIterMut _ _ | OpValuesMut _ _ | OpRetain _ | OpClone _ | OpDebug => replaces (heap_step O op)
    end.

  (** *** map/array_map.rs *)
  Context (S : nat).
  Local Notation amap := (@OrdinalArrayMap V S).

  (** An array whose slots are borrowed as a slice. *)
  Definition on_slots {A} (f : act (list (option V)) A) : act amap A :=
    fun m => let '(l, e) := f (arr_list m) in
             match try_arr S l with Some m' => (m', e) | None => (m, Stuck) end.
  (** map/array_map.rs:85-87 *)
  Definition OrdinalArrayMap_insert_act (key : K) (value : V) : act amap (option V) :=
    i <! look (fun m => OrdinalTotalArrayMap_get_mut O m key) ;;
    old <! look (fun m => deref (arr_list m) i) ;;
    m <! look (fun m => Val m) ;;
    put (arr_store m i (Some value)) ;;!
    ret old.
  (** map/array_map.rs:91-94 *)
  Definition OrdinalArrayMap_entry_act (key : K) : act amap (Entry K) :=
    entry <! look (fun m => OrdinalTotalArrayMap_index_mut O m key) ;;
    look (fun m => Entry_new (arr_list m) key entry).
  (** map/array_map.rs:98-100 *)
  Definition OrdinalArrayMap_remove_act (key : K) : act amap (option V) :=
    i <! look (fun m => OrdinalTotalArrayMap_get_mut O m key) ;;
    old <! look (fun m => deref (arr_list m) i) ;;
    m <! look (fun m => Val m) ;;
    put (arr_store m i None) ;;!
    ret old.
  (** map/array_map.rs:149-155 (ModelMap.v gives the slots left behind) *)
  Definition OrdinalArrayMap_retain_act (f : K -> V -> V * bool) : act amap out :=
    fun m => let '(_, l, r) := OrdinalArrayMap_retain O (pure_retain f) m tt in
             match try_arr S l with Some m' => (m', ending_of (r ;;; Val OutUnit)) | None => (m, Stuck) end.

  Definition array_act (op : map_op K V) : act amap out :=
    match op with
    | OpInsert k v => o <! OrdinalArrayMap_insert_act k v ;; ret (OutValue o)
    | OpRemove k => o <! OrdinalArrayMap_remove_act k ;; ret (OutValue o)
    | OpEntryDrop k => e <! OrdinalArrayMap_entry_act k ;; ret (entry_drop e)
    | OpEntryMatch k v w =>
        e <! OrdinalArrayMap_entry_act k ;; on_slots (replaces (fun m => entry_match m e v w))
    | OpEntryOrInsert k v w =>
        e <! OrdinalArrayMap_entry_act k ;; on_slots (replaces (fun m => entry_or_insert m e v w))
    | OpClear => on_slots clear_act
    | OpDrain sched leak => on_slots (drain_act sched leak)
    | OpRetain f => OrdinalArrayMap_retain_act f
    | OpGet _ | OpGetMut _ _ | OpContainsKey _ | OpLen | OpIsEmpty | OpIter _ | OpKeys _ | OpValues _
    | OpIterMut _ _ | OpValuesMut _ _ | OpClone _ | OpDebug => replaces (array_step O op)
    end.

  (** *** map/total/map.rs, map/total/array_map.rs *)
  (** map/total/map.rs:107-109 *)
  Definition OrdinalTotalMap_insert_act (key : K) (value : V) : act (@OrdinalTotalMap V) V :=
    i <! look (fun _ => ordinal O key) ;;
    old <! look (fun m => index m i) ;;
    m <! look (fun m => Val m) ;;
    put (store_at m i value) ;;!
    ret old.
  Definition htotal_act (op : total_op K V) : act (@OrdinalTotalMap V) (total_out K V) :=
    match op with
    | TInsert k v => o <! OrdinalTotalMap_insert_act k v ;; ret (TOValue o)
    | _ => replaces (htotal_step O op)
    end.
  (** map/total/array_map.rs:185-187 *)
  Definition OrdinalTotalArrayMap_insert_act (key : K) (value : V) : act (OrdinalTotalArrayMap S V) V :=
    i <! look (fun _ => ordinal O key) ;;
    old <! look (fun m => index (arr_list m) i) ;;
    m <! look (fun m => Val m) ;;
    put (arr_store m i value) ;;!
    ret old.
  Definition atotal_act (op : total_op K V) : act (OrdinalTotalArrayMap S V) (total_out K V) :=
    match op with
    | TInsert k v => o <! OrdinalTotalArrayMap_insert_act k v ;; ret (TOValue o)
    | _ => replaces (atotal_step O op)
    end.
End Maps.

Section Sets.
  Context {cfg : Config} {T : Type} (O : Ordinal T).

  (** set/set_mut.rs:28-33 on the words behind the borrow *)
  Definition OrdinalSetMut_insert_act (t : T) : act (list N) bool :=
    look (fun words => OrdinalSetMut_new O words) ;;!
    prev <! look (fun words => r <- OrdinalSetRef_new O words ;; OrdinalSetRef_contains O r t) ;;
    i <! look (fun _ => ordinal O t) ;;
    b <! look (fun _ => m <- urem i 64 ;; u64_shl 1 m) ;;
    i <! look (fun _ => ordinal O t) ;;
    q <! look (fun _ => udiv i 64) ;;
    w <! look (fun words => index words q) ;;
    words <! look (fun words => Val words) ;;
    put (store_at words q (N.lor w b)) ;;!
    ret (negb prev).
  (** A slice of words borrowed from a set; [back] makes a set of the words left behind. *)
  Definition on_words {M A} (words : list N) (back : list N -> option M) (f : act (list N) A) : act M A :=
    fun m => let '(ws, e) := f words in
             match back ws with Some m' => (m', e) | None => (m, Stuck) end.

  (** set/set.rs:64-80 *)
  Definition OrdinalSet_insert_act (t : T) : act OrdinalSet bool :=
    small <! look (fun _ => IS_SMALL O) ;;
    s <! look (fun s => Val s) ;;
    match (small : bool), s with
    | true, Small w =>
        on_words [w] (fun ws => match ws with [w'] => Some (Small w') | _ => None end) (OrdinalSetMut_insert_act t)
    | false, Large ws =>
        (if llen ws =? 0 then
           len <! look (fun _ => size <- ORDINAL_SIZE O ;;
                                 a <- unwrap (checked_add size 64) ;;
                                 b <- usub a 1 ;;
                                 udiv b 64) ;;
           put (Large (repeat 0 (N.to_nat len)))
         else ret tt) ;;!
        s <! look (fun s => Val s) ;;
        match s with
        | Large ws => on_words ws (fun ws => Some (Large ws)) (OrdinalSetMut_insert_act t)
        | Small _ => fun s => (s, Stuck)
        end
    | _, _ => fun s => (s, Unwinds PUnreachable)
    end.
  Definition set_act (op : set_op T) : act OrdinalSet (set_out T) :=
    match op with
    | SInsert t => b <! OrdinalSet_insert_act t ;; ret (SBool b)
    | _ => replaces (set_step O op)
    end.

  (** set/array.rs:71-73 *)
  Definition OrdinalArraySet_insert_act {S : nat} (t : T) : act (OrdinalArraySet S) bool :=
    look (fun _ => ArraySet_ASSERT O S) ;;!
    s <! look (fun s => Val s) ;;
    on_words (arr_list s) (try_arr S) (OrdinalSetMut_insert_act t).
  Definition array_set_act {S : nat} (op : set_op T) : act (OrdinalArraySet S) (set_out T) :=
    match op with
    | SInsert t => b <! OrdinalArraySet_insert_act t ;; ret (SBool b)
    | _ => replaces (array_set_step O op)
    end.

  (** set/set64.rs:110-115 *)
  Definition OrdinalSet64_insert_act (t : T) : act OrdinalSet64 bool :=
    look (fun _ => Set64_ASSERT O) ;;!
    c <! look (fun s => OrdinalSet64_contains O s t) ;;
    i <! look (fun _ => ordinal O t) ;;
    b <! look (fun _ => u64_shl 1 i) ;;
    s <! look (fun s => Val s) ;;
    put (N.lor s b) ;;!
    ret (negb c).
  Definition set64_act (op : set_op T) : act OrdinalSet64 (set_out T) :=
    match op with
    | SInsert t => b <! OrdinalSet64_insert_act t ;; ret (SBool b)
    | _ => replaces (set64_step O op)
    end.
End Sets.
