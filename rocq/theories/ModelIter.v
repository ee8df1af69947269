(** * ModelIter: map/enumerate.rs, map/total/iter.rs, map/iter.rs.

    std's [slice::Iter], [vec::IntoIter] and [array::IntoIter] are the list of items not
    yet handed out; [slice::IterMut] is the list of slot numbers not yet handed out (a
    [&mut] reference is the number of the slot it points to; the storage is a separate
    list). *)
From Verif Require Import Base Spec ModelValues.

(** Dereferencing a reference to slot [i]. *)
Definition deref {A} (storage : list A) (i : N) : res A :=
  match slice_get storage i with Some a => Val a | None => UB end.

(** Reading the slots [is] one after another. *)
Fixpoint read_slots {A} (storage : list A) (is : list N) : res (list A) :=
  match is with
  | [] => Val []
  | i :: r => a <- deref storage i ;; l <- read_slots storage r ;; Val (a :: l)
  end.

(** map/enumerate.rs:5-9 *)
Record enumerate (A : Type) := { e_next : N; e_items : list A }.
Arguments Build_enumerate {A} _ _.
Arguments e_next {A} _.
Arguments e_items {A} _.

Section Iter.
  Context {cfg : Config} {K : Type} (O : Ordinal K).

  (** ** map/enumerate.rs *)
  Section Enumerate.
    Context {A : Type}.

    (** map/enumerate.rs:12-18 *)
    Definition enumerate_new (iter : list A) (next : N) : enumerate A :=
      {| e_next := next; e_items := iter |}.

    (** map/enumerate.rs:25-30 *)
    Definition enumerate_next (s : enumerate A) : res (option (K * A) * enumerate A) :=
      match pop_front (e_items s) with
      | None => Val (None, s)
      | Some (v, rest) =>
          r <- from_ordinal O (e_next s) ;;
          k <- unwrap r ;;
          next <- uadd (e_next s) 1 ;;
          Val (Some (k, v), {| e_next := next; e_items := rest |})
      end.

    (** map/enumerate.rs:49-53 *)
    Definition enumerate_next_back (s : enumerate A) : res (option (K * A) * enumerate A) :=
      match pop_back (e_items s) with
      | None => Val (None, s)
      | Some (v, rest) =>
          i <- uadd (e_next s) (llen rest) ;;
          r <- from_ordinal O i ;;
          k <- unwrap r ;;
          Val (Some (k, v), {| e_next := e_next s; e_items := rest |})
      end.

    (** map/enumerate.rs:33-35 and std's exact [size_hint] of the inner iterator *)
    Definition enumerate_size_hint (s : enumerate A) : N * option N :=
      (llen (e_items s), Some (llen (e_items s))).

    (** map/enumerate.rs:40-42 *)
    Definition enumerate_len (s : enumerate A) : N := llen (e_items s).

    (** map/enumerate.rs:58-64; [cl] is the clone of one item. *)
    Definition enumerate_clone (cl : A -> A) (s : enumerate A) : enumerate A :=
      {| e_next := e_next s; e_items := map cl (e_items s) |}.

    (** One call of [next] or [next_back]. *)
    Definition enumerate_step (d : dir) (s : enumerate A) : res (option (K * A) * enumerate A) :=
      match d with Front => enumerate_next s | Back => enumerate_next_back s end.
  End Enumerate.

  (** ** map/total/iter.rs *)
  Section Total.
    Context {V : Type}.

    (** map/total/iter.rs:14-50: [Iter] forwards to OrdinalEnumerate over [slice::Iter]. *)
    Definition TIter := enumerate V.
    Definition TIter_new (iter : list V) (next : N) : TIter := enumerate_new iter next.
    Definition TIter_step (d : dir) (s : TIter) : res (option (K * V) * TIter) := enumerate_step d s.
    Definition TIter_size_hint (s : TIter) : N * option N := enumerate_size_hint s.
    Definition TIter_len (s : TIter) : N := enumerate_len s.
    (** map/total/iter.rs:52-58; cloning a [slice::Iter] copies references. *)
    Definition TIter_clone (s : TIter) : TIter := enumerate_clone (fun v => v) s.
    (** map/total/iter.rs:60-64: the entries passed to [debug_list]. *)
    Definition TIter_debug (s : TIter) : res (list (K * V)) :=
      '(l, _) <- collect (TIter_step Front) (S (length (e_items s))) (TIter_clone s) ;; Val l.

    (** map/total/iter.rs:69-108: [IterMut] over [slice::IterMut]; items are slots. *)
    Definition TIterMut := enumerate N.
    Definition TIterMut_new (iter : list N) : TIterMut := enumerate_new iter 0.
    Definition TIterMut_step (d : dir) (s : TIterMut) : res (option (K * N) * TIterMut) :=
      enumerate_step d s.
    Definition TIterMut_size_hint (s : TIterMut) : N * option N := enumerate_size_hint s.
    Definition TIterMut_len (s : TIterMut) : N := enumerate_len s.
    (** map/total/iter.rs:81-83 *)
    Definition TIterMut_iter (storage : list V) (s : TIterMut) : res TIter :=
      items <- read_slots storage (e_items s) ;; Val (TIter_new items (e_next s)).
    (** map/total/iter.rs:110-114 *)
    Definition TIterMut_debug (storage : list V) (s : TIterMut) : res (list (K * V)) :=
      it <- TIterMut_iter storage s ;; TIter_debug it.

    (** map/total/iter.rs:117-168: [IntoIterArray]; [size_hint] is not overridden, so it is
        the default [(0, None)] of the Iterator trait. *)
    Definition TIntoIterArray := enumerate V.
    Definition TIntoIterArray_new (iter : list V) : TIntoIterArray := enumerate_new iter 0.
    Definition TIntoIterArray_step (d : dir) (s : TIntoIterArray)
        : res (option (K * V) * TIntoIterArray) := enumerate_step d s.
    Definition TIntoIterArray_size_hint (s : TIntoIterArray) : N * option N := (0, None).
    Definition TIntoIterArray_len (s : TIntoIterArray) : N := enumerate_len s.
    Definition TIntoIterArray_clone (cl : V -> V) (s : TIntoIterArray) : TIntoIterArray :=
      enumerate_clone cl s.
    Definition TIntoIterArray_iter (s : TIntoIterArray) : TIter := TIter_new (e_items s) (e_next s).
    Definition TIntoIterArray_debug (s : TIntoIterArray) : res (list (K * V)) :=
      TIter_debug (TIntoIterArray_iter s).

    (** map/total/iter.rs:171-228: [IntoIter] over [vec::IntoIter]. *)
    Definition TIntoIter := enumerate V.
    Definition TIntoIter_new (iter : list V) : TIntoIter := enumerate_new iter 0.
    Definition TIntoIter_step (d : dir) (s : TIntoIter) : res (option (K * V) * TIntoIter) :=
      enumerate_step d s.
    Definition TIntoIter_size_hint (s : TIntoIter) : N * option N := enumerate_size_hint s.
    Definition TIntoIter_len (s : TIntoIter) : N := enumerate_len s.
    Definition TIntoIter_clone (cl : V -> V) (s : TIntoIter) : TIntoIter := enumerate_clone cl s.
    Definition TIntoIter_iter (s : TIntoIter) : TIter := TIter_new (e_items s) (e_next s).
    Definition TIntoIter_debug (s : TIntoIter) : res (list (K * V)) := TIter_debug (TIntoIter_iter s).
  End Total.

  (** ** map/iter.rs *)

  (** The loop [loop { let (k, x) = self.iter.next()?; if let Some(v) = .. { return Some((k, v)); } }]
      which occurs textually in map/iter.rs:27-32, 44-49, 90-95, 107-112, 337-342, 349-354,
      393-398, 408-413 with [total_step] the [next]/[next_back] of the wrapped iterator
      and [sel] the pattern match on the item. *)
  Fixpoint sparse_loop {A B : Type} (total_step : enumerate A -> res (option (K * A) * enumerate A))
      (sel : A -> res (option B)) (fuel : nat) (s : enumerate A)
      : res (option (K * B) * enumerate A) :=
    match fuel with
    | 0%nat => OutOfFuel
    | S fuel' =>
        '(o, s') <- total_step s ;;
        match o with
        | None => Val (None, s')
        | Some (k, a) =>
            b <- sel a ;;
            match b with
            | Some v => Val (Some (k, v), s')
            | None => sparse_loop total_step sel fuel' s'
            end
        end
    end.

  Section Sparse.
    Context {V : Type}.

    (** map/iter.rs:11-51: items of the wrapped iterator are [&Option<V>]. *)
    Definition Iter := @TIter (option V).
    Definition Iter_new (iter : @TIter (option V)) : Iter := iter.
    Definition Iter_step (d : dir) (s : Iter) : res (option (K * V) * Iter) :=
      sparse_loop (TIter_step d) (fun o => Val o) (S (length (e_items s))) s.
    (** map/iter.rs:36-38 *)
    Definition Iter_size_hint (s : Iter) : N * option N := (0, Some (TIter_len s)).
    (** map/iter.rs:53-60 *)
    Definition Iter_clone (s : Iter) : Iter := TIter_clone s.
    (** map/iter.rs:62-66 *)
    Definition Iter_debug (s : Iter) : res (list (K * V)) :=
      '(l, _) <- collect (Iter_step Front) (S (length (e_items s))) (Iter_clone s) ;; Val l.

    (** The default [Iterator::count]: [fold(0, |count, _| count + 1)] over [next]. *)
    Fixpoint Iter_count_loop (fuel : nat) (s : Iter) (count : N) : res N :=
      match fuel with
      | 0%nat => OutOfFuel
      | S fuel' =>
          '(o, s') <- Iter_step Front s ;;
          match o with
          | None => Val count
          | Some _ => c <- uadd count 1 ;; Iter_count_loop fuel' s' c
          end
      end.
    Definition Iter_count (s : Iter) : res N := Iter_count_loop (S (length (e_items s))) s 0.

    (** map/iter.rs:70-114: the item is the slot of the value inside the [Some]. *)
    Definition IterMut := TIterMut.
    Definition IterMut_new (iter : TIterMut) : IterMut := iter.
    Definition IterMut_step (storage : list (option V)) (d : dir) (s : IterMut)
        : res (option (K * N) * IterMut) :=
      sparse_loop (TIterMut_step d)
        (fun i => o <- deref storage i ;; Val (match o with Some _ => Some i | None => None end))
        (S (length (e_items s))) s.
    Definition IterMut_size_hint (s : IterMut) : N * option N := (0, Some (TIterMut_len s)).
    (** map/iter.rs:80-82, 116-120 *)
    Definition IterMut_iter (storage : list (option V)) (s : IterMut) : res Iter :=
      it <- TIterMut_iter storage s ;; Val (Iter_new it).
    Definition IterMut_debug (storage : list (option V)) (s : IterMut) : res (list (K * V)) :=
      it <- IterMut_iter storage s ;; Iter_debug it.

    (** map/iter.rs:124-169 *)
    Definition Keys := Iter.
    Definition Keys_new (iter : Iter) : Keys := iter.
    Definition Keys_step (d : dir) (s : Keys) : res (option K * Keys) :=
      '(o, s') <- Iter_step d s ;; Val (opt_map fst o, s').
    Definition Keys_size_hint (s : Keys) : N * option N := Iter_size_hint s.
    Definition Keys_clone (s : Keys) : Keys := Iter_clone s.
    Definition Keys_debug (s : Keys) : res (list K) :=
      '(l, _) <- collect (Keys_step Front) (S (length (e_items s))) (Keys_clone s) ;; Val l.

    (** map/iter.rs:173-218 *)
    Definition Values := Iter.
    Definition Values_new (iter : Iter) : Values := iter.
    Definition Values_step (d : dir) (s : Values) : res (option V * Values) :=
      '(o, s') <- Iter_step d s ;; Val (opt_map snd o, s').
    Definition Values_size_hint (s : Values) : N * option N := Iter_size_hint s.
    Definition Values_clone (s : Values) : Values := Iter_clone s.
    Definition Values_debug (s : Values) : res (list V) :=
      '(l, _) <- collect (Values_step Front) (S (length (e_items s))) (Values_clone s) ;; Val l.

    (** map/iter.rs:222-264 *)
    Definition ValuesMut := IterMut.
    Definition ValuesMut_new (iter : IterMut) : ValuesMut := iter.
    Definition ValuesMut_step (storage : list (option V)) (d : dir) (s : ValuesMut)
        : res (option N * ValuesMut) :=
      '(o, s') <- IterMut_step storage d s ;; Val (opt_map snd o, s').
    Definition ValuesMut_size_hint (s : ValuesMut) : N * option N := IterMut_size_hint s.
    Definition ValuesMut_iter (storage : list (option V)) (s : ValuesMut) : res Values :=
      it <- IterMut_iter storage s ;; Val (Values_new it).
    Definition ValuesMut_debug (storage : list (option V)) (s : ValuesMut) : res (list V) :=
      it <- ValuesMut_iter storage s ;; Values_debug it.

    (** map/iter.rs:268-310: the state is the mutably borrowed storage and the iterator. *)
    Definition Drain : Type := list (option V) * TIterMut.
    Definition Drain_new (storage : list (option V)) (iter : TIterMut) : Drain := (storage, iter).
    (** The loops of map/iter.rs:287-294 and 302-309; [mem::take] leaves [None]. *)
    Fixpoint Drain_loop (d : dir) (fuel : nat) (s : Drain) : res (option (K * V) * Drain) :=
      match fuel with
      | 0%nat => OutOfFuel
      | S fuel' =>
          let '(storage, iter) := s in
          '(o, iter') <- TIterMut_step d iter ;;
          match o with
          | None => Val (None, (storage, iter'))
          | Some (k, i) =>
              v <- deref storage i ;;
              let storage' := store_at storage i None in
              match v with
              | Some v => Val (Some (k, v), (storage', iter'))
              | None => Drain_loop d fuel' (storage', iter')
              end
          end
      end.
    Definition Drain_step (d : dir) (s : Drain) : res (option (K * V) * Drain) :=
      Drain_loop d (S (length (e_items (snd s)))) s.
    (** map/iter.rs:296-298 *)
    Definition Drain_size_hint (s : Drain) : N * option N := (0, Some (TIterMut_len (snd s))).
    (** map/iter.rs:278-282: [for _ in self {}]; returns the storage given back to the map and
        the values dropped. *)
    Definition Drain_drop (s : Drain) : res (list (option V) * list (K * V)) :=
      '(l, s') <- collect (Drain_step Front) (S (length (e_items (snd s)))) s ;; Val (fst s', l).

    (** map/iter.rs:313-371; no [size_hint]: default [(0, None)]. *)
    Definition IntoIterArray := @TIntoIterArray (option V).
    Definition IntoIterArray_new (iter : @TIntoIterArray (option V)) : IntoIterArray := iter.
    Definition IntoIterArray_step (d : dir) (s : IntoIterArray) : res (option (K * V) * IntoIterArray) :=
      sparse_loop (TIntoIterArray_step d) (fun o => Val o) (S (length (e_items s))) s.
    Definition IntoIterArray_size_hint (s : IntoIterArray) : N * option N := (0, None).
    Definition IntoIterArray_iter (s : IntoIterArray) : Iter := Iter_new (TIntoIterArray_iter s).
    Definition IntoIterArray_debug (s : IntoIterArray) : res (list (K * V)) :=
      Iter_debug (IntoIterArray_iter s).
    Definition IntoIterArray_clone (cl : V -> V) (s : IntoIterArray) : IntoIterArray :=
      TIntoIterArray_clone (opt_map cl) s.

    (** map/iter.rs:374-429 *)
    Definition IntoIter := @TIntoIter (option V).
    Definition IntoIter_new (iter : @TIntoIter (option V)) : IntoIter := iter.
    Definition IntoIter_step (d : dir) (s : IntoIter) : res (option (K * V) * IntoIter) :=
      sparse_loop (TIntoIter_step d) (fun o => Val o) (S (length (e_items s))) s.
    Definition IntoIter_size_hint (s : IntoIter) : N * option N := (0, Some (TIntoIter_len s)).
    Definition IntoIter_iter (s : IntoIter) : Iter := Iter_new (TIntoIter_iter s).
    Definition IntoIter_debug (s : IntoIter) : res (list (K * V)) := Iter_debug (IntoIter_iter s).
    Definition IntoIter_clone (cl : V -> V) (s : IntoIter) : IntoIter :=
      TIntoIter_clone (opt_map cl) s.
  End Sparse.
End Iter.
