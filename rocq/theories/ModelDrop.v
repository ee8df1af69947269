(** * ModelDrop: code that runs user code inside a [drop] or an [Iterator::next].

    The destructor of a value is a stateful operation [drop st x] that may panic. It is run
    with the key of the entry as well, so that a destructor of the key can be folded in.
    Leaving a scope by a panic runs the destructors of what the scope still owns; the
    functions below return what that is: the storage, which outlives the call or is dropped
    by the compiler's drop glue (not crate code). *)
From Verif Require Import Base Spec ModelOrdinal ModelValues ModelArrayBuilder ModelIter ModelTotal ModelMap ModelSet.

Section Drops.
  Context {cfg : Config} {K V St : Type} (O : Ordinal K).
  Context (drop : St -> K * V -> St * res unit).

  (** map/iter.rs:278-282: [for _ in self {}]. [next] takes the value out of its slot before
      the loop drops it; a panic leaves the loop with the slots as they are. (Should [next]
      itself panic, the state before that call is returned.) *)
  Fixpoint Drain_drop_loop (fuel : nat) (d : @Drain V) (st : St) : St * @Drain V * res unit :=
    match fuel with
    | 0%nat => (st, d, OutOfFuel)
    | S fuel' =>
        match Drain_step O Front d with
        | Val (None, d') => (st, d', Val tt)
        | Val (Some item, d') =>
            let '(st', r) := drop st item in
            match r with
            | Val _ => Drain_drop_loop fuel' d' st'
            | r => (st', d', r)
            end
        | Panic w => (st, d, Panic w)
        | NoCompile => (st, d, NoCompile)
        | UB => (st, d, UB)
        | OutOfFuel => (st, d, OutOfFuel)
        end
    end.
  Definition Drain_drop_with (d : @Drain V) (st : St) : St * list (option V) * res unit :=
    let '(st', d', r) := Drain_drop_loop (S (length (e_items (snd d)))) d st in (st', fst d', r).
  (** map/map.rs:142-144 *)
  Definition OrdinalMap_clear_with (m : @OrdinalMap V) (st : St) : St * list (option V) * res unit :=
    Drain_drop_with (OrdinalMap_drain m) st.
  (** map/array_map.rs:140-142 *)
  Definition OrdinalArrayMap_clear_with {S : nat} (m : @OrdinalArrayMap V S) (st : St)
      : St * list (option V) * res unit :=
    Drain_drop_with (OrdinalArrayMap_drain m) st.

  (** map/array_map.rs:145-156. [*value_opt = None] drops the old value in place; the slot is
      assigned also when that panics (Rust's drop-and-replace). *)
  Fixpoint OrdinalArrayMap_retain_loop_with (f : St -> K -> V -> St * V * res bool)
      (fuel : nat) (storage : list (option V)) (it : TIterMut) (st : St)
      : St * list (option V) * res unit :=
    match fuel with
    | 0%nat => (st, storage, OutOfFuel)
    | S fuel' =>
        match TIterMut_step O Front it with
        | Val (None, _) => (st, storage, Val tt)
        | Val (Some (key, i), it') =>
            match deref storage i with
            | Val (Some value) =>
                let '(st', value', r) := f st key value in
                let storage' := store_at storage i (Some value') in
                match r with
                | Val true => OrdinalArrayMap_retain_loop_with f fuel' storage' it' st'
                | Val false =>
                    let '(st'', r) := drop st' (key, value') in
                    let storage'' := store_at storage' i None in
                    match r with
                    | Val _ => OrdinalArrayMap_retain_loop_with f fuel' storage'' it' st''
                    | r => (st'', storage'', r)
                    end
                | Panic w => (st', storage', Panic w)
                | NoCompile => (st', storage', NoCompile)
                | UB => (st', storage', UB)
                | OutOfFuel => (st', storage', OutOfFuel)
                end
            | Val None => OrdinalArrayMap_retain_loop_with f fuel' storage it' st
            | _ => (st, storage, UB)
            end
        | Panic w => (st, storage, Panic w)
        | NoCompile => (st, storage, NoCompile)
        | UB => (st, storage, UB)
        | OutOfFuel => (st, storage, OutOfFuel)
        end
    end.
  Definition OrdinalArrayMap_retain_with {S : nat} (f : St -> K -> V -> St * V * res bool)
      (m : @OrdinalArrayMap V S) (st : St) : St * list (option V) * res unit :=
    OrdinalArrayMap_retain_loop_with f (Datatypes.S (length (arr_list m))) (arr_list m)
      (OrdinalTotalArrayMap_iter_mut m) st.
End Drops.

(** ** array_builder.rs *)
Section Builder.
  Context {T St : Type} (drop : St -> T -> St * res unit).

  (** array_builder.rs:14-22. A cell counts as uninitialised once its destructor has been
      started, so a second drop of it would be [UB]. Also returns the cells. *)
  Fixpoint builder_drop_loop_with (cells : list (option T)) (n i : nat) (st : St)
      : St * list (option T) * res unit :=
    match n with
    | O => (st, cells, Val tt)
    | S n' =>
        match nth_error cells i with
        | None => (st, cells, Panic PIndex)
        | Some None => (st, cells, UB)
        | Some (Some v) =>
            let '(st', r) := drop st v in
            let cells' := list_set cells i None in
            match r with
            | Val _ => builder_drop_loop_with cells' n' (S i) st'
            | r => (st', cells', r)
            end
        end
    end.
  Definition builder_drop_with (b : builder T) (st : St) : St * list (option T) * res unit :=
    builder_drop_loop_with (b_cells b) (b_filled b) 0 st.
End Builder.

(** ** FromIterator *)

(** [for x in iter { body }] with a stateful iterator [next] that may panic and need not be
    fused; [m] is the collection under construction. The loop need not end: it is bounded by
    [fuel]. *)
Fixpoint for_loop {St M A : Type} (next : St -> St * res (option A))
    (body : St -> M -> A -> St * M * res unit) (fuel : nat) (m : M) (st : St) : St * M * res unit :=
  match fuel with
  | 0%nat => (st, m, OutOfFuel)
  | S fuel' =>
      let '(st', o) := next st in
      match o with
      | Val None => (st', m, Val tt)
      | Val (Some x) =>
          let '(st'', m', r) := body st' m x in
          match r with
          | Val _ => for_loop next body fuel' m' st''
          | r => (st'', m', r)
          end
      | Panic w => (st', m, Panic w)
      | NoCompile => (st', m, NoCompile)
      | UB => (st', m, UB)
      | OutOfFuel => (st', m, OutOfFuel)
      end
  end.

(** [map.insert(key, value);]: the value replaced is dropped at the end of the statement, when
    it is no longer in the map. (Should [insert] panic, the map before the call is returned.) *)
Definition insert_stmt {K V St M : Type} (drop : St -> K * V -> St * res unit)
    (insert : M -> K -> V -> res (option V * M)) (st : St) (m : M) (kv : K * V) : St * M * res unit :=
  match insert m (fst kv) (snd kv) with
  | Val (None, m') => (st, m', Val tt)
  | Val (Some old, m') => let '(st', r) := drop st (fst kv, old) in (st', m', r)
  | Panic w => (st, m, Panic w)
  | NoCompile => (st, m, NoCompile)
  | UB => (st, m, UB)
  | OutOfFuel => (st, m, OutOfFuel)
  end.
(** [set.insert(value);] and [set.set |= ..;]: nothing is replaced. *)
Definition set_stmt {T St M : Type} (insert : M -> T -> res M) (st : St) (m : M) (t : T) : St * M * res unit :=
  match insert m t with
  | Val m' => (st, m', Val tt)
  | Panic w => (st, m, Panic w)
  | NoCompile => (st, m, NoCompile)
  | UB => (st, m, UB)
  | OutOfFuel => (st, m, OutOfFuel)
  end.

Section FromIter.
  Context {cfg : Config} {K V St : Type} (O : Ordinal K).
  Context (drop : St -> K * V -> St * res unit).

  (** map/map.rs:154-162 *)
  Definition OrdinalMap_from_iter_with (next : St -> St * res (option (K * V))) (fuel : nat) (st : St)
      : res (St * @OrdinalMap V * res unit) :=
    Val (for_loop next (insert_stmt drop (OrdinalMap_insert O)) fuel OrdinalMap_new st).
  (** map/array_map.rs:166-174 *)
  Definition OrdinalArrayMap_from_iter_with (S : nat) (next : St -> St * res (option (K * V))) (fuel : nat) (st : St)
      : res (St * @OrdinalArrayMap V S * res unit) :=
    m <- OrdinalArrayMap_new O S ;;
    Val (for_loop next (insert_stmt drop (@OrdinalArrayMap_insert _ _ O S)) fuel m st).
  (** set/set.rs:95-103 *)
  Definition OrdinalSet_from_iter_with (next : St -> St * res (option K)) (fuel : nat) (st : St)
      : res (St * OrdinalSet * res unit) :=
    s <- OrdinalSet_new O ;;
    Val (for_loop next (set_stmt (fun s t => '(_, s) <- OrdinalSet_insert O s t ;; Val s)) fuel s st).
  (** set/array.rs:86-94 *)
  Definition OrdinalArraySet_from_iter_with (S : nat) (next : St -> St * res (option K)) (fuel : nat) (st : St)
      : res (St * OrdinalArraySet S * res unit) :=
    s <- OrdinalArraySet_new O S ;;
    Val (for_loop next (set_stmt (fun s t => '(_, s) <- OrdinalArraySet_insert O s t ;; Val s)) fuel s st).
  (** set/set64.rs:141-149 *)
  Definition OrdinalSet64_from_iter_with (next : St -> St * res (option K)) (fuel : nat) (st : St)
      : res (St * OrdinalSet64 * res unit) :=
    s <- OrdinalSet64_new O ;;
    Val (for_loop next (set_stmt (fun s t => i <- ordinal O t ;; b <- u64_shl 1 i ;; Val (N.lor s b))) fuel s st).
End FromIter.
