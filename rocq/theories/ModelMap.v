(** * ModelMap: map/entry.rs, map/map.rs and map/array_map.rs.

    A reference is the number of the slot it points to; the storage is passed explicitly
    to operations on references. Allocation is assumed to succeed. *)
From Verif Require Import Base Spec ModelOrdinal ModelValues ModelArrayBuilder ModelIter ModelTotal.

(** ** map/entry.rs *)
Section EntryApi.
  Context {K V : Type}.

  (** map/entry.rs:3-27: [entry] is the slot of the [Option<V>]. *)
  Record OccupiedEntry := { o_key : K; o_entry : N }.
  Record VacantEntry := { v_key : K; v_entry : N }.
  Inductive Entry := Occupied (e : OccupiedEntry) | Vacant (e : VacantEntry).

  (** map/entry.rs:32-34 *)
  Definition OccupiedEntry_key (e : OccupiedEntry) : K := o_key e.
  (** map/entry.rs:38-40 *)
  Definition OccupiedEntry_get (storage : list (option V)) (e : OccupiedEntry) : res V :=
    o <- deref storage (o_entry e) ;; unwrap o.
  (** map/entry.rs:44-46: the slot of the value. *)
  Definition OccupiedEntry_get_mut (storage : list (option V)) (e : OccupiedEntry) : res N :=
    o <- deref storage (o_entry e) ;; unwrap o ;;; Val (o_entry e).
  (** map/entry.rs:52-54 *)
  Definition VacantEntry_key (e : VacantEntry) : K := v_key e.
  (** map/entry.rs:58-60 *)
  Definition VacantEntry_insert (storage : list (option V)) (e : VacantEntry) (value : V)
      : res (list (option V)) :=
    deref storage (v_entry e) ;;; Val (store_at storage (v_entry e) (Some value)).
  (** map/entry.rs:64-70 *)
  Definition Entry_new (storage : list (option V)) (key : K) (entry : N) : res Entry :=
    o <- deref storage entry ;;
    Val (match o with
         | Some _ => Occupied {| o_key := key; o_entry := entry |}
         | None => Vacant {| v_key := key; v_entry := entry |}
         end).
  (** map/entry.rs:74-79 *)
  Definition Entry_key (e : Entry) : K :=
    match e with Occupied e => OccupiedEntry_key e | Vacant e => VacantEntry_key e end.
  (** map/entry.rs:83-88: returns the slot of the value. *)
  Definition Entry_or_insert (storage : list (option V)) (e : Entry) (value : V)
      : res (N * list (option V)) :=
    match e with
    | Occupied e =>
        o <- deref storage (o_entry e) ;; unwrap o ;;; Val (o_entry e, storage)
    | Vacant e =>
        deref storage (v_entry e) ;;; Val (v_entry e, store_at storage (v_entry e) (Some value))
    end.
End EntryApi.
Arguments OccupiedEntry K : clear implicits.
Arguments VacantEntry K : clear implicits.
Arguments Entry K : clear implicits.

(** Writing [v] through a [&mut V] that points inside the [Some] of slot [i]. *)
Definition write_some {V} (storage : list (option V)) (i : N) (v : V) : res (list (option V)) :=
  o <- deref storage i ;;
  match o with Some _ => Val (store_at storage i (Some v)) | None => UB end.

Definition is_some {A} (o : option A) : bool := match o with Some _ => true | None => false end.

Section Map.
  Context {cfg : Config} {K V : Type} (O : Ordinal K).

  (** ** map/map.rs *)

  (** map/map.rs:27-31 *)
  Definition OrdinalMap := list (option V).

  (** map/map.rs:37-42, also Default at 147-152 *)
  Definition OrdinalMap_new : OrdinalMap := [].
  Definition OrdinalMap_default : OrdinalMap := OrdinalMap_new.
  (** map/map.rs:46-48 *)
  Definition OrdinalMap_get (m : OrdinalMap) (key : K) : res (option V) :=
    i <- ordinal O key ;;
    match slice_get m i with None => Val None | Some o => Val o end.
  (** map/map.rs:52-54: the slot of the value. *)
  Definition OrdinalMap_get_mut (m : OrdinalMap) (key : K) : res (option N) :=
    i <- ordinal O key ;;
    match slice_get m i with
    | None => Val None
    | Some o => Val (match o with Some _ => Some i | None => None end)
    end.
  (** map/map.rs:58-60 *)
  Definition OrdinalMap_contains_key (m : OrdinalMap) (key : K) : res bool :=
    i <- ordinal O key ;; Val (is_some (slice_get m i)).
  (** map/map.rs:106-108 *)
  Definition OrdinalMap_iter (m : OrdinalMap) : @Iter V := Iter_new (TIter_new m 0).
  (** map/map.rs:64-66 *)
  Definition OrdinalMap_len (m : OrdinalMap) : res N := Iter_count O (OrdinalMap_iter m).
  (** map/map.rs:70-72 *)
  Definition OrdinalMap_is_empty (m : OrdinalMap) : res bool :=
    '(o, _) <- Iter_step O Front (OrdinalMap_iter m) ;; Val (negb (is_some o)).
  (** map/map.rs:74-82 *)
  Definition OrdinalMap_init_full_map (m : OrdinalMap) : res OrdinalMap :=
    size <- ORDINAL_SIZE O ;;
    if llen m =? 0 then Val (repeat None (N.to_nat size)) else Val m.
  (** map/map.rs:86-89 *)
  Definition OrdinalMap_insert (m : OrdinalMap) (key : K) (value : V) : res (option V * OrdinalMap) :=
    m <- OrdinalMap_init_full_map m ;;
    i <- ordinal O key ;;
    old <- index m i ;;
    Val (old, store_at m i (Some value)).
  (** map/map.rs:92-96 *)
  Definition OrdinalMap_entry (m : OrdinalMap) (key : K) : res (Entry K * OrdinalMap) :=
    m <- OrdinalMap_init_full_map m ;;
    i <- ordinal O key ;;
    entry <- index_slot m i ;;
    e <- Entry_new m key entry ;;
    Val (e, m).
  (** map/map.rs:100-102 *)
  Definition OrdinalMap_remove (m : OrdinalMap) (key : K) : res (option V * OrdinalMap) :=
    i <- ordinal O key ;;
    match slice_get m i with
    | None => Val (None, m)
    | Some o => Val (o, store_at m i None)
    end.
  (** map/map.rs:112-114, 118-120, 124-126, 130-132 *)
  Definition OrdinalMap_iter_mut (m : OrdinalMap) : IterMut := IterMut_new (TIterMut_new (slots (length m))).
  Definition OrdinalMap_keys (m : OrdinalMap) : @Keys V := Keys_new (OrdinalMap_iter m).
  Definition OrdinalMap_values (m : OrdinalMap) : @Values V := Values_new (OrdinalMap_iter m).
  Definition OrdinalMap_values_mut (m : OrdinalMap) : ValuesMut := ValuesMut_new (OrdinalMap_iter_mut m).
  (** map/map.rs:136-138 *)
  Definition OrdinalMap_drain (m : OrdinalMap) : @Drain V := Drain_new m (TIterMut_new (slots (length m))).
  (** map/map.rs:142-144: the Drain is dropped at once. *)
  Definition OrdinalMap_clear (m : OrdinalMap) : res OrdinalMap :=
    '(m, _) <- Drain_drop O (OrdinalMap_drain m) ;; Val m.
  (** map/map.rs:154-162 *)
  Fixpoint OrdinalMap_from_iter_loop (l : list (K * V)) (m : OrdinalMap) : res OrdinalMap :=
    match l with
    | [] => Val m
    | (k, v) :: l' => '(_, m) <- OrdinalMap_insert m k v ;; OrdinalMap_from_iter_loop l' m
    end.
  Definition OrdinalMap_from_iter (l : list (K * V)) : res OrdinalMap :=
    OrdinalMap_from_iter_loop l OrdinalMap_new.
  (** map/map.rs:164-171 *)
  Definition OrdinalMap_clone (cl : V -> V) (m : OrdinalMap) : OrdinalMap := map (opt_map cl) m.
  (** map/map.rs:173-177: the entries passed to [debug_map]. *)
  Definition OrdinalMap_debug (m : OrdinalMap) : res (list (K * V)) :=
    '(l, _) <- collect (Iter_step O Front) (S (length m)) (OrdinalMap_iter m) ;; Val l.
  (** map/map.rs:179-187, 189-197 *)
  Definition OrdinalMap_into_iter (m : OrdinalMap) : @IntoIter V := IntoIter_new (TIntoIter_new m).
  Definition OrdinalMap_ref_into_iter (m : OrdinalMap) : @Iter V := OrdinalMap_iter m.
End Map.

Section ArrayMap.
  Context {cfg : Config} {K V : Type} (O : Ordinal K) (S : nat).

  (** ** map/array_map.rs *)

  (** map/array_map.rs:39-41 *)
  Definition OrdinalArrayMap := OrdinalTotalArrayMap S (option V).

  (** map/array_map.rs:46-50, also Default at 159-164 *)
  Definition OrdinalArrayMap_new : res OrdinalArrayMap :=
    returned (snd (OrdinalTotalArrayMap_new O S (fun st _ => (st, Val None)) tt)).
  Definition OrdinalArrayMap_default : res OrdinalArrayMap := OrdinalArrayMap_new.
  (** map/array_map.rs:104-106 *)
  Definition OrdinalArrayMap_iter (m : OrdinalArrayMap) : @Iter V :=
    Iter_new (OrdinalTotalArrayMap_iter m).
  (** map/array_map.rs:56-58 *)
  Definition OrdinalArrayMap_len (m : OrdinalArrayMap) : res N := Iter_count O (OrdinalArrayMap_iter m).
  (** map/array_map.rs:61-63 *)
  Definition OrdinalArrayMap_is_empty (m : OrdinalArrayMap) : res bool :=
    '(o, _) <- Iter_step O Front (OrdinalArrayMap_iter m) ;; Val (negb (is_some o)).
  (** map/array_map.rs:67-69 *)
  Definition OrdinalArrayMap_get (m : OrdinalArrayMap) (key : K) : res (option V) :=
    OrdinalTotalArrayMap_get O m key.
  (** map/array_map.rs:73-75: the slot of the value. *)
  Definition OrdinalArrayMap_get_mut (m : OrdinalArrayMap) (key : K) : res (option N) :=
    i <- OrdinalTotalArrayMap_get_mut O m key ;;
    o <- deref (arr_list m) i ;;
    Val (match o with Some _ => Some i | None => None end).
  (** map/array_map.rs:79-81 *)
  Definition OrdinalArrayMap_contains_key (m : OrdinalArrayMap) (key : K) : res bool :=
    o <- OrdinalArrayMap_get m key ;; Val (is_some o).
  (** map/array_map.rs:85-87 *)
  Definition OrdinalArrayMap_insert (m : OrdinalArrayMap) (key : K) (value : V)
      : res (option V * OrdinalArrayMap) :=
    i <- OrdinalTotalArrayMap_get_mut O m key ;;
    old <- deref (arr_list m) i ;;
    Val (old, arr_store m i (Some value)).
  (** map/array_map.rs:91-94 *)
  Definition OrdinalArrayMap_entry (m : OrdinalArrayMap) (key : K) : res (Entry K * OrdinalArrayMap) :=
    entry <- OrdinalTotalArrayMap_index_mut O m key ;;
    e <- Entry_new (arr_list m) key entry ;;
    Val (e, m).
  (** map/array_map.rs:98-100 *)
  Definition OrdinalArrayMap_remove (m : OrdinalArrayMap) (key : K) : res (option V * OrdinalArrayMap) :=
    i <- OrdinalTotalArrayMap_get_mut O m key ;;
    old <- deref (arr_list m) i ;;
    Val (old, arr_store m i None).
  (** map/array_map.rs:110-112, 116-118, 122-124, 128-130 *)
  Definition OrdinalArrayMap_iter_mut (m : OrdinalArrayMap) : IterMut :=
    IterMut_new (OrdinalTotalArrayMap_iter_mut m).
  Definition OrdinalArrayMap_keys (m : OrdinalArrayMap) : @Keys V := Keys_new (OrdinalArrayMap_iter m).
  Definition OrdinalArrayMap_values (m : OrdinalArrayMap) : @Values V := Values_new (OrdinalArrayMap_iter m).
  Definition OrdinalArrayMap_values_mut (m : OrdinalArrayMap) : ValuesMut :=
    ValuesMut_new (OrdinalArrayMap_iter_mut m).
  (** map/array_map.rs:134-136 *)
  Definition OrdinalArrayMap_drain (m : OrdinalArrayMap) : @Drain V :=
    Drain_new (arr_list m) (OrdinalTotalArrayMap_iter_mut m).
  (** The array after a borrow that handed out slots ended with contents [l]. *)
  Definition arr_back (l : list (option V)) : res OrdinalArrayMap :=
    match try_arr S l with Some a => Val a | None => UB end.
  (** map/array_map.rs:140-142 *)
  Definition OrdinalArrayMap_clear (m : OrdinalArrayMap) : res OrdinalArrayMap :=
    '(l, _) <- Drain_drop O (OrdinalArrayMap_drain m) ;; arr_back l.
  (** map/array_map.rs:149-155; [f st key value] returns its new state, the value it left behind
      and its result (it may panic). Returns the final storage in every case. *)
  Fixpoint OrdinalArrayMap_retain_loop {St} (f : St -> K -> V -> St * V * res bool)
      (fuel : nat) (storage : list (option V)) (it : TIterMut) (st : St)
      : St * list (option V) * res unit :=
    match fuel with
    | 0%nat => (st, storage, OutOfFuel)
    | Datatypes.S fuel' =>
        match TIterMut_step O Front it with
        | Val (None, _) => (st, storage, Val tt)
        | Val (Some (key, i), it') =>
            match deref storage i with
            | Val (Some value) =>
                let '(st', value', r) := f st key value in
                let storage' := store_at storage i (Some value') in
                match r with
                | Val true => OrdinalArrayMap_retain_loop f fuel' storage' it' st'
                | Val false => OrdinalArrayMap_retain_loop f fuel' (store_at storage' i None) it' st'
                | Panic w => (st', storage', Panic w)
                | NoCompile => (st', storage', NoCompile)
                | UB => (st', storage', UB)
                | OutOfFuel => (st', storage', OutOfFuel)
                end
            | Val None => OrdinalArrayMap_retain_loop f fuel' storage it' st
            | _ => (st, storage, UB)
            end
        | Panic w => (st, storage, Panic w)
        | NoCompile => (st, storage, NoCompile)
        | UB => (st, storage, UB)
        | OutOfFuel => (st, storage, OutOfFuel)
        end
    end.
  Definition OrdinalArrayMap_retain {St} (f : St -> K -> V -> St * V * res bool)
      (m : OrdinalArrayMap) (st : St) : St * list (option V) * res unit :=
    OrdinalArrayMap_retain_loop f (Datatypes.S (length (arr_list m))) (arr_list m)
      (OrdinalTotalArrayMap_iter_mut m) st.
  (** map/array_map.rs:166-174 *)
  Fixpoint OrdinalArrayMap_from_iter_loop (l : list (K * V)) (m : OrdinalArrayMap) : res OrdinalArrayMap :=
    match l with
    | [] => Val m
    | (k, v) :: l' => '(_, m) <- OrdinalArrayMap_insert m k v ;; OrdinalArrayMap_from_iter_loop l' m
    end.
  Definition OrdinalArrayMap_from_iter (l : list (K * V)) : res OrdinalArrayMap :=
    m <- OrdinalArrayMap_new ;; OrdinalArrayMap_from_iter_loop l m.
  (** map/array_map.rs:176-182 *)
  Definition OrdinalArrayMap_clone (cl : V -> V) (m : OrdinalArrayMap) : OrdinalArrayMap :=
    OrdinalTotalArrayMap_clone (opt_map cl) m.
  (** map/array_map.rs:184-188 *)
  Definition OrdinalArrayMap_debug (m : OrdinalArrayMap) : res (list (K * V)) :=
    '(l, _) <- collect (Iter_step O Front) (Datatypes.S (length (arr_list m)))
                       (OrdinalArrayMap_iter m) ;; Val l.
  (** map/array_map.rs:190-208 *)
  Definition OrdinalArrayMap_into_iter (m : OrdinalArrayMap) : @IntoIterArray V :=
    IntoIterArray_new (OrdinalTotalArrayMap_into_iter m).
  Definition OrdinalArrayMap_ref_into_iter (m : OrdinalArrayMap) : @Iter V := OrdinalArrayMap_iter m.
End ArrayMap.
