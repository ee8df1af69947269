(** * MapMachine: client programs run on the model of the two sparse maps.

    Each operation of SpecMap is carried out by calling the modelled functions of
    map/map.rs and map/array_map.rs (and iterators, entries) the way the comments in
    SpecMap say. *)
From Verif Require Import Base Spec SpecMap ModelOrdinal ModelValues ModelArrayBuilder ModelIter
  ModelTotal ModelMap.

Section Refs.
  Context {K V : Type}.

  (** Read through each collected reference, then write [f k old] through it. *)
  Fixpoint write_entries (f : K -> V -> V) (got : list (option (K * N))) (storage : list (option V))
      : res (list (option (K * V)) * list (option V)) :=
    match got with
    | [] => Val ([], storage)
    | None :: r => '(l, st) <- write_entries f r storage ;; Val (None :: l, st)
    | Some (k, i) :: r =>
        o <- deref storage i ;;
        match o with
        | None => UB                       (* a [&mut V] into a [None] *)
        | Some old =>
            st1 <- write_some storage i (f k old) ;;
            '(l, st) <- write_entries f r st1 ;;
            Val (Some (k, old) :: l, st)
        end
    end.

  Fixpoint write_values (f : V -> V) (got : list (option N)) (storage : list (option V))
      : res (list (option V) * list (option V)) :=
    match got with
    | [] => Val ([], storage)
    | None :: r => '(l, st) <- write_values f r storage ;; Val (None :: l, st)
    | Some i :: r =>
        o <- deref storage i ;;
        match o with
        | None => UB
        | Some old =>
            st1 <- write_some storage i (f old) ;;
            '(l, st) <- write_values f r st1 ;;
            Val (Some old :: l, st)
        end
    end.

  (** The storage after using an entry. *)
  Definition entry_match (storage : list (option V)) (e : Entry K) (v w : V)
      : res (map_out K V * list (option V)) :=
    match e with
    | Occupied e =>
        old <- OccupiedEntry_get storage e ;;
        i <- OccupiedEntry_get_mut storage e ;;
        st <- write_some storage i w ;;
        Val (OutEntry (OccupiedEntry_key e) (Some old), st)
    | Vacant e =>
        st <- VacantEntry_insert storage e v ;;
        Val (OutEntry (VacantEntry_key e) None, st)
    end.
  Definition entry_or_insert (storage : list (option V)) (e : Entry K) (v w : V)
      : res (map_out K V * list (option V)) :=
    '(i, st) <- Entry_or_insert storage e v ;;
    cur <- deref st i ;;
    st <- write_some st i w ;;
    Val (OutValue cur, st).
  Definition entry_drop (e : Entry K) : map_out K V :=
    OutBool (match e with Occupied _ => true | Vacant _ => false end).
End Refs.

(** Driving a mutable iterator with writes in between; [refs] are the slots handed out. *)
Fixpoint mut_run {It R V X} (step : list X -> dir -> It -> res (option R * It)) (slot : R -> N)
    (write : list X -> N -> V -> res (list X)) (evs : list (mut_event V))
    (storage : list X) (it : It) (refs : list N) : res (list (option R) * list X) :=
  match evs with
  | [] => Val ([], storage)
  | EStep d :: evs' =>
      '(o, it') <- step storage d it ;;
      '(os, st) <- mut_run step slot write evs' storage it' (refs ++ map slot (somes [o])) ;;
      Val (o :: os, st)
  | EWrite j v :: evs' =>
      st <- match nth_error refs j with Some i => write storage i v | None => Val storage end ;;
      mut_run step slot write evs' st it refs
  end.

Section Machine.
  Context {cfg : Config} {K V : Type} (O : Ordinal K).

  Definition heap_step (op : map_op K V) (m : @OrdinalMap V) : res (map_out K V * @OrdinalMap V) :=
    match op with
    | OpInsert k v => '(o, m) <- OrdinalMap_insert O m k v ;; Val (OutValue o, m)
    | OpGet k => o <- OrdinalMap_get O m k ;; Val (OutValue o, m)
    | OpGetMut k v =>
        r <- OrdinalMap_get_mut O m k ;;
        match r with
        | None => Val (OutValue None, m)
        | Some i => o <- deref m i ;; m <- write_some m i v ;; Val (OutValue o, m)
        end
    | OpContainsKey k => b <- OrdinalMap_contains_key O m k ;; Val (OutBool b, m)
    | OpRemove k => '(o, m) <- OrdinalMap_remove O m k ;; Val (OutValue o, m)
    | OpLen => n <- OrdinalMap_len O m ;; Val (OutNum n, m)
    | OpIsEmpty => b <- OrdinalMap_is_empty O m ;; Val (OutBool b, m)
    | OpClear => m <- OrdinalMap_clear O m ;; Val (OutUnit, m)
    | OpDrain sched leak =>
        '(got, d) <- drive (Drain_step O) sched (OrdinalMap_drain m) ;;
        if leak then Val (OutEntries got, fst d)
        else '(m, _) <- Drain_drop O d ;; Val (OutEntries got, m)
    | OpIter sched =>
        '(got, _) <- drive (Iter_step O) sched (OrdinalMap_iter m) ;; Val (OutEntries got, m)
    | OpKeys sched =>
        '(got, _) <- drive (Keys_step O) sched (OrdinalMap_keys m) ;; Val (OutKeys got, m)
    | OpValues sched =>
        '(got, _) <- drive (Values_step O) sched (OrdinalMap_values m) ;; Val (OutValues got, m)
    | OpIterMut sched f =>
        '(got, _) <- drive (IterMut_step O m) sched (OrdinalMap_iter_mut m) ;;
        '(l, m) <- write_entries f got m ;; Val (OutEntries l, m)
    | OpValuesMut sched f =>
        '(got, _) <- drive (ValuesMut_step O m) sched (OrdinalMap_values_mut m) ;;
        '(l, m) <- write_values f got m ;; Val (OutValues l, m)
    | OpEntryDrop k => '(e, m) <- OrdinalMap_entry O m k ;; Val (entry_drop e, m)
    | OpEntryMatch k v w => '(e, m) <- OrdinalMap_entry O m k ;; entry_match m e v w
    | OpEntryOrInsert k v w => '(e, m) <- OrdinalMap_entry O m k ;; entry_or_insert m e v w
    | OpRetain f => NoCompile              (* OrdinalMap has no [retain] *)
    | OpClone cl => Val (OutUnit, OrdinalMap_clone cl m)
    | OpDebug => l <- OrdinalMap_debug O m ;; Val (OutList l, m)
    end.

  Fixpoint heap_run (ops : list (map_op K V)) (m : @OrdinalMap V)
      : res (list (map_out K V) * @OrdinalMap V) :=
    match ops with
    | [] => Val ([], m)
    | op :: ops' =>
        '(o, m') <- heap_step op m ;;
        '(os, m'') <- heap_run ops' m' ;;
        Val (o :: os, m'')
    end.

  Context (S : nat).
  Notation amap := (@OrdinalArrayMap V S).

  (** A pure [retain] closure as a stateful one. *)
  Definition pure_retain (f : K -> V -> V * bool) (st : unit) (k : K) (v : V) : unit * V * res bool :=
    let '(v', b) := f k v in (st, v', Val b).

  Definition back (r : map_out K V * list (option V)) : res (map_out K V * amap) :=
    m <- arr_back S (snd r) ;; Val (fst r, m).

  Definition array_step (op : map_op K V) (m : amap) : res (map_out K V * amap) :=
    match op with
    | OpInsert k v => '(o, m) <- OrdinalArrayMap_insert O m k v ;; Val (OutValue o, m)
    | OpGet k => o <- OrdinalArrayMap_get O m k ;; Val (OutValue o, m)
    | OpGetMut k v =>
        r <- OrdinalArrayMap_get_mut O m k ;;
        match r with
        | None => Val (OutValue None, m)
        | Some i => o <- deref (arr_list m) i ;;
                    l <- write_some (arr_list m) i v ;; back (OutValue o, l)
        end
    | OpContainsKey k => b <- OrdinalArrayMap_contains_key O m k ;; Val (OutBool b, m)
    | OpRemove k => '(o, m) <- OrdinalArrayMap_remove O m k ;; Val (OutValue o, m)
    | OpLen => n <- OrdinalArrayMap_len O m ;; Val (OutNum n, m)
    | OpIsEmpty => b <- OrdinalArrayMap_is_empty O m ;; Val (OutBool b, m)
    | OpClear => m <- OrdinalArrayMap_clear O m ;; Val (OutUnit, m)
    | OpDrain sched leak =>
        '(got, d) <- drive (Drain_step O) sched (OrdinalArrayMap_drain m) ;;
        if leak then back (OutEntries got, fst d)
        else '(l, _) <- Drain_drop O d ;; back (OutEntries got, l)
    | OpIter sched =>
        '(got, _) <- drive (Iter_step O) sched (OrdinalArrayMap_iter m) ;; Val (OutEntries got, m)
    | OpKeys sched =>
        '(got, _) <- drive (Keys_step O) sched (OrdinalArrayMap_keys m) ;; Val (OutKeys got, m)
    | OpValues sched =>
        '(got, _) <- drive (Values_step O) sched (OrdinalArrayMap_values m) ;; Val (OutValues got, m)
    | OpIterMut sched f =>
        '(got, _) <- drive (IterMut_step O (arr_list m)) sched (OrdinalArrayMap_iter_mut m) ;;
        '(l, st) <- write_entries f got (arr_list m) ;; back (OutEntries l, st)
    | OpValuesMut sched f =>
        '(got, _) <- drive (ValuesMut_step O (arr_list m)) sched (OrdinalArrayMap_values_mut m) ;;
        '(l, st) <- write_values f got (arr_list m) ;; back (OutValues l, st)
    | OpEntryDrop k => '(e, m) <- OrdinalArrayMap_entry O m k ;; Val (entry_drop e, m)
    | OpEntryMatch k v w =>
        '(e, m) <- OrdinalArrayMap_entry O m k ;; r <- entry_match (arr_list m) e v w ;; back r
    | OpEntryOrInsert k v w =>
        '(e, m) <- OrdinalArrayMap_entry O m k ;; r <- entry_or_insert (arr_list m) e v w ;; back r
    | OpRetain f =>
        let '(_, st, r) := OrdinalArrayMap_retain O (pure_retain f) m tt in
        r ;;; back (OutUnit, st)
    | OpClone cl => Val (OutUnit, OrdinalArrayMap_clone cl m)
    | OpDebug => l <- OrdinalArrayMap_debug O m ;; Val (OutList l, m)
    end.

  Fixpoint array_run (ops : list (map_op K V)) (m : amap) : res (list (map_out K V) * amap) :=
    match ops with
    | [] => Val ([], m)
    | op :: ops' =>
        '(o, m') <- array_step op m ;;
        '(os, m'') <- array_run ops' m' ;;
        Val (o :: os, m'')
    end.

  (** States reachable by client programs. *)
  Definition heap_reachable (m : @OrdinalMap V) : Prop :=
    exists ops outs, heap_run ops OrdinalMap_new = Val (outs, m).
  Definition array_reachable (m : amap) : Prop :=
    exists m0 ops outs, OrdinalArrayMap_new O S = Val m0 /\ array_run ops m0 = Val (outs, m).
End Machine.
