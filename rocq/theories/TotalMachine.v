(** * TotalMachine: client programs run on the model of the two total maps.

    Each operation of SpecTotal is carried out by calling the modelled functions of
    map/total/map.rs and map/total/array_map.rs. *)
From Verif Require Import Base Spec SpecMap SpecTotal ModelOrdinal ModelValues ModelArrayBuilder ModelIter
  ModelTotal.

(** Reading through each collected reference, then writing [f k old] through it. *)
Fixpoint twrite_entries {K V} (f : K -> V -> V) (got : list (option (K * N))) (storage : list V)
    : res (list (option (K * V)) * list V) :=
  match got with
  | [] => Val ([], storage)
  | None :: r => '(l, st) <- twrite_entries f r storage ;; Val (None :: l, st)
  | Some (k, i) :: r =>
      old <- deref storage i ;;
      '(l, st) <- twrite_entries f r (store_at storage i (f k old)) ;;
      Val (Some (k, old) :: l, st)
  end.
Fixpoint twrite_values {V} (f : V -> V) (got : list (option N)) (storage : list V)
    : res (list (option V) * list V) :=
  match got with
  | [] => Val ([], storage)
  | None :: r => '(l, st) <- twrite_values f r storage ;; Val (None :: l, st)
  | Some i :: r =>
      old <- deref storage i ;;
      '(l, st) <- twrite_values f r (store_at storage i (f old)) ;;
      Val (Some old :: l, st)
  end.

(** [next]/[next_back] of std's [slice::Iter], [slice::IterMut]. *)
Definition slice_step {A} (d : dir) (l : list A) : res (option A * list A) :=
  Val (match d with
       | Front => match pop_front l with None => (None, l) | Some (x, r) => (Some x, r) end
       | Back => match pop_back l with None => (None, l) | Some (x, r) => (Some x, r) end
       end).

Section TotalMachine.
  Context {cfg : Config} {K V : Type} (O : Ordinal K).

  (** map/total/map.rs *)
  Definition htotal_step (op : total_op K V) (m : @OrdinalTotalMap V)
      : res (total_out K V * @OrdinalTotalMap V) :=
    match op with
    | TGet k => v <- OrdinalTotalMap_get O m k ;; Val (TOValue v, m)
    | TIndex k => v <- OrdinalTotalMap_index O m k ;; Val (TOValue v, m)
    | TGetMut k v =>
        i <- OrdinalTotalMap_get_mut O m k ;; old <- deref m i ;; Val (TOValue old, store_at m i v)
    | TIndexMut k v =>
        i <- OrdinalTotalMap_index_mut O m k ;; old <- deref m i ;; Val (TOValue old, store_at m i v)
    | TInsert k v => '(old, m) <- OrdinalTotalMap_insert O m k v ;; Val (TOValue old, m)
    | TLen => n <- OrdinalTotalMap_len O m ;; Val (TONum n, m)
    | TIsEmpty => b <- OrdinalTotalMap_is_empty O m ;; Val (TOBool b, m)
    | TIter_ sched =>
        '(got, _) <- drive (TIter_step O) sched (OrdinalTotalMap_iter m) ;; Val (TOEntries got, m)
    | TIterMut_ sched f =>
        '(got, _) <- drive (TIterMut_step O) sched (OrdinalTotalMap_iter_mut m) ;;
        '(l, m) <- twrite_entries f got m ;; Val (TOEntries l, m)
    | TValuesMut_ sched f =>
        '(got, _) <- drive slice_step sched (OrdinalTotalMap_values_mut m) ;;
        '(l, m) <- twrite_values f got m ;; Val (TOValues l, m)
    | TKeys_ sched =>
        it <- OrdinalTotalMap_keys O m ;;
        '(got, _) <- drive (values_step O) sched it ;; Val (TOKeys got, m)
    | TValues_ sched =>
        '(got, _) <- drive slice_step sched (OrdinalTotalMap_values m) ;; Val (TOValues got, m)
    | TClone_ cl => Val (TOUnit, OrdinalTotalMap_clone cl m)
    | TDebug_ => l <- OrdinalTotalMap_debug O m ;; Val (TOList l, m)
    end.

  Fixpoint htotal_run (ops : list (total_op K V)) (m : @OrdinalTotalMap V)
      : res (list (total_out K V) * @OrdinalTotalMap V) :=
    match ops with
    | [] => Val ([], m)
    | op :: ops' =>
        '(o, m') <- htotal_step op m ;;
        '(os, m'') <- htotal_run ops' m' ;;
        Val (o :: os, m'')
    end.

  Context (S : nat).
  Notation amap := (OrdinalTotalArrayMap S V).

  (** The array after a borrow that handed out slots ended with contents [l]. *)
  Definition tback (r : total_out K V * list V) : res (total_out K V * amap) :=
    match try_arr S (snd r) with Some a => Val (fst r, a) | None => UB end.

  (** map/total/array_map.rs *)
  Definition atotal_step (op : total_op K V) (m : amap) : res (total_out K V * amap) :=
    match op with
    | TGet k => v <- OrdinalTotalArrayMap_get O m k ;; Val (TOValue v, m)
    | TIndex k => v <- OrdinalTotalArrayMap_index O m k ;; Val (TOValue v, m)
    | TGetMut k v =>
        i <- OrdinalTotalArrayMap_get_mut O m k ;; old <- deref (arr_list m) i ;;
        Val (TOValue old, arr_store m i v)
    | TIndexMut k v =>
        i <- OrdinalTotalArrayMap_index_mut O m k ;; old <- deref (arr_list m) i ;;
        Val (TOValue old, arr_store m i v)
    | TInsert k v => '(old, m) <- OrdinalTotalArrayMap_insert O m k v ;; Val (TOValue old, m)
    | TLen => Val (TONum (OrdinalTotalArrayMap_len m), m)
    | TIsEmpty => Val (TOBool (OrdinalTotalArrayMap_is_empty m), m)
    | TIter_ sched =>
        '(got, _) <- drive (TIter_step O) sched (OrdinalTotalArrayMap_iter m) ;; Val (TOEntries got, m)
    | TIterMut_ sched f =>
        '(got, _) <- drive (TIterMut_step O) sched (OrdinalTotalArrayMap_iter_mut m) ;;
        '(l, st) <- twrite_entries f got (arr_list m) ;; tback (TOEntries l, st)
    | TValuesMut_ sched f =>
        '(got, _) <- drive slice_step sched (OrdinalTotalArrayMap_values_mut m) ;;
        '(l, st) <- twrite_values f got (arr_list m) ;; tback (TOValues l, st)
    | TKeys_ sched =>
        it <- OrdinalTotalArrayMap_keys O m ;;
        '(got, _) <- drive (values_step O) sched it ;; Val (TOKeys got, m)
    | TValues_ sched =>
        '(got, _) <- drive slice_step sched (OrdinalTotalArrayMap_values m) ;; Val (TOValues got, m)
    | TClone_ cl => Val (TOUnit, OrdinalTotalArrayMap_clone cl m)
    | TDebug_ => l <- OrdinalTotalArrayMap_debug O m ;; Val (TOList l, m)
    end.

  Fixpoint atotal_run (ops : list (total_op K V)) (m : amap) : res (list (total_out K V) * amap) :=
    match ops with
    | [] => Val ([], m)
    | op :: ops' =>
        '(o, m') <- atotal_step op m ;;
        '(os, m'') <- atotal_run ops' m' ;;
        Val (o :: os, m'')
    end.

  (** Maps reachable by client programs: built by [try_new] (or, for the array map, by
      [from_array] with the right size), then operated on. *)
  Definition htotal_reachable (m : @OrdinalTotalMap V) : Prop :=
    exists (E St : Type) (init : St -> K -> St * res (result V E)) st st' m0 ops outs,
      OrdinalTotalMap_try_new O init st = (st', Val (ResOk m0)) /\ htotal_run ops m0 = Val (outs, m).
  Definition atotal_reachable (m : amap) : Prop :=
    exists m0 ops outs,
      ((exists (E St : Type) (init : St -> K -> St * res (result V E)) st,
          returned (snd (OrdinalTotalArrayMap_try_new O S init st)) = Val (ResOk m0)) \/
       (exists array, ORDINAL_SIZE O = Val (N.of_nat S) /\
          OrdinalTotalArrayMap_from_array array = Val m0)) /\
      atotal_run ops m0 = Val (outs, m).
End TotalMachine.

(** Writing through a [&mut V] into slot [i]. *)
Definition write_slot {V} (storage : list V) (i : N) (v : V) : res (list V) :=
  deref storage i ;;; Val (store_at storage i v).
