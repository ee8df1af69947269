(** * ModelCost: the maps and sets again, with the steps counted.

    One step is: a call of [ordinal] or [from_ordinal]; reading or writing one slot or one
    word; filling one slot or word of new storage; advancing a slice iterator or a range. All
    loops of the functions below contain such a step in each round. What is not counted
    (arithmetic, bounds checks, branches, moves, taking the address of a slot, constants,
    which are computed at compile time) takes a bounded time between two steps. So the running
    time is bounded by a constant times one more than the number of steps, provided that
    [ordinal] and [from_ordinal] take constant time and moving a value does. *)
From Verif Require Import Base Spec SpecMap ModelOrdinal ModelValues ModelArrayBuilder ModelIter ModelTotal ModelMap MapMachine ModelSet.

Definition counted (A : Type) : Type := N * res A.
Definition steps {A} (c : counted A) : N := fst c.
Definition outcome {A} (c : counted A) : res A := snd c.
Definition free {A} (r : res A) : counted A := (0, r).
Definition one {A} (r : res A) : counted A := (1, r).
Definition cbind {A B} (x : counted A) (f : A -> counted B) : counted B :=
  match outcome x with
  | Val a => let y := f a in (steps x + steps y, outcome y)
  | Panic w => (steps x, Panic w)
  | NoCompile => (steps x, NoCompile)
  | UB => (steps x, UB)
  | OutOfFuel => (steps x, OutOfFuel)
  end.
Notation "x <~ e ;; k" := (cbind e (fun x => k)) (at level 61, e at next level, right associativity).
Notation "' p <~ e ;; k" := (cbind e (fun p => k)) (at level 61, p pattern, e at next level, right associativity).
Notation "e ;;~ k" := (cbind e (fun _ => k)) (at level 61, right associativity).

(** Reads and writes of one slot. *)
Definition c_get {A} (l : list A) (i : N) : counted (option A) := one (Val (slice_get l i)).
Definition c_index {A} (l : list A) (i : N) : counted A := one (index l i).
Definition c_deref {A} (l : list A) (i : N) : counted A := one (deref l i).
Definition c_put {A} (l : list A) (i : N) (a : A) : counted (list A) := one (Val (store_at l i a)).
(** New storage of [n] equal slots. *)
Definition c_fill {A} (n : N) (a : A) : counted (list A) := (n, Val (repeat a (N.to_nat n))).

(** Driving a counted iterator. *)
Fixpoint c_drive {St A : Type} (step : dir -> St -> counted (option A * St)) (sched : list dir) (s : St)
    : counted (list (option A) * St) :=
  match sched with
  | [] => free (Val ([], s))
  | d :: ds =>
      '(o, s1) <~ step d s ;;
      '(os, s2) <~ c_drive step ds s1 ;;
      free (Val (o :: os, s2))
  end.
Fixpoint c_collect {St A : Type} (next : St -> counted (option A * St)) (fuel : nat) (s : St)
    : counted (list A * St) :=
  match fuel with
  | 0%nat => free OutOfFuel
  | S fuel' =>
      '(o, s1) <~ next s ;;
      match o with
      | None => free (Val ([], s1))
      | Some a => '(l, s2) <~ c_collect next fuel' s1 ;; free (Val (a :: l, s2))
      end
  end.

Section Cost.
  Context {cfg : Config} {K : Type} (O : Ordinal K).

  Definition c_ordinal (k : K) : counted N := one (ordinal O k).
  Definition c_from_ordinal (i : N) : counted (option K) := one (from_ordinal O i).

  (** ** map/enumerate.rs, map/iter.rs *)
  (** map/enumerate.rs:25-30, 49-53; also the iterators of map/total/iter.rs, which forward to it *)
  Definition c_enumerate_step {A} (d : dir) (s : enumerate A) : counted (option (K * A) * enumerate A) :=
    match d with
    | Front =>
        o <~ one (Val (pop_front (e_items s))) ;;
        match o with
        | None => free (Val (None, s))
        | Some (v, rest) =>
            r <~ c_from_ordinal (e_next s) ;;
            free (k <- unwrap r ;; next <- uadd (e_next s) 1 ;;
                  Val (Some (k, v), {| e_next := next; e_items := rest |}))
        end
    | Back =>
        o <~ one (Val (pop_back (e_items s))) ;;
        match o with
        | None => free (Val (None, s))
        | Some (v, rest) =>
            i <~ free (uadd (e_next s) (llen rest)) ;;
            r <~ c_from_ordinal i ;;
            free (k <- unwrap r ;; Val (Some (k, v), {| e_next := e_next s; e_items := rest |}))
        end
    end.
  (** The loop of [sparse_loop] (ModelIter.v): map/iter.rs:27-32, 44-49, 90-95, 107-112, 337-342,
      349-354, 393-398, 408-413; [sel] reads the slot to match on it. *)
  Fixpoint c_sparse_loop {A B} (sel : A -> res (option B)) (d : dir) (fuel : nat) (s : enumerate A)
      : counted (option (K * B) * enumerate A) :=
    match fuel with
    | 0%nat => free OutOfFuel
    | S fuel' =>
        '(o, s') <~ c_enumerate_step d s ;;
        match o with
        | None => free (Val (None, s'))
        | Some (k, a) =>
            b <~ one (sel a) ;;
            match b with
            | Some v => free (Val (Some (k, v), s'))
            | None => c_sparse_loop sel d fuel' s'
            end
        end
    end.
  (** map/iter.rs:11-51; also 313-371 ([IntoIterArray]) and 374-429 ([IntoIter]) *)
  Definition c_Iter_step {V} (d : dir) (s : @Iter V) : counted (option (K * V) * @Iter V) :=
    c_sparse_loop (fun o => Val o) d (S (length (e_items s))) s.
  (** map/iter.rs:70-114 *)
  Definition c_IterMut_step {V} (storage : list (option V)) (d : dir) (s : IterMut) : counted (option (K * N) * IterMut) :=
    c_sparse_loop (fun i => o <- deref storage i ;; Val (match o with Some _ => Some i | None => None end)) d
      (S (length (e_items s))) s.
  (** map/iter.rs:124-169, 173-218, 222-264 *)
  Definition c_Keys_step {V} (d : dir) (s : @Keys V) : counted (option K * @Keys V) :=
    '(o, s') <~ c_Iter_step d s ;; free (Val (opt_map fst o, s')).
  Definition c_Values_step {V} (d : dir) (s : @Values V) : counted (option V * @Values V) :=
    '(o, s') <~ c_Iter_step d s ;; free (Val (opt_map snd o, s')).
  Definition c_ValuesMut_step {V} (storage : list (option V)) (d : dir) (s : ValuesMut) : counted (option N * ValuesMut) :=
    '(o, s') <~ c_IterMut_step storage d s ;; free (Val (opt_map snd o, s')).
  (** [Iterator::count] *)
  Fixpoint c_Iter_count_loop {V} (fuel : nat) (s : @Iter V) (count : N) : counted N :=
    match fuel with
    | 0%nat => free OutOfFuel
    | S fuel' =>
        '(o, s') <~ c_Iter_step Front s ;;
        match o with
        | None => free (Val count)
        | Some _ => c <~ free (uadd count 1) ;; c_Iter_count_loop fuel' s' c
        end
    end.
  Definition c_Iter_count {V} (s : @Iter V) : counted N := c_Iter_count_loop (S (length (e_items s))) s 0.
  (** map/iter.rs:287-294, 302-309: [mem::take] reads and writes the slot. *)
  Fixpoint c_Drain_loop {V} (d : dir) (fuel : nat) (s : @Drain V) : counted (option (K * V) * @Drain V) :=
    match fuel with
    | 0%nat => free OutOfFuel
    | S fuel' =>
        '(o, iter') <~ c_enumerate_step d (snd s) ;;
        match o with
        | None => free (Val (None, (fst s, iter')))
        | Some (k, i) =>
            v <~ c_deref (fst s) i ;;
            storage' <~ c_put (fst s) i None ;;
            match v with
            | Some v => free (Val (Some (k, v), (storage', iter')))
            | None => c_Drain_loop d fuel' (storage', iter')
            end
        end
    end.
  Definition c_Drain_step {V} (d : dir) (s : @Drain V) : counted (option (K * V) * @Drain V) :=
    c_Drain_loop d (S (length (e_items (snd s)))) s.
  (** map/iter.rs:278-282 *)
  Definition c_Drain_drop {V} (s : @Drain V) : counted (list (option V) * list (K * V)) :=
    '(l, s') <~ c_collect (c_Drain_step Front) (S (length (e_items (snd s)))) s ;; free (Val (fst s', l)).

  (** ** map/entry.rs *)
  Section Entries.
    Context {V : Type}.
    (** map/entry.rs:38-40, 44-46 *)
    Definition c_OccupiedEntry_get (storage : list (option V)) (e : OccupiedEntry K) : counted V :=
      o <~ c_deref storage (o_entry e) ;; free (unwrap o).
    Definition c_OccupiedEntry_get_mut (storage : list (option V)) (e : OccupiedEntry K) : counted N :=
      o <~ c_deref storage (o_entry e) ;; free (unwrap o ;;; Val (o_entry e)).
    (** map/entry.rs:58-60: the assignment drops the old value. *)
    Definition c_VacantEntry_insert (storage : list (option V)) (e : VacantEntry K) (value : V)
        : counted (list (option V)) :=
      c_deref storage (v_entry e) ;;~ c_put storage (v_entry e) (Some value).
    (** map/entry.rs:64-70 *)
    Definition c_Entry_new (storage : list (option V)) (key : K) (entry : N) : counted (Entry K) :=
      o <~ c_deref storage entry ;;
      free (Val (match o with
                 | Some _ => Occupied {| o_key := key; o_entry := entry |}
                 | None => Vacant {| v_key := key; v_entry := entry |}
                 end)).
    (** map/entry.rs:83-88 *)
    Definition c_Entry_or_insert (storage : list (option V)) (e : Entry K) (value : V)
        : counted (N * list (option V)) :=
      match e with
      | Occupied e => o <~ c_deref storage (o_entry e) ;; free (unwrap o ;;; Val (o_entry e, storage))
      | Vacant e =>
          c_deref storage (v_entry e) ;;~
          storage' <~ c_put storage (v_entry e) (Some value) ;; free (Val (v_entry e, storage'))
      end.
  End Entries.

  (** ** map/map.rs *)
  Section Map.
    Context {V : Type}.
    Local Notation map := (@OrdinalMap V).
    (** map/map.rs:46-48, 52-54, 58-60 *)
    Definition c_OrdinalMap_get (m : map) (key : K) : counted (option V) :=
      i <~ c_ordinal key ;;
      s <~ c_get m i ;;
      free (match s with None => Val None | Some o => Val o end).
    Definition c_OrdinalMap_get_mut (m : map) (key : K) : counted (option N) :=
      i <~ c_ordinal key ;;
      s <~ c_get m i ;;
      free (match s with
            | None => Val None
            | Some o => Val (match o with Some _ => Some i | None => None end)
            end).
    Definition c_OrdinalMap_contains_key (m : map) (key : K) : counted bool :=
      i <~ c_ordinal key ;; s <~ c_get m i ;; free (Val (is_some s)).
    (** map/map.rs:64-66, 70-72 *)
    Definition c_OrdinalMap_len (m : map) : counted N := c_Iter_count (OrdinalMap_iter m).
    Definition c_OrdinalMap_is_empty (m : map) : counted bool :=
      '(o, _) <~ c_Iter_step Front (OrdinalMap_iter m) ;; free (Val (negb (is_some o))).
    (** map/map.rs:74-82 *)
    Definition c_OrdinalMap_init_full_map (m : map) : counted map :=
      size <~ free (ORDINAL_SIZE O) ;;
      if llen m =? 0 then c_fill size None else free (Val m).
    (** map/map.rs:86-89 *)
    Definition c_OrdinalMap_insert (m : map) (key : K) (value : V) : counted (option V * map) :=
      m <~ c_OrdinalMap_init_full_map m ;;
      i <~ c_ordinal key ;;
      old <~ c_index m i ;;
      m <~ c_put m i (Some value) ;;
      free (Val (old, m)).
    (** map/map.rs:92-96 *)
    Definition c_OrdinalMap_entry (m : map) (key : K) : counted (Entry K * map) :=
      m <~ c_OrdinalMap_init_full_map m ;;
      i <~ c_ordinal key ;;
      entry <~ free (index_slot m i) ;;
      e <~ c_Entry_new m key entry ;;
      free (Val (e, m)).
    (** map/map.rs:100-102 *)
    Definition c_OrdinalMap_remove (m : map) (key : K) : counted (option V * map) :=
      i <~ c_ordinal key ;;
      s <~ c_get m i ;;
      match s with
      | None => free (Val (None, m))
      | Some o => m <~ c_put m i None ;; free (Val (o, m))
      end.
    (** map/map.rs:142-144 *)
    Definition c_OrdinalMap_clear (m : map) : counted map :=
      '(m, _) <~ c_Drain_drop (OrdinalMap_drain m) ;; free (Val m).

    (** ** Client programs: the operations of MapMachine with a key; [len], [is_empty], [clear]. *)
    Definition c_entry_match (storage : list (option V)) (e : Entry K) (v w : V)
        : counted (map_out K V * list (option V)) :=
      match e with
      | Occupied e =>
          old <~ c_OccupiedEntry_get storage e ;;
          i <~ c_OccupiedEntry_get_mut storage e ;;
          st <~ one (write_some storage i w) ;;
          free (Val (OutEntry (OccupiedEntry_key e) (Some old), st))
      | Vacant e =>
          st <~ c_VacantEntry_insert storage e v ;;
          free (Val (OutEntry (VacantEntry_key e) None, st))
      end.
    Definition c_entry_or_insert (storage : list (option V)) (e : Entry K) (v w : V)
        : counted (map_out K V * list (option V)) :=
      '(i, st) <~ c_Entry_or_insert storage e v ;;
      cur <~ c_deref st i ;;
      st <~ one (write_some st i w) ;;
      free (Val (OutValue cur, st)).
    Definition c_heap_step (op : map_op K V) (m : map) : counted (map_out K V * map) :=
      match op with
      | OpInsert k v => '(o, m) <~ c_OrdinalMap_insert m k v ;; free (Val (OutValue o, m))
      | OpGet k => o <~ c_OrdinalMap_get m k ;; free (Val (OutValue o, m))
      | OpGetMut k v =>
          r <~ c_OrdinalMap_get_mut m k ;;
          match r with
          | None => free (Val (OutValue None, m))
          | Some i => o <~ c_deref m i ;; m <~ one (write_some m i v) ;; free (Val (OutValue o, m))
          end
      | OpContainsKey k => b <~ c_OrdinalMap_contains_key m k ;; free (Val (OutBool b, m))
      | OpRemove k => '(o, m) <~ c_OrdinalMap_remove m k ;; free (Val (OutValue o, m))
      | OpLen => n <~ c_OrdinalMap_len m ;; free (Val (OutNum n, m))
      | OpIsEmpty => b <~ c_OrdinalMap_is_empty m ;; free (Val (OutBool b, m))
      | OpClear => m <~ c_OrdinalMap_clear m ;; free (Val (OutUnit, m))
      | OpEntryDrop k => '(e, m) <~ c_OrdinalMap_entry m k ;; free (Val (entry_drop e, m))
      | OpEntryMatch k v w => '(e, m) <~ c_OrdinalMap_entry m k ;; c_entry_match m e v w
      | OpEntryOrInsert k v w => '(e, m) <~ c_OrdinalMap_entry m k ;; c_entry_or_insert m e v w
      | _ => free (heap_step O op m)          (* not counted *)
      end.
    Fixpoint c_heap_run (ops : list (map_op K V)) (m : map) : counted (list (map_out K V) * map) :=
      match ops with
      | [] => free (Val ([], m))
      | op :: ops' =>
          '(o, m') <~ c_heap_step op m ;;
          '(os, m'') <~ c_heap_run ops' m' ;;
          free (Val (o :: os, m''))
      end.

    (** ** map/total/map.rs:59-66, 107-109 *)
    Definition c_OrdinalTotalMap_get (m : @OrdinalTotalMap V) (key : K) : counted V :=
      i <~ c_ordinal key ;; c_index m i.
    Definition c_OrdinalTotalMap_get_mut (m : @OrdinalTotalMap V) (key : K) : counted N :=
      i <~ c_ordinal key ;; free (index_slot m i).
    Definition c_OrdinalTotalMap_insert (m : @OrdinalTotalMap V) (key : K) (value : V) : counted (V * @OrdinalTotalMap V) :=
      i <~ c_ordinal key ;; old <~ c_index m i ;; m <~ c_put m i value ;; free (Val (old, m)).
  End Map.

  (** ** map/total/array_map.rs, map/array_map.rs *)
  Section ArrayMaps.
    Context {V : Type} {S : nat}.
    Definition c_arr_store {A} (m : arr A S) (i : N) (a : A) : counted (arr A S) := one (Val (arr_store m i a)).
    (** map/total/array_map.rs:128-137, 185-187 *)
    Definition c_OrdinalTotalArrayMap_get {A} (m : OrdinalTotalArrayMap S A) (key : K) : counted A :=
      i <~ c_ordinal key ;; c_index (arr_list m) i.
    Definition c_OrdinalTotalArrayMap_get_mut {A} (m : OrdinalTotalArrayMap S A) (key : K) : counted N :=
      i <~ c_ordinal key ;; free (index_slot (arr_list m) i).
    Definition c_OrdinalTotalArrayMap_insert {A} (m : OrdinalTotalArrayMap S A) (key : K) (value : A)
        : counted (A * OrdinalTotalArrayMap S A) :=
      i <~ c_ordinal key ;; old <~ c_index (arr_list m) i ;; m <~ c_arr_store m i value ;; free (Val (old, m)).
    Local Notation amap := (@OrdinalArrayMap V S).
    (** map/array_map.rs:56-58, 61-63 *)
    Definition c_OrdinalArrayMap_len (m : amap) : counted N := c_Iter_count (OrdinalArrayMap_iter m).
    Definition c_OrdinalArrayMap_is_empty (m : amap) : counted bool :=
      '(o, _) <~ c_Iter_step Front (OrdinalArrayMap_iter m) ;; free (Val (negb (is_some o))).
    (** map/array_map.rs:67-69, 73-75, 79-81 *)
    Definition c_OrdinalArrayMap_get (m : amap) (key : K) : counted (option V) := c_OrdinalTotalArrayMap_get m key.
    Definition c_OrdinalArrayMap_get_mut (m : amap) (key : K) : counted (option N) :=
      i <~ c_OrdinalTotalArrayMap_get_mut m key ;;
      o <~ c_deref (arr_list m) i ;;
      free (Val (match o with Some _ => Some i | None => None end)).
    Definition c_OrdinalArrayMap_contains_key (m : amap) (key : K) : counted bool :=
      o <~ c_OrdinalArrayMap_get m key ;; free (Val (is_some o)).
    (** map/array_map.rs:85-87, 91-94, 98-100 *)
    Definition c_OrdinalArrayMap_insert (m : amap) (key : K) (value : V) : counted (option V * amap) :=
      i <~ c_OrdinalTotalArrayMap_get_mut m key ;;
      old <~ c_deref (arr_list m) i ;;
      m <~ c_arr_store m i (Some value) ;;
      free (Val (old, m)).
    Definition c_OrdinalArrayMap_entry (m : amap) (key : K) : counted (Entry K * amap) :=
      entry <~ c_OrdinalTotalArrayMap_get_mut m key ;;
      e <~ c_Entry_new (arr_list m) key entry ;;
      free (Val (e, m)).
    Definition c_OrdinalArrayMap_remove (m : amap) (key : K) : counted (option V * amap) :=
      i <~ c_OrdinalTotalArrayMap_get_mut m key ;;
      old <~ c_deref (arr_list m) i ;;
      m <~ c_arr_store m i None ;;
      free (Val (old, m)).
  End ArrayMaps.

  (** ** set *)
  (** set/set_ref.rs:30-35 *)
  Definition c_OrdinalSetRef_contains (r : OrdinalSetRef) (t : K) : counted bool :=
    i <~ c_ordinal t ;;
    q <~ free (udiv i 64) ;;
    w <~ c_get r q ;;
    match w with
    | None => free (Val false)
    | Some word =>
        i <~ c_ordinal t ;;
        free (m <- urem i 64 ;; b <- u64_shl 1 m ;; Val (negb (N.land word b =? 0)))
    end.
  (** set/set_mut.rs:28-33 *)
  Definition c_OrdinalSetMut_insert (words : list N) (t : K) : counted (bool * list N) :=
    r <~ free (OrdinalSetRef_new O words) ;;
    prev <~ c_OrdinalSetRef_contains r t ;;
    i <~ c_ordinal t ;;
    b <~ free (m <- urem i 64 ;; u64_shl 1 m) ;;
    i <~ c_ordinal t ;;
    q <~ free (udiv i 64) ;;
    w <~ c_index words q ;;
    words <~ c_put words q (N.lor w b) ;;
    free (Val (negb prev, words)).
  (** set/set.rs:58-60 *)
  Definition c_OrdinalSet_contains (s : OrdinalSet) (t : K) : counted bool :=
    r <~ free (OrdinalSet_as_ref O s) ;; c_OrdinalSetRef_contains r t.
  (** set/set.rs:64-80 *)
  Definition c_OrdinalSet_insert (s : OrdinalSet) (t : K) : counted (bool * OrdinalSet) :=
    small <~ free (IS_SMALL O) ;;
    match (small : bool), s with
    | true, Small w =>
        ws <~ free (OrdinalSetMut_new O [w]) ;;
        '(r, ws') <~ c_OrdinalSetMut_insert ws t ;;
        free (match ws' with [w'] => Val (r, Small w') | _ => UB end)
    | false, Large ws =>
        ws <~ (if llen ws =? 0 then
                 len <~ free (size <- ORDINAL_SIZE O ;;
                              a <- unwrap (checked_add size 64) ;;
                              b <- usub a 1 ;;
                              udiv b 64) ;;
                 c_fill len 0
               else free (Val ws)) ;;
        ws <~ free (OrdinalSetMut_new O ws) ;;
        '(r, ws') <~ c_OrdinalSetMut_insert ws t ;;
        free (Val (r, Large ws'))
    | _, _ => free (Panic PUnreachable)
    end.
  (** set/set.rs:96-102 *)
  Fixpoint c_OrdinalSet_insert_all (l : list K) (s : OrdinalSet) : counted OrdinalSet :=
    match l with
    | [] => free (Val s)
    | t :: l' => '(_, s') <~ c_OrdinalSet_insert s t ;; c_OrdinalSet_insert_all l' s'
    end.
  Definition c_OrdinalSet_from_iter (l : list K) : counted OrdinalSet :=
    s <~ free (OrdinalSet_new O) ;; c_OrdinalSet_insert_all l s.
  (** set/array.rs:65-67, 71-73 *)
  Definition c_OrdinalArraySet_contains {S : nat} (s : OrdinalArraySet S) (t : K) : counted bool :=
    r <~ free (OrdinalArraySet_as_ref O s) ;; c_OrdinalSetRef_contains r t.
  Definition c_OrdinalArraySet_insert {S : nat} (s : OrdinalArraySet S) (t : K) : counted (bool * OrdinalArraySet S) :=
    ws <~ free (ArraySet_ASSERT O S ;;; OrdinalSetMut_new O (arr_list s)) ;;
    '(r, ws') <~ c_OrdinalSetMut_insert ws t ;;
    free (a <- as_array S ws' ;; Val (r, a)).
  (** values.rs:40-43, 76-79 *)
  Definition c_values_step (d : dir) (s : OrdinalValues) : counted (option K * OrdinalValues) :=
    o <~ one (Val (match d with Front => range_next s | Back => range_next_back s end)) ;;
    match o with
    | None => free (Val (None, s))
    | Some (i, s') => r <~ c_from_ordinal i ;; free (t <- unwrap r ;; Val (Some t, s'))
    end.
  (** set/iter.rs:27-34, 44-51 *)
  Fixpoint c_set_loop (d : dir) (set : OrdinalSetRef) (fuel : nat) (it : OrdinalValues)
      : counted (option K * OrdinalValues) :=
    match fuel with
    | 0%nat => free OutOfFuel
    | S fuel' =>
        '(o, it') <~ c_values_step d it ;;
        match o with
        | None => free (Val (None, it'))
        | Some t =>
            b <~ c_OrdinalSetRef_contains set t ;;
            if (b : bool) then free (Val (Some t, it')) else c_set_loop d set fuel' it'
        end
    end.
  Definition c_SetIter_step (d : dir) (s : SetIter) : counted (option K * SetIter) :=
    '(o, it) <~ c_set_loop d (si_set s) (S (N.to_nat (range_len (si_iter s)))) (si_iter s) ;;
    free (Val (o, {| si_iter := it; si_set := si_set s |})).
  (** set/set64.rs:129-132, 110-115: [self.set] is one word. *)
  Definition c_OrdinalSet64_contains (s : OrdinalSet64) (t : K) : counted bool :=
    free (Set64_ASSERT O) ;;~
    i <~ c_ordinal t ;;
    s <~ one (Val s) ;;
    free (b <- u64_shl 1 i ;; Val (negb (N.land s b =? 0))).
  Definition c_OrdinalSet64_insert (s : OrdinalSet64) (t : K) : counted (bool * OrdinalSet64) :=
    free (Set64_ASSERT O) ;;~
    c <~ c_OrdinalSet64_contains s t ;;
    i <~ c_ordinal t ;;
    s <~ one (Val s) ;;
    b <~ free (u64_shl 1 i) ;;
    s <~ one (Val (N.lor s b)) ;;
    free (Val (negb c, s)).
  (** set/set64.rs:20-28, 46-50 *)
  Definition c_Iter64_step (d : dir) (s : Iter64) : counted (option K * Iter64) :=
    s <~ one (Val s) ;;
    match (match d with
           | Front => if trailing_zeros s =? 64 then None else Some (trailing_zeros s)
           | Back => checked_sub (64 - 1) (leading_zeros s)
           end) with
    | None => free (Val (None, s))
    | Some i =>
        b <~ free (u64_shl 1 i) ;;
        s' <~ one (Val (N.land s (u64_not b))) ;;
        o <~ c_from_ordinal i ;;
        free (t <- unwrap o ;; Val (Some t, s'))
    end.
End Cost.
