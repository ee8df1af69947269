(** * PropMap: properties C26 - C37 and C39, and the parts of C38, C40 and C62 about the
    sparse maps (map/map.rs, map/array_map.rs, map/iter.rs, map/entry.rs).

    [heap_run O ops m] / [array_run O ops m]: the client program [ops] run on the model
    (MapMachine.v); [spec_run eqd ks ops m]: what it does to the mathematical partial map
    [m] (SpecMap.v). [heap_reachable] / [array_reachable]: states such programs reach from
    [new]. [lists_entries O get l]: [l] is the list of the entries in key order.
    [collects], [double_ended], ...: SpecIter.v; [ref_to], [entry_ok], [drain_ok],
    [built_from]: SpecApi.v. The keys may be of any type with a bijective Ordinal: every
    lawful one, and [char] as well. *)
From Verif Require Import Base Spec SpecMap SpecIter SpecApi ModelOrdinal ModelValues ModelArrayBuilder ModelIter ModelTotal
  ModelMap MapMachine OrdinalProofs MapProofs5 MapWitness.
From Coq Require Import List.
Import ListNotations.

(** ** The cases used below: a heap map and an array map over [Ordering]. *)
Example Ordering_case : @ordinal_bijection debug64 _ Ordinal_Ordering 3 /\ enumeration Ordinal_Ordering [Lt; Eq; Gt].
Proof.
  split; [apply (@Ordering_lawful debug64)|]. split; [intros []; cbn; auto|].
  repeat constructor; eexists _, _; repeat split.
Qed.
Example heap_case :
  heap_reachable (cfg := debug64) Ordinal_Ordering [Some 3; None; Some 7] /\
  lists_entries Ordinal_Ordering (OrdinalMap_get (V := N) Ordinal_Ordering [Some 3; None; Some 7]) [(Lt, 3); (Gt, 7)].
Proof.
  split.
  - exists [@OpInsert _ N Gt 9; @OpEntryOrInsert _ N Lt 3 3; @OpEntryDrop _ N Eq; @OpGetMut _ N Gt 7].
    eexists. reflexivity.
  - split; [|repeat constructor; eexists _, _; repeat split].
    intros k v. cbn. split.
    + intros [[= <- <-]|[[= <- <-]|[]]]; reflexivity.
    + destruct k; cbn; intros [= <-]; auto.
Qed.
Example array_case : exists a, arr_list a = [Some 3; None; Some 7] /\
  array_reachable (cfg := debug64) (S := 3) Ordinal_Ordering a /\
  lists_entries Ordinal_Ordering (OrdinalArrayMap_get (V := N) Ordinal_Ordering a) [(Lt, 3); (Gt, 7)].
Proof.
  destruct (OrdinalArrayMap_new (V := N) Ordinal_Ordering 3) as [a0| | | |] eqn:E; try discriminate E.
  destruct (array_run (cfg := debug64) Ordinal_Ordering [@OpInsert _ N Gt 7; @OpInsert _ N Lt 3] a0)
    as [[outs a]| | | |] eqn:E2; try (injection E as <-; discriminate E2).
  exists a. assert (L : arr_list a = [Some 3; None; Some 7]).
  { injection E as <-. vm_compute in E2. injection E2 as _ <-. reflexivity. }
  split; [exact L|]. split; [exists a0, [@OpInsert _ N Gt 7; @OpInsert _ N Lt 3], outs; auto|].
  split; [|repeat constructor; eexists _, _; repeat split].
  destruct a as [al aok]. cbn in L. subst al.
  intros k v. cbn. split.
  - intros [[= <- <-]|[[= <- <-]|[]]]; reflexivity.
  - destruct k; cbn; intros [= <-]; auto.
Qed.

(** ** C26 *)
Theorem C26_map_is_a_partial_map : forall (cfg : Config) (K V : Type) (O : Ordinal K) (n : N),
  ordinal_bijection O n ->
  forall (eqd : forall a b : K, {a = b} + {a <> b}) (ks : list K) (ops : list (map_op K V)),
  enumeration O ks -> forallb has_heap ops = true -> forallb not_contains_key ops = true ->
  exists st, heap_run O ops OrdinalMap_new = Val (fst (spec_run eqd ks ops pm_empty), st) /\
    forall k, OrdinalMap_get O st k = Val (snd (spec_run eqd ks ops pm_empty) k).
Proof. exact @heap_map_law. Qed.
Print Assumptions C26_map_is_a_partial_map.

Definition Ordering_eq_dec : forall a b : comparison, {a = b} + {a <> b} := ltac:(decide equality).
Definition sample_ops : list (map_op comparison N) :=
  [@OpInsert _ N Gt 9; OpGet Eq; @OpEntryOrInsert _ N Lt 3 4; @OpGetMut _ N Gt 7; OpLen; OpIter [Back; Front; Front];
   @OpIterMut _ N [Front] (fun _ v => v + 1); OpRemove Gt; @OpEntryMatch _ N Eq 1 2; OpDrain [Back] true; OpDebug].
Example C26_case : forallb has_heap sample_ops = true /\ forallb not_contains_key sample_ops = true /\
  fst (spec_run Ordering_eq_dec [Lt; Eq; Gt] sample_ops pm_empty) =
    [OutValue None; OutValue None; OutValue (Some 3); OutValue (Some 9); OutNum 2;
     OutEntries [Some (Gt, 7); Some (Lt, 4); None]; OutEntries [Some (Lt, 4)]; OutValue (Some 7);
     OutEntry Eq None; OutEntries [Some (Eq, 1)]; OutList [(Lt, 5)]].
Proof. repeat split; vm_compute; reflexivity. Qed.

(** ** C27. False: after an insertion of another key [contains_key] says true for every key.
    What does hold: it is true for present keys, and says whether storage was allocated. *)
Theorem C27_contains_key_refuted : exists (st : @OrdinalMap N) (k : bool),
  heap_reachable (cfg := release64) Ordinal_bool st /\
  OrdinalMap_contains_key Ordinal_bool st k = Val true /\ OrdinalMap_get Ordinal_bool st k = Val None.
Proof. exact contains_key_refuted. Qed.
Print Assumptions C27_contains_key_refuted.
Theorem C27_contains_key_partial : forall (cfg : Config) (K V : Type) (O : Ordinal K) (n : N),
  ordinal_bijection O n -> forall st : @OrdinalMap V, heap_reachable O st -> forall k,
  OrdinalMap_contains_key O st k = Val (negb (llen st =? 0)).
Proof. exact @contains_key_slots. Qed.
Print Assumptions C27_contains_key_partial.
Theorem C27_contains_key_present_partial : forall (cfg : Config) (K V : Type) (O : Ordinal K) (n : N),
  ordinal_bijection O n -> forall st : @OrdinalMap V, heap_reachable O st -> forall k v,
  OrdinalMap_get O st k = Val (Some v) -> OrdinalMap_contains_key O st k = Val true.
Proof. exact @contains_key_sound. Qed.
Print Assumptions C27_contains_key_present_partial.
Example C27_case : OrdinalMap_get Ordinal_Ordering [Some 3; None; Some 7] Gt = Val (Some 7) /\
  OrdinalMap_contains_key (V := N) Ordinal_Ordering [] Gt = Val false.
Proof. split; reflexivity. Qed.

(** ** C28. [allocates]: insert and entry. *)
Theorem C28_lazy_allocation : forall (cfg : Config) (K V : Type) (O : Ordinal K) (n : N),
  ordinal_bijection O n ->
  forall (ops : list (map_op K V)) outs st, heap_run O ops OrdinalMap_new = Val (outs, st) ->
  llen st = if existsb allocates ops then n else 0.
Proof. exact @heap_size_law. Qed.
Print Assumptions C28_lazy_allocation.
Example C28_case :
  (exists outs, heap_run (cfg := debug64) Ordinal_Ordering [OpGet Lt; OpRemove Gt; OpClear; OpDrain [Front] false] [] =
     Val (outs, ([] : list (option N)))) /\
  (exists outs, heap_run (cfg := debug64) Ordinal_Ordering [@OpEntryDrop _ N Lt; OpClear; OpDrain [Front] false] [] =
     Val (outs, [None; None; None])).
Proof. split; eexists; reflexivity. Qed.

(** ** C29 *)
Theorem C29_array_map_is_a_partial_map : forall (cfg : Config) (K V : Type) (O : Ordinal K) (n : N),
  ordinal_bijection O n ->
  forall (eqd : forall a b : K, {a = b} + {a <> b}) (ks : list K) (S : nat) (ops : list (map_op K V)),
  enumeration O ks ->
  (N.of_nat S <> n -> OrdinalArrayMap_new (V := V) O S = NoCompile) /\
  (N.of_nat S = n -> exists a0 a, OrdinalArrayMap_new O S = Val a0 /\
     array_run O ops a0 = Val (fst (spec_run eqd ks ops pm_empty), a) /\
     forall k, OrdinalArrayMap_get O a k = Val (snd (spec_run eqd ks ops pm_empty) k)).
Proof. exact @array_map_law. Qed.
Print Assumptions C29_array_map_is_a_partial_map.
Example C29_case :
  fst (spec_run Ordering_eq_dec [Lt; Eq; Gt]
    (sample_ops ++ [@OpInsert _ N Gt 8; @OpRetain _ N (fun k v => (v * 2, 6 <? v)); OpContainsKey Gt; OpContainsKey Lt; OpDebug])
    pm_empty) =
    [OutValue None; OutValue None; OutValue (Some 3); OutValue (Some 9); OutNum 2;
     OutEntries [Some (Gt, 7); Some (Lt, 4); None]; OutEntries [Some (Lt, 4)]; OutValue (Some 7);
     OutEntry Eq None; OutEntries [Some (Eq, 1)]; OutList [(Lt, 5)];
     OutValue None; OutUnit; OutBool true; OutBool false; OutList [(Gt, 16)]].
Proof. vm_compute. reflexivity. Qed.

(** ** C30 *)
Theorem C30_map_iteration : forall (cfg : Config) (K V : Type) (O : Ordinal K) (n : N),
  ordinal_bijection O n -> forall st : @OrdinalMap V, heap_reachable O st ->
  exists l, lists_entries O (OrdinalMap_get O st) l /\
    collects (Iter_step O) (OrdinalMap_iter st) l /\
    collects (Iter_step O) (OrdinalMap_ref_into_iter st) l /\
    collects (Keys_step O) (OrdinalMap_keys st) (map fst l) /\
    collects (Values_step O) (OrdinalMap_values st) (map snd l) /\
    collects (IntoIter_step O) (OrdinalMap_into_iter st) l /\
    collects (Drain_step O) (OrdinalMap_drain st) l /\
    collects_rel (ref_to O st) (IterMut_step O st) (OrdinalMap_iter_mut st) l /\
    collects_rel (value_ref O st) (ValuesMut_step O st) (OrdinalMap_values_mut st) l.
Proof. exact @heap_iteration. Qed.
Print Assumptions C30_map_iteration.
Theorem C30_array_map_iteration : forall (cfg : Config) (K V : Type) (O : Ordinal K) (n : N),
  ordinal_bijection O n -> forall (S : nat) (a : @OrdinalArrayMap V S), array_reachable O a ->
  exists l, lists_entries O (OrdinalArrayMap_get O a) l /\
    collects (Iter_step O) (OrdinalArrayMap_iter a) l /\
    collects (Iter_step O) (OrdinalArrayMap_ref_into_iter a) l /\
    collects (Keys_step O) (OrdinalArrayMap_keys a) (map fst l) /\
    collects (Values_step O) (OrdinalArrayMap_values a) (map snd l) /\
    collects (IntoIterArray_step O) (OrdinalArrayMap_into_iter a) l /\
    collects (Drain_step O) (OrdinalArrayMap_drain a) l /\
    collects_rel (ref_to O (arr_list a)) (IterMut_step O (arr_list a)) (OrdinalArrayMap_iter_mut a) l /\
    collects_rel (value_ref O (arr_list a)) (ValuesMut_step O (arr_list a)) (OrdinalArrayMap_values_mut a) l.
Proof. exact @array_iteration. Qed.
Print Assumptions C30_array_map_iteration.
Example C30_case :
  collects (Iter_step (cfg := debug64) Ordinal_Ordering) (OrdinalMap_iter [Some 3; None; Some 7]) [(Lt, 3); (Gt, 7)].
Proof. exists 4%nat. eexists. reflexivity. Qed.

(** ** C31. [deque_run] gives the results of next/next_back on the remaining list, so after
    the last element only [None]. *)
Theorem C31_map_iterators : forall (cfg : Config) (K V : Type) (O : Ordinal K) (n : N),
  ordinal_bijection O n -> forall st : @OrdinalMap V, heap_reachable O st ->
  forall l, lists_entries O (OrdinalMap_get O st) l ->
    double_ended (Iter_step O) (OrdinalMap_iter st) l anything /\
    double_ended (Keys_step O) (OrdinalMap_keys st) (map fst l) anything /\
    double_ended (Values_step O) (OrdinalMap_values st) (map snd l) anything /\
    double_ended (IntoIter_step O) (OrdinalMap_into_iter st) l anything /\
    double_ended_rel (ref_to O st) (IterMut_step O st) (OrdinalMap_iter_mut st) l anything /\
    double_ended_rel (value_ref O st) (ValuesMut_step O st) (OrdinalMap_values_mut st) l anything /\
    double_ended (Drain_step O) (OrdinalMap_drain st) l anything.
Proof. exact @heap_double_ended. Qed.
Print Assumptions C31_map_iterators.
Theorem C31_array_map_iterators : forall (cfg : Config) (K V : Type) (O : Ordinal K) (n : N),
  ordinal_bijection O n -> forall (S : nat) (a : @OrdinalArrayMap V S), array_reachable O a ->
  forall l, lists_entries O (OrdinalArrayMap_get O a) l ->
    double_ended (Iter_step O) (OrdinalArrayMap_iter a) l anything /\
    double_ended (Keys_step O) (OrdinalArrayMap_keys a) (map fst l) anything /\
    double_ended (Values_step O) (OrdinalArrayMap_values a) (map snd l) anything /\
    double_ended (IntoIterArray_step O) (OrdinalArrayMap_into_iter a) l anything /\
    double_ended_rel (ref_to O (arr_list a)) (IterMut_step O (arr_list a)) (OrdinalArrayMap_iter_mut a) l anything /\
    double_ended_rel (value_ref O (arr_list a)) (ValuesMut_step O (arr_list a)) (OrdinalArrayMap_values_mut a) l anything /\
    double_ended (Drain_step O) (OrdinalArrayMap_drain a) l anything.
Proof. exact @array_double_ended. Qed.
Print Assumptions C31_array_map_iterators.
Example C31_case : deque_run [Back; Front; Back] [(Lt, 3); (Gt, 7)] = ([Some (Gt, 7); Some (Lt, 3); None], []) /\
  exists s, drive (Iter_step (cfg := debug64) Ordinal_Ordering) [Back; Front; Back] (OrdinalMap_iter [Some 3; None; Some 7]) =
    Val ([Some (Gt, 7); Some (Lt, 3); None], s).
Proof. split; [reflexivity|]. eexists. reflexivity. Qed.

(** ** C32. [mut_spec]: which keys the calls hand out and what the interleaved writes through
    the handed out references do to the contents. [NoDup]: no slot twice. *)
Theorem C32_map_iter_mut : forall (cfg : Config) (K V : Type) (O : Ordinal K) (n : N),
  ordinal_bijection O n -> forall (eqd : forall a b : K, {a = b} + {a <> b}) (st : @OrdinalMap V), heap_reachable O st ->
  exists m l, (forall k, OrdinalMap_get O st k = Val (m k)) /\ lists_entries O (OrdinalMap_get O st) l /\
  forall evs,
    let keys := fst (mut_spec eqd Some evs (map fst l) [] m) in
    let m' := snd (mut_spec eqd Some evs (map fst l) [] m) in
    (exists got st',
       mut_run (fun st => IterMut_step O st) snd write_some evs st (OrdinalMap_iter_mut st) [] = Val (got, st') /\
       Forall2 (opt_rel (fun ki k => fst ki = k /\ ordinal O k = Val (snd ki))) got keys /\
       NoDup (map snd (somes got)) /\ forall k, OrdinalMap_get O st' k = Val (m' k)) /\
    (exists got st',
       mut_run (fun st => ValuesMut_step O st) (fun i : N => i) write_some evs st (OrdinalMap_values_mut st) [] = Val (got, st') /\
       Forall2 (opt_rel (fun i k => ordinal O k = Val i)) got keys /\
       NoDup (somes got) /\ forall k, OrdinalMap_get O st' k = Val (m' k)).
Proof. exact @heap_mut_law. Qed.
Print Assumptions C32_map_iter_mut.
Theorem C32_array_map_iter_mut : forall (cfg : Config) (K V : Type) (O : Ordinal K) (n : N),
  ordinal_bijection O n -> forall (eqd : forall a b : K, {a = b} + {a <> b}) (S : nat) (a : @OrdinalArrayMap V S),
  array_reachable O a ->
  exists m l, (forall k, OrdinalArrayMap_get O a k = Val (m k)) /\ lists_entries O (OrdinalArrayMap_get O a) l /\
  forall evs,
    let keys := fst (mut_spec eqd Some evs (map fst l) [] m) in
    let m' := snd (mut_spec eqd Some evs (map fst l) [] m) in
    (exists got st',
       mut_run (fun st => IterMut_step O st) snd write_some evs (arr_list a) (OrdinalArrayMap_iter_mut a) [] = Val (got, st') /\
       Forall2 (opt_rel (fun ki k => fst ki = k /\ ordinal O k = Val (snd ki))) got keys /\
       NoDup (map snd (somes got)) /\ forall k, array_storage_get O S st' k = Val (m' k)) /\
    (exists got st',
       mut_run (fun st => ValuesMut_step O st) (fun i : N => i) write_some evs (arr_list a) (OrdinalArrayMap_values_mut a) [] = Val (got, st') /\
       Forall2 (opt_rel (fun i k => ordinal O k = Val i)) got keys /\
       NoDup (somes got) /\ forall k, array_storage_get O S st' k = Val (m' k)).
Proof. exact @array_mut_law. Qed.
Print Assumptions C32_array_map_iter_mut.
Example C32_case :
  mut_run (fun st => IterMut_step (cfg := debug64) Ordinal_Ordering st) snd write_some
    [EStep Back; EWrite 0 10; EStep Front; EWrite 1 20; EWrite 0 30; EStep Back]
    [Some 3; None; Some 7] (OrdinalMap_iter_mut (V := N) [Some 3; None; Some 7]) [] =
  Val ([Some (Gt, 2); Some (Lt, 0); None], [Some 20; None; Some 30]).
Proof. reflexivity. Qed.

(** ** C33. [drain_ok]: dropping leaves an empty map, leaking removes what was consumed. *)
Theorem C33_map_drain : forall (cfg : Config) (K V : Type) (O : Ordinal K) (n : N),
  ordinal_bijection O n -> forall (eqd : forall a b : K, {a = b} + {a <> b}) (st : @OrdinalMap V), heap_reachable O st ->
  forall l, lists_entries O (OrdinalMap_get O st) l ->
  double_ended (Drain_step O) (OrdinalMap_drain st) l (drain_ok O eqd (OrdinalMap_get O) st) /\
  exists st', OrdinalMap_clear O st = Val st' /\ forall k, OrdinalMap_get O st' k = Val None.
Proof. exact @heap_drain_law. Qed.
Print Assumptions C33_map_drain.
Theorem C33_array_map_drain : forall (cfg : Config) (K V : Type) (O : Ordinal K) (n : N),
  ordinal_bijection O n -> forall (eqd : forall a b : K, {a = b} + {a <> b}) (S : nat) (a : @OrdinalArrayMap V S),
  array_reachable O a -> forall l, lists_entries O (OrdinalArrayMap_get O a) l ->
  double_ended (Drain_step O) (OrdinalArrayMap_drain a) l (drain_ok O eqd (array_storage_get O S) (arr_list a)) /\
  exists a', OrdinalArrayMap_clear O a = Val a' /\ forall k, OrdinalArrayMap_get O a' k = Val None.
Proof. exact @array_drain_law. Qed.
Print Assumptions C33_array_map_drain.
Example C33_case : exists d,
  drive (Drain_step (cfg := debug64) Ordinal_Ordering) [Back] (OrdinalMap_drain [Some 3; None; Some 7]) = Val ([Some (Gt, 7)], d) /\
  fst d = [Some 3; None; None] /\ Drain_drop (cfg := debug64) Ordinal_Ordering d = Val ([None; None; None], [(Lt, 3)]).
Proof. eexists. repeat split. Qed.

(** ** C34 *)
Theorem C34_map_entry : forall (cfg : Config) (K V : Type) (O : Ordinal K) (n : N),
  ordinal_bijection O n -> forall (eqd : forall a b : K, {a = b} + {a <> b}) (st : @OrdinalMap V), heap_reachable O st ->
  forall k, exists e st', OrdinalMap_entry O st k = Val (e, st') /\
    (forall k', OrdinalMap_get O st' k' = OrdinalMap_get O st k') /\
    entry_ok eqd (OrdinalMap_get O) st' k e.
Proof. exact @heap_entry_law. Qed.
Print Assumptions C34_map_entry.
Theorem C34_array_map_entry : forall (cfg : Config) (K V : Type) (O : Ordinal K) (n : N),
  ordinal_bijection O n -> forall (eqd : forall a b : K, {a = b} + {a <> b}) (S : nat) (a : @OrdinalArrayMap V S),
  array_reachable O a -> forall k, exists e, OrdinalArrayMap_entry O a k = Val (e, a) /\
    (forall k', array_storage_get O S (arr_list a) k' = OrdinalArrayMap_get O a k') /\
    entry_ok eqd (array_storage_get O S) (arr_list a) k e.
Proof. exact @array_entry_law. Qed.
Print Assumptions C34_array_map_entry.
Example C34_case : exists e st, OrdinalMap_entry (V := N) Ordinal_Ordering [] Eq = Val (e, st) /\
  Entry_key e = Eq /\ Entry_or_insert st e 4 = Val (1, [None; Some 4; None]).
Proof. eexists _, _. repeat split. Qed.

(** ** C35 *)
Theorem C35_map_from_iter : forall (cfg : Config) (K V : Type) (O : Ordinal K) (n : N),
  ordinal_bijection O n -> forall l : list (K * V),
  exists st, OrdinalMap_from_iter O l = Val st /\ built_from (OrdinalMap_get O st) l.
Proof. exact @heap_from_iter_law. Qed.
Print Assumptions C35_map_from_iter.
Theorem C35_array_map_from_iter : forall (cfg : Config) (K V : Type) (O : Ordinal K) (n : N),
  ordinal_bijection O n -> forall (S : nat) (l : list (K * V)), N.of_nat S = n ->
  exists a, OrdinalArrayMap_from_iter O S l = Val a /\ built_from (OrdinalArrayMap_get O a) l.
Proof. exact @array_from_iter_law. Qed.
Print Assumptions C35_array_map_from_iter.
Example C35_case : OrdinalMap_from_iter (V := N) Ordinal_Ordering [(Gt, 1); (Lt, 2); (Gt, 3)] =
  Val [Some 2; None; Some 3].
Proof. reflexivity. Qed.

(** ** C36. [f st k v] is the predicate: its new state, the value it leaves, its answer (or
    a panic). [retain_calls] calls it on the entries [l] in order. *)
Theorem C36_retain : forall (cfg : Config) (K V : Type) (O : Ordinal K) (n : N),
  ordinal_bijection O n -> forall (eqd : forall a b : K, {a = b} + {a <> b}) (S : nat) (a : @OrdinalArrayMap V S),
  array_reachable O a ->
  exists m l, (forall k, OrdinalArrayMap_get O a k = Val (m k)) /\ lists_entries O (OrdinalArrayMap_get O a) l /\
  forall (St : Type) (f : St -> K -> V -> St * V * res bool) (s : St),
    let '(s', m', r) := retain_calls eqd f l m s in
    exists a' storage, OrdinalArrayMap_retain O f a s = (s', storage, r) /\ arr_back S storage = Val a' /\
      forall k, OrdinalArrayMap_get O a' k = Val (m' k).
Proof. exact @array_retain_law. Qed.
Print Assumptions C36_retain.
Example C36_case : exists a, arr_list a = [Some 3; None; Some 7] /\
  OrdinalArrayMap_retain (cfg := debug64) (S := 3) Ordinal_Ordering
    (fun (s : list (comparison * N)) k v => (s ++ [(k, v)], v + 1, Val (v =? 7))) a [] =
  ([(Lt, 3); (Gt, 7)], [None; None; Some 8], Val tt).
Proof. exists (@mk_arr (option N) 3 [Some 3; None; Some 7] eq_refl). split; reflexivity. Qed.

(** ** C37 *)
Theorem C37_map_len : forall (cfg : Config) (K V : Type) (O : Ordinal K) (n : N),
  ordinal_bijection O n -> forall st : @OrdinalMap V, heap_reachable O st ->
  forall l, lists_entries O (OrdinalMap_get O st) l ->
  OrdinalMap_len O st = Val (llen l) /\ OrdinalMap_is_empty O st = Val (llen l =? 0).
Proof. exact @heap_len_law. Qed.
Print Assumptions C37_map_len.
Theorem C37_array_map_len : forall (cfg : Config) (K V : Type) (O : Ordinal K) (n : N),
  ordinal_bijection O n -> forall (S : nat) (a : @OrdinalArrayMap V S), array_reachable O a ->
  forall l, lists_entries O (OrdinalArrayMap_get O a) l ->
  OrdinalArrayMap_len O a = Val (llen l) /\ OrdinalArrayMap_is_empty O a = Val (llen l =? 0).
Proof. exact @array_len_law. Qed.
Print Assumptions C37_array_map_len.
Example C37_case : OrdinalMap_len (cfg := debug64) Ordinal_Ordering [Some 3; None; Some 7] = Val 2 /\
  OrdinalMap_is_empty (cfg := debug64) (V := N) Ordinal_Ordering [None; None; None] = Val true.
Proof. split; reflexivity. Qed.

(** ** C38, sparse maps. [cl] is the clone of a value. *)
Theorem C38_map_clone : forall (cfg : Config) (K V : Type) (O : Ordinal K) (n : N),
  ordinal_bijection O n -> forall st : @OrdinalMap V, heap_reachable O st ->
  forall (cl : V -> V) l, lists_entries O (OrdinalMap_get O st) l ->
    (forall k, OrdinalMap_get O (OrdinalMap_clone cl st) k = (o <- OrdinalMap_get O st k ;; Val (opt_map cl o))) /\
    double_ended (Iter_step O) (OrdinalMap_iter st) l
      (fun s r => double_ended (Iter_step O) (Iter_clone s) r anything) /\
    double_ended (Keys_step O) (OrdinalMap_keys st) (map fst l)
      (fun s r => double_ended (Keys_step O) (Keys_clone s) r anything) /\
    double_ended (Values_step O) (OrdinalMap_values st) (map snd l)
      (fun s r => double_ended (Values_step O) (Values_clone s) r anything) /\
    double_ended (IntoIter_step O) (OrdinalMap_into_iter st) l
      (fun s r => double_ended (IntoIter_step O) (IntoIter_clone cl s)
                    (map (fun kv => (fst kv, cl (snd kv))) r) anything).
Proof. exact @heap_clones. Qed.
Print Assumptions C38_map_clone.
Theorem C38_array_map_clone : forall (cfg : Config) (K V : Type) (O : Ordinal K) (n : N),
  ordinal_bijection O n -> forall (S : nat) (a : @OrdinalArrayMap V S), array_reachable O a ->
  forall (cl : V -> V) l, lists_entries O (OrdinalArrayMap_get O a) l ->
    (forall k, OrdinalArrayMap_get O (OrdinalArrayMap_clone cl a) k =
               (o <- OrdinalArrayMap_get O a k ;; Val (opt_map cl o))) /\
    double_ended (Iter_step O) (OrdinalArrayMap_iter a) l
      (fun s r => double_ended (Iter_step O) (Iter_clone s) r anything) /\
    double_ended (Keys_step O) (OrdinalArrayMap_keys a) (map fst l)
      (fun s r => double_ended (Keys_step O) (Keys_clone s) r anything) /\
    double_ended (Values_step O) (OrdinalArrayMap_values a) (map snd l)
      (fun s r => double_ended (Values_step O) (Values_clone s) r anything) /\
    double_ended (IntoIterArray_step O) (OrdinalArrayMap_into_iter a) l
      (fun s r => double_ended (IntoIterArray_step O) (IntoIterArray_clone cl s)
                    (map (fun kv => (fst kv, cl (snd kv))) r) anything).
Proof. exact @array_clones. Qed.
Print Assumptions C38_array_map_clone.
Example C38_case : OrdinalMap_clone (fun v => v + 100) [Some 3; None; Some 7] = [Some 103; None; Some 107].
Proof. reflexivity. Qed.

(** ** C39 *)
Theorem C39_maps_agree : forall (cfg : Config) (K V : Type) (O : Ordinal K) (n : N),
  ordinal_bijection O n -> forall (S : nat) (ops : list (map_op K V)), N.of_nat S = n ->
  forallb has_heap ops = true -> forallb not_contains_key ops = true ->
  exists outs st a0 a, heap_run O ops OrdinalMap_new = Val (outs, st) /\
    OrdinalArrayMap_new O S = Val a0 /\ array_run O ops a0 = Val (outs, a) /\
    forall k, OrdinalMap_get O st k = OrdinalArrayMap_get O a k.
Proof. exact @maps_agree. Qed.
Print Assumptions C39_maps_agree.
Example C39_case : exists outs st, heap_run (cfg := release32) Ordinal_Ordering sample_ops [] = Val (outs, st) /\
  llen outs = 11 /\ st = [Some 5; None; None].
Proof. eexists _, _. repeat split. Qed.

(** ** C40, sparse maps. *)
Theorem C40_map_size_hint : forall (cfg : Config) (K V : Type) (O : Ordinal K) (n : N),
  ordinal_bijection O n -> forall st : @OrdinalMap V, heap_reachable O st ->
  forall l, lists_entries O (OrdinalMap_get O st) l ->
    double_ended (Iter_step O) (OrdinalMap_iter st) l (fun s r => hint_ok (Iter_size_hint s) (llen r)) /\
    double_ended (Keys_step O) (OrdinalMap_keys st) (map fst l) (fun s r => hint_ok (Keys_size_hint s) (llen r)) /\
    double_ended (Values_step O) (OrdinalMap_values st) (map snd l) (fun s r => hint_ok (Values_size_hint s) (llen r)) /\
    double_ended (IntoIter_step O) (OrdinalMap_into_iter st) l (fun s r => hint_ok (IntoIter_size_hint s) (llen r)) /\
    double_ended_rel (ref_to O st) (IterMut_step O st) (OrdinalMap_iter_mut st) l
      (fun s r => hint_ok (IterMut_size_hint s) (llen r)) /\
    double_ended_rel (value_ref O st) (ValuesMut_step O st) (OrdinalMap_values_mut st) l
      (fun s r => hint_ok (ValuesMut_size_hint s) (llen r)) /\
    double_ended (Drain_step O) (OrdinalMap_drain st) l (fun s r => hint_ok (Drain_size_hint s) (llen r)).
Proof. exact @heap_hints. Qed.
Print Assumptions C40_map_size_hint.
Theorem C40_array_map_size_hint : forall (cfg : Config) (K V : Type) (O : Ordinal K) (n : N),
  ordinal_bijection O n -> forall (S : nat) (a : @OrdinalArrayMap V S), array_reachable O a ->
  forall l, lists_entries O (OrdinalArrayMap_get O a) l ->
    double_ended (Iter_step O) (OrdinalArrayMap_iter a) l (fun s r => hint_ok (Iter_size_hint s) (llen r)) /\
    double_ended (Keys_step O) (OrdinalArrayMap_keys a) (map fst l) (fun s r => hint_ok (Keys_size_hint s) (llen r)) /\
    double_ended (Values_step O) (OrdinalArrayMap_values a) (map snd l) (fun s r => hint_ok (Values_size_hint s) (llen r)) /\
    double_ended (IntoIterArray_step O) (OrdinalArrayMap_into_iter a) l (fun s r => hint_ok (IntoIterArray_size_hint s) (llen r)) /\
    double_ended_rel (ref_to O (arr_list a)) (IterMut_step O (arr_list a)) (OrdinalArrayMap_iter_mut a) l
      (fun s r => hint_ok (IterMut_size_hint s) (llen r)) /\
    double_ended_rel (value_ref O (arr_list a)) (ValuesMut_step O (arr_list a)) (OrdinalArrayMap_values_mut a) l
      (fun s r => hint_ok (ValuesMut_size_hint s) (llen r)) /\
    double_ended (Drain_step O) (OrdinalArrayMap_drain a) l (fun s r => hint_ok (Drain_size_hint s) (llen r)).
Proof. exact @array_hints. Qed.
Print Assumptions C40_array_map_size_hint.
Example C40_case : Iter_size_hint (OrdinalMap_iter [Some 3; None; Some 7]) = (0, Some 3).
Proof. reflexivity. Qed.

(** ** C62, sparse maps: the entries printed. *)
Theorem C62_map_debug : forall (cfg : Config) (K V : Type) (O : Ordinal K) (n : N),
  ordinal_bijection O n -> forall st : @OrdinalMap V, heap_reachable O st ->
  forall l, lists_entries O (OrdinalMap_get O st) l ->
    OrdinalMap_debug O st = Val l /\
    double_ended (Iter_step O) (OrdinalMap_iter st) l (fun s r => Iter_debug O s = Val r) /\
    double_ended (Keys_step O) (OrdinalMap_keys st) (map fst l) (fun s r => Keys_debug O s = Val r) /\
    double_ended (Values_step O) (OrdinalMap_values st) (map snd l) (fun s r => Values_debug O s = Val r) /\
    double_ended (IntoIter_step O) (OrdinalMap_into_iter st) l (fun s r => IntoIter_debug O s = Val r) /\
    double_ended_rel (ref_to O st) (IterMut_step O st) (OrdinalMap_iter_mut st) l (fun s r => IterMut_debug O st s = Val r) /\
    double_ended_rel (value_ref O st) (ValuesMut_step O st) (OrdinalMap_values_mut st) l
      (fun s r => ValuesMut_debug O st s = Val (map snd r)).
Proof. exact @heap_debugs. Qed.
Print Assumptions C62_map_debug.
Theorem C62_array_map_debug : forall (cfg : Config) (K V : Type) (O : Ordinal K) (n : N),
  ordinal_bijection O n -> forall (S : nat) (a : @OrdinalArrayMap V S), array_reachable O a ->
  forall l, lists_entries O (OrdinalArrayMap_get O a) l ->
    OrdinalArrayMap_debug O a = Val l /\
    double_ended (Iter_step O) (OrdinalArrayMap_iter a) l (fun s r => Iter_debug O s = Val r) /\
    double_ended (Keys_step O) (OrdinalArrayMap_keys a) (map fst l) (fun s r => Keys_debug O s = Val r) /\
    double_ended (Values_step O) (OrdinalArrayMap_values a) (map snd l) (fun s r => Values_debug O s = Val r) /\
    double_ended (IntoIterArray_step O) (OrdinalArrayMap_into_iter a) l (fun s r => IntoIterArray_debug O s = Val r) /\
    double_ended_rel (ref_to O (arr_list a)) (IterMut_step O (arr_list a)) (OrdinalArrayMap_iter_mut a) l
      (fun s r => IterMut_debug O (arr_list a) s = Val r) /\
    double_ended_rel (value_ref O (arr_list a)) (ValuesMut_step O (arr_list a)) (OrdinalArrayMap_values_mut a) l
      (fun s r => ValuesMut_debug O (arr_list a) s = Val (map snd r)).
Proof. exact @array_debugs. Qed.
Print Assumptions C62_array_map_debug.
Example C62_case : OrdinalMap_debug (cfg := debug64) Ordinal_Ordering [Some 3; None; Some 7] = Val [(Lt, 3); (Gt, 7)].
Proof. reflexivity. Qed.
