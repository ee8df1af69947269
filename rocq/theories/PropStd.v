(** * PropStd: C65 (all_values with an arbitrary impl) and C66 (the methods every iterator
    inherits from std).

    [ordinals n]: 0 .. n-1; [decode_each O os]: the values with these ordinals, or the first
    failure of [from_ordinal] (SpecValues.v). [provided_methods rel step s l P]: nth, nth_back,
    fold, rfold, last, count, find, rfind, position, any, all, rev and collect of the iterator
    [s] all act on the list [l] of remaining elements (SpecStd.v; std's code in ModelStd.v);
    [rel] relates the items handed out to the elements. *)
From Verif Require Import Base Spec SpecMap SpecTotal SpecSet SpecIter SpecApi SpecStd SpecValues ModelOrdinal ModelValues
  ModelArrayBuilder ModelIter ModelTotal ModelMap ModelSet ModelStd MapMachine TotalMachine SetMachine
  OrdinalProofs ValuesProofs2 StdProofs StdProofs2.
From Coq Require Import List. Import ListNotations.

(** ** C65. No law is assumed of [O]. *)
Theorem C65_all_values_any_impl : forall (T : Type) (O : Ordinal T) (n : N),
  ORDINAL_SIZE O = Val n -> exists s, values_new O = Val s /\
    forall sched, exists s',
      drive (values_step O) sched s = (os <- decode_each O (fst (deque_run sched (ordinals n))) ;; Val (os, s')) /\
      let rest := snd (deque_run sched (ordinals n)) in
      values_len s' = llen rest /\ values_size_hint s' = (llen rest, Some (llen rest)) /\ values_count s' = llen rest /\
      values_last O s' = decode_opt O (fst (deque_step Back rest)) /\ values_clone s' = s'.
Proof. exact @any_values. Qed.
Print Assumptions C65_all_values_any_impl.
(** An impl of [bool] with three ordinals, of which the middle one decodes to nothing. *)
Definition holed : Ordinal bool := {|
  ORDINAL_SIZE := Val 3;
  ordinal := fun b => Val (if b then 2 else 0);
  from_ordinal := fun i => Val (if i =? 0 then Some false else if i =? 2 then Some true else None) |}.
Example C65_case :
  decode_each holed (fst (deque_run [Front; Back] (ordinals 3))) = Val [Some false; Some true] /\
  decode_each holed (fst (deque_run [Front; Back; Front] (ordinals 3))) = Panic PUnwrap /\
  drive (values_step holed) [Front; Back; Front] {| r_start := 0; r_end := 3 |} = Panic PUnwrap /\
  values_last holed {| r_start := 0; r_end := 2 |} = Panic PUnwrap.
Proof. repeat split. Qed.

(** ** C66 *)
Theorem C66_any_double_ended : forall (cfg : Config) (St A B : Type) (rel : A -> B -> Prop)
  (step : dir -> St -> res (option A * St)) (s : St) (l : list B) (P : St -> list B -> Prop),
  double_ended_rel rel step s l P -> provided_methods rel step s l P.
Proof. exact @provided_methods_ok. Qed.
Print Assumptions C66_any_double_ended.
Theorem C66_map : forall (cfg : Config) (K V : Type) (O : Ordinal K) (n : N),
  ordinal_bijection O n -> forall st : @OrdinalMap V, heap_reachable O st ->
  forall l, lists_entries O (OrdinalMap_get O st) l ->
    provided_methods eq (Iter_step O) (OrdinalMap_iter st) l anything /\
    provided_methods eq (Keys_step O) (OrdinalMap_keys st) (map fst l) anything /\
    provided_methods eq (Values_step O) (OrdinalMap_values st) (map snd l) anything /\
    provided_methods eq (IntoIter_step O) (OrdinalMap_into_iter st) l anything /\
    provided_methods (ref_to O st) (IterMut_step O st) (OrdinalMap_iter_mut st) l anything /\
    provided_methods (value_ref O st) (ValuesMut_step O st) (OrdinalMap_values_mut st) l anything /\
    provided_methods eq (Drain_step O) (OrdinalMap_drain st) l anything.
Proof. exact @std_heap. Qed.
Print Assumptions C66_map.
Theorem C66_array_map : forall (cfg : Config) (K V : Type) (O : Ordinal K) (n : N),
  ordinal_bijection O n -> forall (S : nat) (a : @OrdinalArrayMap V S), array_reachable O a ->
  forall l, lists_entries O (OrdinalArrayMap_get O a) l ->
    provided_methods eq (Iter_step O) (OrdinalArrayMap_iter a) l anything /\
    provided_methods eq (Keys_step O) (OrdinalArrayMap_keys a) (map fst l) anything /\
    provided_methods eq (Values_step O) (OrdinalArrayMap_values a) (map snd l) anything /\
    provided_methods eq (IntoIterArray_step O) (OrdinalArrayMap_into_iter a) l anything /\
    provided_methods (ref_to O (arr_list a)) (IterMut_step O (arr_list a)) (OrdinalArrayMap_iter_mut a) l anything /\
    provided_methods (value_ref O (arr_list a)) (ValuesMut_step O (arr_list a)) (OrdinalArrayMap_values_mut a) l anything /\
    provided_methods eq (Drain_step O) (OrdinalArrayMap_drain a) l anything.
Proof. exact @std_array. Qed.
Print Assumptions C66_array_map.
Theorem C66_total_map : forall (cfg : Config) (K V : Type) (O : Ordinal K) (n : N),
  ordinal_bijection O n -> forall m : @OrdinalTotalMap V, htotal_reachable O m ->
  forall l, lists_total O (OrdinalTotalMap_get O m) l ->
    provided_methods eq (TIter_step O) (OrdinalTotalMap_iter m) l (fun s r => TIter_len s = llen r) /\
    provided_methods eq (TIntoIter_step O) (OrdinalTotalMap_into_iter m) l (fun s r => TIntoIter_len s = llen r) /\
    provided_methods (tref_to O m) (TIterMut_step O) (OrdinalTotalMap_iter_mut m) l (fun s r => TIterMut_len s = llen r) /\
    (exists it, OrdinalTotalMap_keys O m = Val it /\
       provided_methods eq (values_step O) it (map fst l) (fun s r => values_len s = llen r)) /\
    provided_methods eq slice_step (OrdinalTotalMap_values m) (map snd l) (fun s r => s = r) /\
    provided_methods (tvalue_ref O m) slice_step (OrdinalTotalMap_values_mut m) l (fun s r => llen s = llen r).
Proof. exact @std_htotal. Qed.
Print Assumptions C66_total_map.
Theorem C66_total_array_map : forall (cfg : Config) (K V : Type) (O : Ordinal K) (n : N),
  ordinal_bijection O n -> forall (S : nat) (m : OrdinalTotalArrayMap S V), atotal_reachable O m ->
  forall l, lists_total O (OrdinalTotalArrayMap_get O m) l ->
    provided_methods eq (TIter_step O) (OrdinalTotalArrayMap_iter m) l (fun s r => TIter_len s = llen r) /\
    provided_methods eq (TIntoIterArray_step O) (OrdinalTotalArrayMap_into_iter m) l (fun s r => TIntoIterArray_len s = llen r) /\
    provided_methods (tref_to O (arr_list m)) (TIterMut_step O) (OrdinalTotalArrayMap_iter_mut m) l
      (fun s r => TIterMut_len s = llen r) /\
    (exists it, OrdinalTotalArrayMap_keys O m = Val it /\
       provided_methods eq (values_step O) it (map fst l) (fun s r => values_len s = llen r)) /\
    provided_methods eq slice_step (OrdinalTotalArrayMap_values m) (map snd l) (fun s r => s = r) /\
    provided_methods (tvalue_ref O (arr_list m)) slice_step (OrdinalTotalArrayMap_values_mut m) l
      (fun s r => llen s = llen r).
Proof. exact @std_atotal. Qed.
Print Assumptions C66_total_array_map.
Theorem C66_set : forall (cfg : Config) (T : Type) (O : Ordinal T) (n : N), ordinal_bijection O n ->
  forall (s : OrdinalSet) l it, set_reachable O s -> lists_members O (OrdinalSet_contains O s) l ->
  OrdinalSet_iter O s = Val it ->
    provided_methods eq (SetIter_step O) it l (fun it r => hint_ok (SetIter_size_hint it) (llen r)).
Proof. exact @std_set. Qed.
Print Assumptions C66_set.
Theorem C66_set64 : forall (cfg : Config) (T : Type) (O : Ordinal T) (n : N), ordinal_bijection O n ->
  forall (s : OrdinalSet64) l, set64_reachable O s -> lists_members O (OrdinalSet64_contains O s) l ->
  exists it, OrdinalSet64_iter O s = Val it /\
    provided_methods eq (Iter64_step O) it l (fun it r => Iter64_len it = llen r).
Proof. exact @std_set64. Qed.
Print Assumptions C66_set64.
Theorem C66_all_values : forall (cfg : Config) (T : Type) (O : Ordinal T) (n : N), ordinal_bijection O n ->
  forall l, enumeration O l ->
  exists s, values_new O = Val s /\
    provided_methods eq (values_step O) s l (fun s r => values_len s = llen r).
Proof. exact @std_values. Qed.
Print Assumptions C66_all_values.
Example C66_case :
  let it := OrdinalMap_iter [Some 3; None; Some 7] in
  let step := Iter_step (cfg := debug64) Ordinal_Ordering in
  (exists s, it_nth (step Front) 1 it = Val (Some (Gt, 7), s)) /\
  (exists s, it_nth (step Back) 2 it = Val (None, s)) /\
  it_fold (step Back) (fun acc kv => acc ++ [snd kv]) 3 [] it = Val [7; 3] /\
  it_last (step Front) 3 it = Val (Some (Gt, 7)) /\
  it_count (cfg := debug64) (step Front) 3 it = Val 2 /\
  (exists s, it_position (step Front) (fun kv => 5 <? snd kv) 3 it = Val (Some 1%nat, s)) /\
  search_ok eq (fun kv => 5 <? snd kv) [(Lt, 3); (Gt, 7)] (Some (1%nat, (Gt, 7))) [].
Proof.
  cbv zeta. repeat split; try reflexivity; try (eexists; reflexivity).
  exists [(Lt, 3)], [(Lt, 3)], (Gt, 7). repeat split; auto.
Qed.
