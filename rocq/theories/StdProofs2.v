(** * StdProofs2: the provided iterator methods on every iterator of the crate (C66). *)
From Verif Require Import Base Spec SpecMap SpecTotal SpecSet SpecIter SpecApi SpecStd SpecValues ModelOrdinal ModelValues
  ModelArrayBuilder ModelIter ModelTotal ModelMap ModelSet ModelStd MapMachine TotalMachine SetMachine IterLib ValuesProofs
  MapProofs5 TotalProofs3 SetProofs2 StdProofs.
From Coq Require Import List. Import ListNotations.
Unset Strict Implicit.

Ltac go := first [apply provided_methods_eq; assumption | apply provided_methods_ok; assumption].

Lemma std_heap : forall (cfg : Config) (K V : Type) (O : Ordinal K) (n : N),
  ordinal_bijection O n -> forall st : @OrdinalMap V, heap_reachable O st ->
  forall l, lists_entries O (OrdinalMap_get O st) l ->
    provided_methods eq (Iter_step O) (OrdinalMap_iter st) l anything /\
    provided_methods eq (Keys_step O) (OrdinalMap_keys st) (map fst l) anything /\
    provided_methods eq (Values_step O) (OrdinalMap_values st) (map snd l) anything /\
    provided_methods eq (IntoIter_step O) (OrdinalMap_into_iter st) l anything /\
    provided_methods (ref_to O st) (IterMut_step O st) (OrdinalMap_iter_mut st) l anything /\
    provided_methods (value_ref O st) (ValuesMut_step O st) (OrdinalMap_values_mut st) l anything /\
    provided_methods eq (Drain_step O) (OrdinalMap_drain st) l anything.
Proof.
  intros cfg K V O n HO st Hst l Hl. destruct (heap_double_ended HO Hst Hl) as (H1 & H2 & H3 & H4 & H5 & H6 & H7).
  repeat match goal with |- _ /\ _ => split end; go.
Qed.

Lemma std_array : forall (cfg : Config) (K V : Type) (O : Ordinal K) (n : N),
  ordinal_bijection O n -> forall (S : nat) (a : @OrdinalArrayMap V S), array_reachable O a ->
  forall l, lists_entries O (OrdinalArrayMap_get O a) l ->
    provided_methods eq (Iter_step O) (OrdinalArrayMap_iter a) l anything /\
    provided_methods eq (Keys_step O) (OrdinalArrayMap_keys a) (map fst l) anything /\
    provided_methods eq (Values_step O) (OrdinalArrayMap_values a) (map snd l) anything /\
    provided_methods eq (IntoIterArray_step O) (OrdinalArrayMap_into_iter a) l anything /\
    provided_methods (ref_to O (arr_list a)) (IterMut_step O (arr_list a)) (OrdinalArrayMap_iter_mut a) l anything /\
    provided_methods (value_ref O (arr_list a)) (ValuesMut_step O (arr_list a)) (OrdinalArrayMap_values_mut a) l anything /\
    provided_methods eq (Drain_step O) (OrdinalArrayMap_drain a) l anything.
Proof.
  intros cfg K V O n HO S a Ha l Hl. destruct (array_double_ended HO Ha Hl) as (H1 & H2 & H3 & H4 & H5 & H6 & H7).
  repeat match goal with |- _ /\ _ => split end; go.
Qed.

Lemma std_htotal : forall (cfg : Config) (K V : Type) (O : Ordinal K) (n : N),
  ordinal_bijection O n -> forall m : @OrdinalTotalMap V, htotal_reachable O m ->
  forall l, lists_total O (OrdinalTotalMap_get O m) l ->
    provided_methods eq (TIter_step O) (OrdinalTotalMap_iter m) l (fun s r => TIter_len s = llen r) /\
    provided_methods eq (TIntoIter_step O) (OrdinalTotalMap_into_iter m) l (fun s r => TIntoIter_len s = llen r) /\
    provided_methods (tref_to O m) (TIterMut_step O) (OrdinalTotalMap_iter_mut m) l (fun s r => TIterMut_len s = llen r) /\
    (exists it, OrdinalTotalMap_keys O m = Val it /\
       provided_methods eq (values_step O) it (map fst l) (fun s r => values_len s = llen r)) /\
    provided_methods eq slice_step (OrdinalTotalMap_values m) (map snd l) (fun s r => s = r) /\
    provided_methods (tvalue_ref O m) slice_step (OrdinalTotalMap_values_mut m) l (fun s r => llen s = llen r).
Proof.
  intros cfg K V O n HO m Hm l Hl. destruct (htotal_iterators HO Hm Hl) as (H1 & _ & H2 & H3 & (it & E & _ & H4) & H5 & _ & H6).
  split; [go|]. split; [go|]. split; [go|]. split; [exists it; split; [exact E|go]|]. split; go.
Qed.

Lemma std_atotal : forall (cfg : Config) (K V : Type) (O : Ordinal K) (n : N),
  ordinal_bijection O n -> forall (S : nat) (m : OrdinalTotalArrayMap S V), atotal_reachable O m ->
  forall l, lists_total O (OrdinalTotalArrayMap_get O m) l ->
    provided_methods eq (TIter_step O) (OrdinalTotalArrayMap_iter m) l (fun s r => TIter_len s = llen r) /\
    provided_methods eq (TIntoIterArray_step O) (OrdinalTotalArrayMap_into_iter m) l (fun s r => TIntoIterArray_len s = llen r) /\
    provided_methods (tref_to O (arr_list m)) (TIterMut_step O) (OrdinalTotalArrayMap_iter_mut m) l
      (fun s r => TIterMut_len s = llen r) /\
    (exists it, OrdinalTotalArrayMap_keys O m = Val it /\
       provided_methods eq (values_step O) it (map fst l) (fun s r => values_len s = llen r)) /\
    provided_methods eq slice_step (OrdinalTotalArrayMap_values m) (map snd l) (fun s r => s = r) /\
    provided_methods (tvalue_ref O (arr_list m)) slice_step (OrdinalTotalArrayMap_values_mut m) l
      (fun s r => llen s = llen r).
Proof.
  intros cfg K V O n HO S m Hm l Hl. destruct (atotal_iterators HO Hm Hl) as (H1 & _ & H2 & H3 & (it & E & _ & H4) & H5 & H6).
  split; [go|]. split; [go|]. split; [go|]. split; [exists it; split; [exact E|go]|]. split; go.
Qed.

Lemma std_set : forall (cfg : Config) (T : Type) (O : Ordinal T) (n : N), ordinal_bijection O n ->
  forall (s : OrdinalSet) l it, set_reachable O s -> lists_members O (OrdinalSet_contains O s) l ->
  OrdinalSet_iter O s = Val it ->
    provided_methods eq (SetIter_step O) it l (fun it r => hint_ok (SetIter_size_hint it) (llen r)).
Proof.
  intros cfg T O n HO s l it Hs Hl E. apply provided_methods_eq. exact (set_hints HO Hs Hl E).
Qed.

Lemma std_set64 : forall (cfg : Config) (T : Type) (O : Ordinal T) (n : N), ordinal_bijection O n ->
  forall (s : OrdinalSet64) l, set64_reachable O s -> lists_members O (OrdinalSet64_contains O s) l ->
  exists it, OrdinalSet64_iter O s = Val it /\
    provided_methods eq (Iter64_step O) it l (fun it r => Iter64_len it = llen r).
Proof.
  intros cfg T O n HO s l Hs Hl. destruct (set64_iteration HO Hs Hl) as (it & E & _ & H). exists it. split; [exact E|].
  apply provided_methods_eq. intros sched. destruct (H sched) as (s' & E' & HP & _). exists s'. split; assumption.
Qed.

Lemma std_values : forall (cfg : Config) (T : Type) (O : Ordinal T) (n : N), ordinal_bijection O n ->
  forall l, enumeration O l ->
  exists s, values_new O = Val s /\
    provided_methods eq (values_step O) s l (fun s r => values_len s = llen r).
Proof.
  intros cfg T O n HO l Hl. destruct (all_values_iterator HO (l := l) [] Hl) as (s & _ & E & _). exists s. split; [exact E|].
  apply provided_methods_eq. intros sched. destruct (all_values_iterator HO (l := l) sched Hl) as (s1 & s' & E1 & E' & H & _).
  assert (s1 = s) as -> by congruence. exists s'. split; assumption.
Qed.

