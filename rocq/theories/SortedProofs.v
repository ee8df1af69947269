(** * SortedProofs: lemmas for C76 (PropSorted.v). *)
From Verif Require Import Base Spec SpecUniverse SpecIter SpecMap SpecSet SpecTotal ModelOrdinal ModelValues ModelArrayBuilder ModelDerive
  ModelUniverse ModelIter ModelMap ModelTotal ModelSet MapMachine SetMachine TotalMachine TotalProofs3.
From Verif Require PropValues PropMap PropSet PropTotal PropUniverse.
From Coq Require Import List. Import ListNotations.
Set Implicit Arguments. Unset Strict Implicit.

Lemma sorted_lt {T} (O : Ordinal T) lt l : ordinal_monotone O lt -> StronglySorted (ordinal_before O) l -> StronglySorted lt l.
Proof.
  intros M H. induction H as [|a l _ IH H]; constructor; [exact IH|].
  eapply Forall_impl; [|exact H]. intros b (i & j & Hi & Hj & L). now apply (M a b i j Hi Hj).
Qed.
Lemma weaken {It A} (step : dir -> It -> res (option A * It)) s l P : double_ended step s l P -> double_ended step s l anything.
Proof. intros H sched. destruct (H sched) as (s' & E & _). exists s'. split; [exact E|exact I]. Qed.

Section Sorted.
  Context {cfg : Config} (t : ty) (n : N).
  Hypotheses (Hn : ORDINAL_SIZE (impl_of t) = Val n) (Hd : no_discriminants t).
  Notation O := (impl_of t).
  Let HO : ordinal_bijection O n := @PropUniverse.C17_composed_bijection cfg t n Hn.
  Let HM : ordinal_monotone O (lt_of t) := @PropUniverse.C13_ordinals_agree_with_ord cfg t n Hn Hd.

  Lemma values_sorted : exists l s, (forall v, In v l) /\ StronglySorted (lt_of t) l /\ values_new O = Val s /\
    double_ended (values_step O) s l anything.
  Proof.
    destruct (@PropValues.C20_all_values _ _ _ _ HO) as (l & s & [H1 H2] & _ & H3 & _).
    exists l, s. split; [exact H1|]. split; [exact (sorted_lt HM H2)|]. split; [exact H3|].
    intros sched. destruct (@PropValues.C21_all_values_iterator _ _ _ _ HO l sched (conj H1 H2)) as (s1 & s' & H4 & H5 & _).
    rewrite H3 in H4. injection H4 as <-. exists s'. split; [exact H5|exact I].
  Qed.

  Lemma map_sorted V (st : @OrdinalMap V) : heap_reachable O st ->
    exists l, (forall k v, In (k, v) l <-> OrdinalMap_get O st k = Val (Some v)) /\ StronglySorted (lt_of t) (map fst l) /\
      double_ended (Iter_step O) (OrdinalMap_iter st) l anything /\
      double_ended (IntoIter_step O) (OrdinalMap_into_iter st) l anything.
  Proof.
    intros H. destruct (@PropMap.C30_map_iteration _ _ _ _ _ HO _ H) as (l & [H1 H2] & _).
    exists l. split; [exact H1|]. split; [exact (sorted_lt HM H2)|].
    destruct (@PropMap.C31_map_iterators _ _ _ _ _ HO _ H l (conj H1 H2)) as (A & _ & _ & B & _). auto.
  Qed.
  Lemma array_map_sorted V (S : nat) (a : @OrdinalArrayMap V S) : array_reachable O a ->
    exists l, (forall k v, In (k, v) l <-> OrdinalArrayMap_get O a k = Val (Some v)) /\ StronglySorted (lt_of t) (map fst l) /\
      double_ended (Iter_step O) (OrdinalArrayMap_iter a) l anything /\
      double_ended (IntoIterArray_step O) (OrdinalArrayMap_into_iter a) l anything.
  Proof.
    intros H. destruct (@PropMap.C30_array_map_iteration _ _ _ _ _ HO _ _ H) as (l & [H1 H2] & _).
    exists l. split; [exact H1|]. split; [exact (sorted_lt HM H2)|].
    destruct (@PropMap.C31_array_map_iterators _ _ _ _ _ HO _ _ H l (conj H1 H2)) as (A & _ & _ & B & _). auto.
  Qed.

  Lemma total_map_sorted V (m : @OrdinalTotalMap V) : htotal_reachable O m ->
    exists l, (forall k v, In (k, v) l <-> OrdinalTotalMap_get O m k = Val v) /\ StronglySorted (lt_of t) (map fst l) /\
      double_ended (TIter_step O) (OrdinalTotalMap_iter m) l anything /\
      double_ended (TIntoIter_step O) (OrdinalTotalMap_into_iter m) l anything.
  Proof.
    intros H. destruct (htotal_listed HO H) as (l & Hl).
    exists l. destruct (@PropTotal.C45_total_map_iterators _ _ _ _ _ HO _ H l Hl) as (A & _ & B & _).
    destruct Hl as (H1 & _ & H2). split; [exact H1|]. split; [exact (sorted_lt HM H2)|].
    split; [exact (weaken A)|exact (weaken B)].
  Qed.

  Lemma total_array_map_sorted V (S : nat) (m : OrdinalTotalArrayMap S V) : atotal_reachable O m ->
    exists l, (forall k v, In (k, v) l <-> OrdinalTotalArrayMap_get O m k = Val v) /\ StronglySorted (lt_of t) (map fst l) /\
      double_ended (TIter_step O) (OrdinalTotalArrayMap_iter m) l anything /\
      double_ended (TIntoIterArray_step O) (OrdinalTotalArrayMap_into_iter m) l anything.
  Proof.
    intros H. destruct (atotal_listed HO H) as (l & Hl).
    exists l. destruct (@PropTotal.C45_total_array_map_iterators _ _ _ _ _ HO _ _ H l Hl) as (A & _ & B & _).
    destruct Hl as (H1 & _ & H2). split; [exact H1|]. split; [exact (sorted_lt HM H2)|].
    split; [exact (weaken A)|exact (weaken B)].
  Qed.

  Lemma set_sorted (s : OrdinalSet) it : set_reachable O s -> OrdinalSet_iter O s = Val it ->
    exists l, (forall v, In v l <-> OrdinalSet_contains O s v = Val true) /\ StronglySorted (lt_of t) l /\
      double_ended (SetIter_step O) it l anything.
  Proof.
    intros H Hi. destruct (@PropSet.C53_listable _ _ _ _ HO _ H) as (l & [H1 H2]).
    exists l. split; [exact H1|]. split; [exact (sorted_lt HM H2)|].
    exact (weaken (@PropSet.C40_set_size_hint _ _ _ _ HO _ _ H (conj H1 H2) _ Hi)).
  Qed.
  Lemma set64_sorted (s : OrdinalSet64) it : set64_reachable O s -> OrdinalSet64_iter O s = Val it ->
    exists l, (forall v, In v l <-> OrdinalSet64_contains O s v = Val true) /\ StronglySorted (lt_of t) l /\
      double_ended (Iter64_step O) it l anything.
  Proof.
    intros H Hi. destruct (@PropSet.C54_listable _ _ _ _ HO _ H) as (l & [H1 H2]).
    exists l. split; [exact H1|]. split; [exact (sorted_lt HM H2)|].
    destruct (@PropSet.C54_set64_iteration _ _ _ _ HO _ _ H (conj H1 H2)) as (it' & E & _ & D).
    rewrite Hi in E. injection E as <-. exact (weaken D).
  Qed.
End Sorted.
