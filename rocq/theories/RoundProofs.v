(** * RoundProofs: collecting what an iterator yields (C69); the two total maps agree (C70). *)
From Verif Require Import Base Spec SpecMap SpecTotal SpecSet SpecIter SpecApi SpecRound ModelOrdinal ModelValues
  ModelArrayBuilder ModelIter ModelTotal ModelMap ModelSet MapMachine TotalMachine SetMachine
  BaseProofs OrdinalProofs IterLib ValuesProofs MapProofs MapProofs2 MapProofs4 MapProofs5 TotalProofs3 SetProofs SetProofs2 ModelStd SpecStd StdProofs.
From Coq Require Import List Permutation. Import ListNotations.
Unset Strict Implicit.

Lemma before_irrefl {K} (O : Ordinal K) k : ~ ordinal_before O k k.
Proof. intros (i & j & H1 & H2 & H3). rewrite H1 in H2. injection H2 as <-. lia. Qed.

Lemma sorted_NoDup {K} (O : Ordinal K) l : StronglySorted (ordinal_before O) l -> NoDup l.
Proof.
  induction 1 as [|k l _ IH H]; constructor; [|exact IH]. intros Hin.
  rewrite Forall_forall in H. exact (before_irrefl (H _ Hin)).
Qed.

Section Built.
  Context {K V : Type} (O : Ordinal K).

  Lemma last_of k v (l : list (K * V)) : NoDup (map fst l) -> In (k, v) l ->
    exists l1 l2, l = l1 ++ (k, v) :: l2 /\ ~ In k (map fst l2).
  Proof.
    intros Hn Hin. apply in_split in Hin as (l1 & l2 & ->). exists l1, l2. split; [reflexivity|].
    rewrite map_app in Hn. cbn [map fst] in Hn. apply NoDup_remove_2 in Hn. intros H. apply Hn, in_or_app. auto.
  Qed.

  Lemma built_same (get get' : K -> res (option V)) l l' :
    lists_entries O get l -> (forall k, exists o, get k = Val o) -> Permutation l l' -> built_from get' l' ->
    forall k, get' k = get k.
  Proof.
    intros [H1 H2] Hv Hp [B1 B2] k.
    assert (Hn : NoDup (map fst l')).
    { eapply Permutation_NoDup; [apply Permutation_map, Hp|]. exact (sorted_NoDup H2). }
    destruct (Hv k) as [[v|] E]; rewrite E.
    - apply B1, last_of; [exact Hn|]. eapply Permutation_in; [exact Hp|]. now apply H1.
    - apply B2. intros Hin. apply in_map_iff in Hin as ([k' v] & <- & Hin).
      apply (Permutation_in _ (Permutation_sym Hp)), H1 in Hin. cbn [fst] in E. congruence.
  Qed.

  Lemma built_total (get : K -> res V) (get' : K -> res (option V)) l l' :
    lists_total O get l -> Permutation l l' -> built_from get' l' ->
    forall k, exists v, get k = Val v /\ get' k = Val (Some v).
  Proof.
    intros (H1 & H3 & H2) Hp [B1 B2] k.
    assert (Hn : NoDup (map fst l')).
    { eapply Permutation_NoDup; [apply Permutation_map, Hp|]. exact (sorted_NoDup H2). }
    specialize (H3 k). apply in_map_iff in H3 as ([k' v] & <- & Hin). exists v. split; [now apply H1|].
    apply B1, last_of; [exact Hn|]. eapply Permutation_in; [exact Hp|exact Hin].
  Qed.
End Built.

Section Round.
  Context {cfg : Config} {K V : Type} (O : Ordinal K) (n : N) (HO : ordinal_bijection O n).

  Lemma heap_returns (st : @OrdinalMap V) : heap_reachable O st -> forall k, exists o, OrdinalMap_get O st k = Val o.
  Proof. intros H k. destruct (heap_state HO H) as (ks & m & He & Hm). eexists. eapply heap_get_ok; eassumption. Qed.
  Lemma array_returns S (a : @OrdinalArrayMap V S) : array_reachable O a -> forall k, exists o, OrdinalArrayMap_get O a k = Val o.
  Proof. intros H k. destruct (array_state HO H) as (ks & m & He & Hm). eexists. eapply array_get_ok; eassumption. Qed.

  Lemma both_built (get : K -> res (option V)) (l l' : list (K * V)) :
    lists_entries O get l -> (forall k, exists o, get k = Val o) -> Permutation l l' -> rebuilt O n get l'.
  Proof.
    intros Hl Hv Hp. split.
    - destruct (heap_from_iter_law HO l') as (st' & E & B). exists st'. split; [exact E|].
      exact (built_same Hl Hv Hp B).
    - intros S HS. destruct (MapProofs5.array_from_iter_law HO l' HS) as (a' & E & B). exists a'. split; [exact E|].
      exact (built_same Hl Hv Hp B).
  Qed.

  Lemma both_total (get : K -> res V) (l l' : list (K * V)) : lists_total O get l -> Permutation l l' ->
    rebuilt_total O n get l'.
  Proof.
    intros Hl Hp. split.
    - destruct (heap_from_iter_law HO l') as (st' & E & B). exists st'. split; [exact E|].
      exact (built_total Hl Hp B).
    - intros S HS. destruct (MapProofs5.array_from_iter_law HO l' HS) as (a' & E & B). exists a'. split; [exact E|].
      exact (built_total Hl Hp B).
  Qed.

  Lemma round_heap (st : @OrdinalMap V) : heap_reachable O st ->
    exists l, collects (IntoIter_step O) (OrdinalMap_into_iter st) l /\
    forall l', Permutation l l' ->
    rebuilt O n (OrdinalMap_get O st) l'.
  Proof.
    intros H. destruct (heap_iteration HO H) as (l & Hl & _ & _ & _ & _ & Hc & _). exists l. split; [exact Hc|].
    intros l' Hp. exact (both_built Hl (heap_returns H) Hp).
  Qed.

  Lemma round_array S0 (a : @OrdinalArrayMap V S0) : array_reachable O a ->
    exists l, collects (IntoIterArray_step O) (OrdinalArrayMap_into_iter a) l /\
    forall l', Permutation l l' ->
    rebuilt O n (OrdinalArrayMap_get O a) l'.
  Proof.
    intros H. destruct (array_iteration HO H) as (l & Hl & _ & _ & _ & _ & Hc & _). exists l. split; [exact Hc|].
    intros l' Hp. exact (both_built Hl (array_returns H) Hp).
  Qed.

  Lemma de_collects {St A} (step : dir -> St -> res (option A * St)) s l P :
    double_ended step s l P -> collects step s l.
  Proof.
    intros H. destruct (pm_collect (provided_methods_eq H)) as (fuel & got & s' & E & F).
    exists fuel, s'. rewrite E. do 2 f_equal. clear - F. induction F as [|x y l1 l2 E F IH]; [reflexivity|]. rewrite E, IH. reflexivity.
  Qed.

  Lemma round_htotal (m : @OrdinalTotalMap V) l : htotal_reachable O m -> lists_total O (OrdinalTotalMap_get O m) l ->
    collects (TIntoIter_step O) (OrdinalTotalMap_into_iter m) l /\
    forall l', Permutation l l' ->
    rebuilt_total O n (OrdinalTotalMap_get O m) l'.
  Proof.
    intros Hm Hl. destruct (htotal_iterators HO Hm Hl) as (_ & _ & H & _). split; [exact (de_collects H)|].
    intros l' Hp. exact (both_total Hl Hp).
  Qed.

  Lemma round_atotal S0 (m : OrdinalTotalArrayMap S0 V) l : atotal_reachable O m -> lists_total O (OrdinalTotalArrayMap_get O m) l ->
    collects (TIntoIterArray_step O) (OrdinalTotalArrayMap_into_iter m) l /\
    forall l', Permutation l l' ->
    rebuilt_total O n (OrdinalTotalArrayMap_get O m) l'.
  Proof.
    intros Hm Hl. destruct (atotal_iterators HO Hm Hl) as (_ & _ & H & _). split; [exact (de_collects H)|].
    intros l' Hp. exact (both_total Hl Hp).
  Qed.

  (** ** C70 *)
  Lemma total_ext (eqd : forall a b : K, {a = b} + {a <> b}) ks ops : forall f g : tmap K V, (forall k, f k = g k) ->
    fst (total_run eqd ks ops f) = fst (total_run eqd ks ops g) /\
    forall k, snd (total_run eqd ks ops f) k = snd (total_run eqd ks ops g) k.
  Proof.
    induction ops as [|op ops IH]; intros f g H; [split; [reflexivity|exact H]|].
    assert (He : tm_entries ks f = tm_entries ks g) by (unfold tm_entries; apply map_ext; intros k; now rewrite H).
    assert (G : fst (total_step eqd ks op f) = fst (total_step eqd ks op g) /\
                forall k, snd (total_step eqd ks op f) k = snd (total_step eqd ks op g) k).
    { destruct op; cbn [total_step fst snd]; rewrite ?H, ?He; (split; [try reflexivity|intros x; try exact (H x)]);
        unfold tm_set, tm_update; rewrite ?H; try reflexivity.
      - rewrite (map_ext _ _ H). reflexivity. }
    destruct G as [G1 G2]. cbn [total_run].
    destruct (total_step eqd ks op f) as [o f1]. destruct (total_step eqd ks op g) as [o' g1]. cbn [fst snd] in G1, G2. subst o'.
    destruct (IH _ _ G2) as [I1 I2].
    destruct (total_run eqd ks ops f1) as [os f2]. destruct (total_run eqd ks ops g1) as [os' g2]. cbn [fst snd] in *.
    subst os'. split; [reflexivity|exact I2].
  Qed.

  Lemma totals_agree S (m : @OrdinalTotalMap V) (a : OrdinalTotalArrayMap S V) :
    htotal_reachable O m -> atotal_reachable O a ->
    (forall k, OrdinalTotalMap_get O m k = OrdinalTotalArrayMap_get O a k) ->
    forall ops, exists outs m' a', htotal_run O ops m = Val (outs, m') /\ atotal_run O ops a = Val (outs, a') /\
      forall k, OrdinalTotalMap_get O m' k = OrdinalTotalArrayMap_get O a' k.
  Proof.
    intros Hm Ha Hg ops. destruct (keys_exist HO) as (ks & He).
    destruct (htotal_law HO (key_eq_dec HO) He Hm) as (f & F1 & F2).
    destruct (atotal_law HO (key_eq_dec HO) He Ha) as (g & G1 & G2).
    assert (Hfg : forall k, f k = g k) by (intros k; specialize (Hg k); rewrite F1, G1 in Hg; now injection Hg).
    destruct (total_ext (key_eq_dec HO) ks ops Hfg) as [E1 E2].
    destruct (F2 ops) as (m' & Em & Gm). destruct (G2 ops) as (a' & Ea & Ga).
    exists (fst (total_run (key_eq_dec HO) ks ops f)), m', a'. split; [exact Em|].
    split; [rewrite E1; exact Ea|]. intros k. now rewrite Gm, Ga, E2.
  Qed.

  Lemma Forall2_same {A C} (P : A -> C -> Prop) (Q : A -> C -> Prop) (l : list A) (r : list C) :
    Forall2 P l r -> Forall2 Q l r -> forall x, In x l -> exists y, P x y /\ Q x y.
  Proof.
    intros H1. induction H1 as [|x y l r Hx H IH]; intros H2 z Hz; [destruct Hz|].
    inversion H2; subst. destruct Hz as [<-|Hz]; eauto.
  Qed.

  Lemma built_agree S E St (init : St -> K -> St * res (result V E)) st : N.of_nat S = n ->
    fst (OrdinalTotalMap_try_new O init st) = fst (OrdinalTotalArrayMap_try_new O S init st) /\
    ends_alike (fun m a => forall k, OrdinalTotalMap_get O m k = OrdinalTotalArrayMap_get O a k)
      (snd (OrdinalTotalMap_try_new O init st)) (returned (snd (OrdinalTotalArrayMap_try_new O S init st))).
  Proof.
    intros HS. destruct (keys_exist HO) as (ks & He).
    destruct (total_new_law (V := V) HO He) as (H & _). destruct (H E St init st) as [A1 A2].
    destruct (proj1 (total_array_new_law (V := V) HO S He) HS) as (G & _). destruct (G E St init st) as [B1 B2].
    split; [congruence|]. destruct (snd (calls init ks st)) as [[vs|e]| | | |]; cbn in A2, B2.
    - destruct A2 as (m & -> & F1). destruct B2 as (a & -> & F2). intros k.
      destruct (Forall2_same F1 F2 (proj1 He k)) as (v & E1 & E2). now rewrite E1, E2.
    - rewrite A2, B2. reflexivity.
    - rewrite A2, B2. reflexivity.
    - rewrite A2, B2. exact I.
    - rewrite A2, B2. exact I.
    - rewrite A2, B2. exact I.
  Qed.
End Round.

Section RoundSet.
  Context {cfg : Config} {T : Type} (O : Ordinal T) (n : N) (HO : ordinal_bijection O n).

  Lemma member_same (c c' : T -> res bool) l l' : lists_members O c l -> (forall t, exists b, c t = Val b) ->
    (forall t, In t l <-> In t l') -> (forall t, exists b, c' t = Val b /\ (b = true <-> In t l')) -> forall t, c' t = c t.
  Proof.
    intros [H _] Hv Hin Hc t. destruct (Hv t) as (b & E). destruct (Hc t) as (b' & E' & Hb). rewrite E, E'. f_equal.
    specialize (H t). specialize (Hin t). rewrite E in H. destruct b, b'; try reflexivity; exfalso.
    - assert (false = true) by tauto. discriminate.
    - assert (Val false = Val true) by tauto. discriminate.
  Qed.

  Lemma refill (c : T -> res bool) l l' : lists_members O c l -> (forall t, exists b, c t = Val b) ->
    (forall t, In t l <-> In t l') -> refilled O n c l'.
  Proof.
    intros Hl Hv Hin. split; [|split].
    - intros Hn. destruct (set_collects HO l' Hn) as (s & E & H). exists s. split; [exact E|]. exact (member_same Hl Hv Hin H).
    - intros S HS. destruct (array_set_collects HO l' HS) as (s & E & H). exists s. split; [exact E|]. exact (member_same Hl Hv Hin H).
    - intros Hn. destruct (set64_collects HO l' Hn) as (s & E & H). exists s. split; [exact E|]. exact (member_same Hl Hv Hin H).
  Qed.

  Lemma round_set s : 1 <= n \/ debug_assertions = false -> set_reachable O s ->
    exists it l, OrdinalSet_iter O s = Val it /\ collects (SetIter_step O) it l /\
    forall l', (forall t, In t l <-> In t l') -> refilled O n (OrdinalSet_contains O s) l'.
  Proof.
    intros Hn Hs. destruct (set_listable HO Hs) as (l & Hl). destruct (set_iteration HO Hn Hs Hl) as (it & E & Hc & _).
    exists it, l. split; [exact E|]. split; [exact Hc|]. intros l' Hin. refine (refill Hl _ Hin).
    intros t. destruct (set_reach HO Hs) as (m & H & _). eexists. apply (set_contains_law HO t H).
  Qed.
  Lemma round_set64 s : set64_reachable O s ->
    exists it l, OrdinalSet64_iter O s = Val it /\ collects (Iter64_step O) it l /\
    forall l', (forall t, In t l <-> In t l') -> refilled O n (OrdinalSet64_contains O s) l'.
  Proof.
    intros Hs. destruct (set64_listable HO Hs) as (l & Hl). destruct (set64_iteration HO Hs Hl) as (it & E & Hc & _).
    exists it, l. split; [exact E|]. split; [exact Hc|]. intros l' Hin. refine (refill Hl _ Hin).
    intros t. destruct (set64_reach HO Hs) as (m & H). eexists. apply (set64_contains_law HO t H).
  Qed.
End RoundSet.
