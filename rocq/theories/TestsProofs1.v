(** * TestsProofs1: what [test_ordinal] establishes. *)
From Verif Require Import Base Spec SpecAtomic SpecValues SpecTests ModelOrdinal ModelValues ModelArrayBuilder ModelIter ModelTotal ModelMap ModelSet ModelTests BaseProofs ValuesProofs.
From Coq Require Import List Lia. Import ListNotations.
Set Implicit Arguments. Unset Strict Implicit.

Lemma assert_tt b : assert_rt b = Val tt <-> b = true.
Proof. destruct b; cbn; split; congruence. Qed.
Lemma bind_tt {A} (e : res A) (k : A -> res unit) : bind e k = Val tt <-> exists a, e = Val a /\ k a = Val tt.
Proof.
  destruct e; cbn; split; try discriminate; try (intros (? & ? & _); discriminate).
  - intros H. eauto.
  - intros (? & [= <-] & H). exact H.
Qed.
Lemma assert_bind b (k : unit -> res unit) : bind (assert_rt b) k = Val tt <-> b = true /\ k tt = Val tt.
Proof. destruct b; cbn; split; try discriminate; [auto|now intros []|now intros []]. Qed.
Lemma unwrap_bind {A} (o : option A) (k : A -> res unit) : bind (unwrap o) k = Val tt <-> exists a, o = Some a /\ k a = Val tt.
Proof.
  destruct o; cbn; split; try discriminate; try (intros (? & ? & _); discriminate).
  - intros H. eauto.
  - intros (? & [= <-] & H). exact H.
Qed.
Lemma none_tt {A} (o : option A) : negb (is_some o) = true <-> o = None.
Proof. destruct o; cbn; split; congruence. Qed.

Section TestOrdinal.
  Context {cfg : Config} {T : Type} (O : Ordinal T) (c : Cmp T).

  Lemma self_check_iff l : self_check c l = Val tt <-> neighbours (fun a b => c_lt c a b = true) l.
  Proof.
    induction l as [|a [|b l] IH].
    - split; [|reflexivity]. intros _ [|] ? ? ? E; discriminate E.
    - split; [|reflexivity]. intros _ [|? [|]] ? ? ? E; discriminate E.
    - cbn [self_check]. rewrite assert_bind, IH. split.
      + intros [H1 H2] [|x l1] u v l2 E.
        * now injection E as <- <- _.
        * injection E as -> E. exact (H2 l1 u v l2 E).
      + intros H. split; [exact (H [] a b l eq_refl)|]. intros l1 u v l2 E. apply (H (a :: l1) u v l2). now rewrite E.
  Qed.

  Hypothesis Hc : decides_eq (c_eq c).

  Lemma eq_refl_true a : c_eq c a a = true.
  Proof. now apply Hc. Qed.
  Lemma list_eq_iff : forall a b, list_eq c a b = true <-> a = b.
  Proof.
    induction a as [|x a IH]; intros [|y b]; cbn; split; try congruence; try reflexivity.
    - intros H. apply andb_prop in H as [H1 H2]. apply Hc in H1. apply IH in H2. congruence.
    - intros [= <- <-]. rewrite eq_refl_true. now apply IH.
  Qed.

  Lemma value_iff t : test_ordinal_value O c t = Val tt <->
    exists i, ordinal O t = Val i /\ from_ordinal O i = Val (Some t).
  Proof.
    unfold test_ordinal_value. rewrite bind_tt. split.
    - intros (i & E & H). rewrite bind_tt in H. destruct H as (o & E2 & H). apply unwrap_bind in H as (u & -> & H).
      apply assert_tt, Hc in H. subst u. eauto.
    - intros (i & E1 & E2). exists i. split; [exact E1|]. rewrite E2. cbn. now rewrite eq_refl_true.
  Qed.

  Lemma loop_iff e k : forall a, test_ordinal_loop O c e k a = Val tt <->
    forall j, (j < k)%nat -> exists t, from_ordinal O (a + N.of_nat j) = Val (Some t) /\
      nth_error e (N.to_nat a + j) = Some t /\ ordinal O t = Val (a + N.of_nat j).
  Proof.
    induction k as [|k IH]; intros a; cbn [test_ordinal_loop].
    - split; [|reflexivity]. intros _ j Hj. lia.
    - split.
      + intros H. apply bind_tt in H as (o & E1 & H). apply unwrap_bind in H as (t & -> & H).
        apply bind_tt in H as (x & E2 & H). apply assert_bind in H as [E3 H]. apply Hc in E3. subst x.
        apply bind_tt in H as (i & E4 & H). apply assert_bind in H as [E5 H]. apply N.eqb_eq in E5. subst i.
        intros [|j] Hj.
        * exists t. rewrite Nat.add_0_r, N.add_0_r. repeat split; auto.
          unfold index in E2. destruct (nth_error e (N.to_nat a)); congruence.
        * destruct (proj1 (IH (a + 1)) H j ltac:(lia)) as (u & G1 & G2 & G3). exists u.
          replace (a + N.of_nat (S j)) with (a + 1 + N.of_nat j) by lia.
          replace (N.to_nat a + S j)%nat with (N.to_nat (a + 1) + j)%nat by lia. auto.
      + intros H. destruct (H 0%nat ltac:(lia)) as (t & E1 & E2 & E3).
        rewrite N.add_0_r in E1, E3. rewrite Nat.add_0_r in E2. rewrite E1. cbn. unfold index. rewrite E2. cbn.
        rewrite eq_refl_true. cbn. rewrite E3. cbn. rewrite N.eqb_refl. cbn. apply IH. intros j Hj.
        destruct (H (S j) ltac:(lia)) as (u & G1 & G2 & G3). exists u.
        replace (a + 1 + N.of_nat j) with (a + N.of_nat (S j)) by lia.
        replace (N.to_nat (a + 1) + j)%nat with (N.to_nat a + S j)%nat by lia. auto.
  Qed.

  Lemma collect_numbered l : forall a, (forall j t, nth_error l j = Some t -> from_ordinal O (a + N.of_nat j) = Val (Some t)) ->
    exists s, collect (values_next O) (S (length l)) {| r_start := a; r_end := a + llen l |} = Val (l, s).
  Proof.
    induction l as [|t l IH]; intros a H.
    - exists {| r_start := a; r_end := a + llen (@nil T) |}.
      unfold llen. cbn. unfold values_next, range_next. cbn [r_start r_end].
      replace (a <? a + 0) with false by (symmetry; apply N.ltb_ge; lia). reflexivity.
    - destruct (IH (a + 1)) as (s & E).
      { intros j u Hj. replace (a + 1 + N.of_nat j) with (a + N.of_nat (S j)) by lia. now apply H. }
      exists s. cbn [length]. change (S (S (length l))) with (S (S (length l))).
      assert (El : a + llen (t :: l) = a + 1 + llen l) by (unfold llen; cbn; lia).
      cbn [collect]. unfold values_next at 1. unfold range_next. cbn [r_start r_end].
      replace (a <? a + llen (t :: l)) with true by (symmetry; apply N.ltb_lt; rewrite El; lia).
      pose proof (H 0%nat t eq_refl) as E0. rewrite N.add_0_r in E0. rewrite E0. cbn [bind unwrap].
      rewrite El. cbn [collect] in E. rewrite E. reflexivity.
  Qed.

  Lemma some_iff n : n <= usize_max -> ORDINAL_SIZE O = Val n ->
    test_ordinal_some O c = Val tt <->
    (0 < n -> exists a b, from_ordinal O 0 = Val (Some a) /\ from_ordinal O (n - 1) = Val (Some b) /\
       test_ordinal_value O c a = Val tt /\ test_ordinal_value O c b = Val tt) /\
    from_ordinal O n = Val None /\ (n < usize_max -> from_ordinal O usize_max = Val None).
  Proof.
    intros Hfit Hn. unfold test_ordinal_some. rewrite Hn. cbn [bind].
    rewrite bind_tt. split.
    - intros ([] & H1 & H). apply bind_tt in H as (o & E1 & H). apply assert_bind in H as [E2 H].
      apply none_tt in E2. subst o. split; [|split; [exact E1|]].
      + intros H0. apply N.ltb_lt in H0. rewrite H0 in H1. apply N.ltb_lt in H0.
        apply bind_tt in H1 as (o & F1 & H1). apply unwrap_bind in H1 as (a & -> & H1).
        apply bind_tt in H1 as ([] & F2 & H1). apply bind_tt in H1 as (i & F3 & H1).
        rewrite usub_ok in F3 by lia. injection F3 as <-.
        apply bind_tt in H1 as (o & F4 & H1). apply unwrap_bind in H1 as (b & -> & H1). eauto 8.
      + intros H0. apply N.ltb_lt in H0. rewrite H0 in H. apply bind_tt in H as (o & F1 & H).
        apply assert_tt, none_tt in H. now subst o.
    - intros (H1 & H2 & H3). exists tt. split.
      + destruct (0 <? n) eqn:E; [|reflexivity]. apply N.ltb_lt in E. destruct (H1 E) as (a & b & F1 & F2 & F3 & F4).
        rewrite F1. cbn [bind unwrap]. rewrite F3. cbn [bind].
        rewrite usub_ok by lia. cbn [bind]. rewrite F2. cbn [bind unwrap]. exact F4.
      + rewrite H2. cbn. destruct (n <? usize_max) eqn:E; [|reflexivity]. apply N.ltb_lt in E. rewrite (H3 E). reflexivity.
  Qed.

  (** What the test establishes. *)
  Lemma test_iff l : llen l <= usize_max -> test_ordinal O c l = Val tt <->
    ORDINAL_SIZE O = Val (llen l) /\ neighbours (fun a b => c_lt c a b = true) l /\ numbers_of O l /\
    from_ordinal O (llen l) = Val None /\ (llen l < usize_max -> from_ordinal O usize_max = Val None).
  Proof.
    intros Hfit. split.
    - intros H. unfold test_ordinal in H. apply bind_tt in H as (n & En & H). apply bind_tt in H as ([] & H1 & H).
      apply self_check_iff in H1. apply assert_bind in H as [H2 H]. apply N.eqb_eq in H2. subst n.
      apply bind_tt in H as (it & _ & H). apply bind_tt in H as ([l' s] & _ & H). apply assert_bind in H as [_ H].
      apply bind_tt in H as ([] & H3 & H). apply bind_tt in H as (o & _ & H). apply assert_bind in H as [_ H].
      apply (some_iff Hfit En) in H as (_ & H4 & H5). split; [exact En|]. split; [exact H1|]. split; [|auto].
      intros i t Hi. assert (Hl : (i < length l)%nat) by (apply nth_error_Some; congruence).
      destruct (proj1 (loop_iff l _ 0) H3 i) as (u & G1 & G2 & G3).
      { unfold llen. now rewrite Nat2N.id. }
      rewrite N.add_0_l in *. cbn [N.to_nat Nat.add] in G2. assert (u = t) as -> by congruence. auto.
    - intros (En & H1 & H2 & H3 & H4). unfold test_ordinal. rewrite En. cbn [bind].
      rewrite (proj2 (self_check_iff l) H1). cbn [bind]. rewrite N.eqb_refl. cbn [assert_rt bind].
      unfold values_new. rewrite En. cbn [bind].
      destruct (@collect_numbered l 0) as (s & E).
      { intros j t Hj. rewrite N.add_0_l. exact (proj2 (H2 j t Hj)). }
      rewrite N.add_0_l in E. unfold range_len. cbn [r_start r_end]. rewrite N.sub_0_r.
      assert (El : N.to_nat (llen l) = length l) by (unfold llen; now rewrite Nat2N.id).
      rewrite El, E. cbn [bind].
      rewrite (proj2 (list_eq_iff l l) eq_refl). cbn [assert_rt bind].
      rewrite (proj2 (loop_iff l (length l) 0)). 2:{
        intros j Hj. destruct (nth_error l j) as [t|] eqn:Et; [|apply nth_error_None in Et; lia].
        exists t. rewrite N.add_0_l. destruct (H2 j t Et). auto. }
      cbn [bind]. rewrite H3. cbn [bind is_some negb assert_rt].
      apply (proj2 (some_iff Hfit En)). split; [|auto]. intros H0.
      assert (Hp : (0 < length l)%nat) by (unfold llen in H0; lia).
      destruct (nth_error l 0) as [a|] eqn:Ea; [|apply nth_error_None in Ea; lia].
      destruct (nth_error l (length l - 1)) as [b|] eqn:Eb; [|apply nth_error_None in Eb; lia].
      exists a, b. destruct (H2 _ _ Ea) as [A1 A2], (H2 _ _ Eb) as [B1 B2].
      replace (llen l - 1) with (N.of_nat (length l - 1)) by (unfold llen; lia).
      cbn [N.of_nat] in A1, A2. split; [exact A2|]. split; [exact B2|].
      split; apply value_iff; eauto.
  Qed.

  Lemma numbered_numbers l : forall a, numbered O a l -> forall i t, nth_error l i = Some t ->
    ordinal O t = Val (a + N.of_nat i) /\ from_ordinal O (a + N.of_nat i) = Val (Some t).
  Proof.
    intros a H. induction H as [|a x l F1 F2 H IH]; intros [|i] t Hi; try discriminate Hi.
    - injection Hi as <-. rewrite N.add_0_r. auto.
    - replace (a + N.of_nat (S i)) with (a + 1 + N.of_nat i) by lia. now apply IH.
  Qed.
  Lemma numbers_numbered l : forall a, (forall i t, nth_error l i = Some t ->
    ordinal O t = Val (a + N.of_nat i) /\ from_ordinal O (a + N.of_nat i) = Val (Some t)) -> numbered O a l.
  Proof.
    induction l as [|x l IH]; intros a H; [constructor|].
    destruct (H 0%nat x eq_refl) as [F1 F2]. rewrite N.add_0_r in F1, F2. constructor; auto. apply IH.
    intros i t Hi. replace (a + 1 + N.of_nat i) with (a + N.of_nat (S i)) by lia. now apply H.
  Qed.

  Lemma sorted_neighbours (R : T -> T -> Prop) l : StronglySorted R l -> neighbours R l.
  Proof.
    induction 1 as [|x l H IH HF].
    - intros [|] ? ? ? E; discriminate E.
    - intros [|y l1] a b l2 E.
      + injection E as -> E. subst l. inversion HF. assumption.
      + injection E as -> E. exact (IH l1 a b l2 E).
  Qed.

  (** Passing the test. *)
  Lemma lawful_passes n l : ordinal_bijection O n -> enumeration O l ->
    (forall a b, ordinal_before O a b -> c_lt c a b = true) ->
    from_ordinal O n = Val None -> (n < usize_max -> from_ordinal O usize_max = Val None) ->
    test_ordinal O c l = Val tt.
  Proof.
    intros HO He Hlt H1 H2. destruct (enumeration_numbered HO He) as [Hn Hl].
    apply test_iff; rewrite Hl; [exact (bij_fits HO)|].
    split; [exact (bij_size HO)|]. split; [|split; [|auto]].
    - apply sorted_neighbours. destruct He as [_ Hs]. clear - Hs Hlt. induction Hs as [|x r Hs IH HF]; constructor; [exact IH|].
      apply Forall_forall. intros y Hy. rewrite Forall_forall in HF. now apply Hlt, HF.
    - intros i t Hi. destruct (numbered_numbers Hn Hi) as [F1 F2]. rewrite N.add_0_l in *. auto.
  Qed.

  (** A test that lists all values. *)
  Lemma complete_test l : (forall t, In t l) -> llen l <= usize_max ->
    test_ordinal O c l = Val tt -> ordinal_bijection O (llen l) /\ enumeration O l.
  Proof.
    intros Hall Hfit H. apply (test_iff Hfit) in H as (En & _ & Hn & _).
    assert (HN : numbered O 0 l).
    { apply numbers_numbered. intros i t Hi. rewrite N.add_0_l. now apply Hn. }
    assert (HB : ordinal_bijection O (llen l)).
    { constructor; auto.
      - intros t. destruct (In_nth_error l t (Hall t)) as (i & Hi). exists (N.of_nat i). destruct (Hn i t Hi) as [F1 F2].
        split; [exact F1|]. split; [|exact F2]. assert ((i < length l)%nat) by (apply nth_error_Some; congruence).
        unfold llen. lia.
      - intros i Hi. destruct (nth_error l (N.to_nat i)) as [t|] eqn:E.
        + destruct (Hn _ _ E) as [F1 F2]. rewrite N2Nat.id in *. eauto.
        + apply nth_error_None in E. unfold llen in Hi. lia. }
    split; [exact HB|]. split; [exact Hall|]. exact (numbered_sorted HN).
  Qed.
End TestOrdinal.
