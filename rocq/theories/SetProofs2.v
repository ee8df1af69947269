(** * SetProofs2: the property theorems of the sets (C50 - C61 and parts of C38, C40, C46, C62). *)
From Verif Require Import Base Spec SpecSet SpecIter ModelOrdinal ModelValues ModelArrayBuilder ModelSet SetMachine
  BaseProofs OrdinalProofs OrdinalProofs2 IterLib ValuesProofs ArrayProofs MapLib MapProofs3 MapProofs4 BitProofs SetProofs.
From Coq Require Import List.
Import ListNotations.
Unset Strict Implicit.

Lemma sspec_run_cons {T} eqd (ks : list T) op ops m :
  sspec_run eqd ks (op :: ops) m =
  (fst (sspec_step eqd ks op m) :: fst (sspec_run eqd ks ops (snd (sspec_step eqd ks op m))),
   snd (sspec_run eqd ks ops (snd (sspec_step eqd ks op m)))).
Proof.
  cbn [sspec_run]. destruct (sspec_step eqd ks op m) as [o m']. cbn [fst snd].
  destruct (sspec_run eqd ks ops m') as [os m'']. reflexivity.
Qed.

(** Programs follow the specification, when each step does. *)
Lemma run_law {T St} (step : set_op T -> St -> res (set_out T * St)) (inv : St -> mset T -> Prop)
    eqd ks (ok : set_op T -> bool) :
  (forall op s m, ok op = true -> inv s m ->
     exists s', step op s = Val (fst (sspec_step eqd ks op m), s') /\ inv s' (snd (sspec_step eqd ks op m))) ->
  forall ops s m, forallb ok ops = true -> inv s m ->
    exists s', run_ops step ops s = Val (fst (sspec_run eqd ks ops m), s') /\ inv s' (snd (sspec_run eqd ks ops m)).
Proof.
  intros Hstep ops. induction ops as [|op ops IH]; intros s m Hok H.
  - exists s. split; [reflexivity|exact H].
  - cbn [forallb] in Hok. apply andb_true_iff in Hok as [Hop Hops].
    destruct (Hstep op s m Hop H) as (s1 & E1 & H1). destruct (IH s1 _ Hops H1) as (s2 & E2 & H2).
    exists s2. rewrite sspec_run_cons. cbn [fst snd run_ops]. rewrite E1. cbn [bind]. rewrite E2.
    split; [reflexivity|exact H2].
Qed.

(** Invariants of successful programs. *)
Lemma run_inv {St Op Out} (step : Op -> St -> res (Out * St)) (inv : St -> Prop) :
  (forall op s o s', inv s -> step op s = Val (o, s') -> inv s') ->
  forall ops s os s', inv s -> run_ops step ops s = Val (os, s') -> inv s'.
Proof.
  intros Hstep ops. induction ops as [|op ops IH]; intros s os s' H E; cbn [run_ops] in E.
  - injection E as _ <-. exact H.
  - destruct (step op s) as [[o s1]| | | |] eqn:E1; cbn [bind] in E; try discriminate E.
    destruct (run_ops step ops s1) as [[os2 s2]| | | |] eqn:E2; cbn [bind] in E; try discriminate E.
    injection E as _ <-. eapply IH; [|exact E2]. eapply Hstep; eassumption.
Qed.

Section Laws.
  Context {cfg : Config} {T : Type} (O : Ordinal T) (n : N) (HO : ordinal_bijection O n).

  Lemma usize_big : 64 <= usize_max - 64.
  Proof. unfold usize_max. destruct usize_width; lia. Qed.

  Lemma forallb_true {A} (l : list A) : forallb (fun _ => true) l = true.
  Proof. induction l; [reflexivity|assumption]. Qed.

  (** ** Behaviour *)

  Lemma set_behaves : 1 <= n -> n <= usize_max - 64 ->
    forall (eqd : forall a b : T, {a = b} + {a <> b}) (ks : list T), enumeration O ks ->
    forall ops, exists s0 s, OrdinalSet_new O = Val s0 /\
      set_run O ops s0 = Val (fst (sspec_run eqd ks ops ms_empty), s) /\
      forall t, OrdinalSet_contains O s t = Val (snd (sspec_run eqd ks ops ms_empty) t).
  Proof.
    intros H1 H2 eqd ks He ops. destruct (set_new_law HO) as (s0 & E0 & H0).
    destruct (@run_law _ _ (set_step O) (set_inv O n) eqd ks (fun _ => true)) with (ops := ops) (s := s0) (m := @ms_empty T)
      as (s & E & H).
    - intros op s m _ Hs. apply (set_step_law HO); auto. left. exact H1.
    - apply forallb_true.
    - exact H0.
    - exists s0, s. split; [exact E0|]. split; [exact E|]. intros t. now apply (set_contains_law HO).
  Qed.

  Lemma array_set_behaves S : ordinal_array_set_s O = Val (N.of_nat S) ->
    forall (eqd : forall a b : T, {a = b} + {a <> b}) (ks : list T), enumeration O ks ->
    forall ops, forallb not_iter ops = true -> exists s0 s : OrdinalArraySet S, OrdinalArraySet_new O S = Val s0 /\
      array_set_run O ops s0 = Val (fst (sspec_run eqd ks ops ms_empty), s) /\
      forall t, OrdinalArraySet_contains O s t = Val (snd (sspec_run eqd ks ops ms_empty) t).
  Proof.
    intros HS eqd ks He ops Hops. rewrite (array_set_s_eq HO) in HS.
    assert (HS' : N.of_nat S = wcount n) by congruence.
    destruct (array_new_law HO HS') as (s0 & E0 & H0).
    destruct (@run_law _ _ (@array_set_step _ _ O S) (@array_set_inv _ O n S) eqd ks not_iter)
      with (ops := ops) (s := s0) (m := @ms_empty T) as (s & E & H).
    - intros op s m Hop Hs. apply (array_step_law HO); auto.
    - exact Hops.
    - exact H0.
    - exists s0, s. split; [exact E0|]. split; [exact E|]. intros t. now apply (array_contains_law HO).
  Qed.

  Lemma set64_behaves : n <= 64 ->
    forall (eqd : forall a b : T, {a = b} + {a <> b}) (ks : list T), enumeration O ks ->
    forall ops, forallb not_debug ops = true \/ 1 <= n \/ debug_assertions = false ->
    exists s0 s, OrdinalSet64_new O = Val s0 /\
      set64_run O ops s0 = Val (fst (sspec_run eqd ks ops ms_empty), s) /\
      forall t, OrdinalSet64_contains O s t = Val (snd (sspec_run eqd ks ops ms_empty) t).
  Proof.
    intros Hn eqd ks He ops Hops. destruct (set64_new_law HO Hn) as (E0 & H0).
    assert (Hrun : exists s, set64_run O ops 0 = Val (fst (sspec_run eqd ks ops ms_empty), s) /\
                     set64_inv O n s (snd (sspec_run eqd ks ops ms_empty))).
    { destruct Hops as [Hops|Hops].
      - apply (@run_law _ _ (set64_step O) (set64_inv O n) eqd ks not_debug); [|exact Hops|exact H0].
        intros op s m Hop Hs. apply (set64_step_law HO); auto.
      - apply (@run_law _ _ (set64_step O) (set64_inv O n) eqd ks (fun _ => true)); [|apply forallb_true|exact H0].
        intros op s m _ Hs. apply (set64_step_law HO); auto. }
    destruct Hrun as (s & E & H). exists 0, s. split; [exact E0|]. split; [exact E|].
    intros t. now apply (set64_contains_law HO).
  Qed.

  (** ** The sets agree *)

  Lemma sets_agree S ops : 1 <= n -> n <= usize_max - 64 -> ordinal_array_set_s O = Val (N.of_nat S) ->
    (forallb not_iter ops = true ->
     exists outs s0 s (a0 a : OrdinalArraySet S),
       OrdinalSet_new O = Val s0 /\ set_run O ops s0 = Val (outs, s) /\
       OrdinalArraySet_new O S = Val a0 /\ array_set_run O ops a0 = Val (outs, a)) /\
    (n <= 64 ->
     exists outs s0 s w0 w,
       OrdinalSet_new O = Val s0 /\ set_run O ops s0 = Val (outs, s) /\
       OrdinalSet64_new O = Val w0 /\ set64_run O ops w0 = Val (outs, w)).
  Proof.
    intros H1 H2 HS. destruct (keys_exist HO) as (ks & He).
    set (eqd := key_eq_dec HO). destruct (set_behaves H1 H2 eqd He ops) as (s0 & s & E0 & E & _).
    split.
    - intros Hops. destruct (array_set_behaves HS eqd He Hops) as (a0 & a & F0 & F & _).
      exists (fst (sspec_run eqd ks ops ms_empty)), s0, s, a0, a. auto.
    - intros Hn. destruct (@set64_behaves Hn eqd ks He ops (or_intror (or_introl H1))) as (w0 & w & F0 & F & _).
      exists (fst (sspec_run eqd ks ops ms_empty)), s0, s, w0, w. auto.
  Qed.

  (** ** Reachable sets *)

  Lemma insert_huge s t : usize_max - 64 < n -> s = Large [] -> OrdinalSet_insert O s t = Panic PUnwrap.
  Proof.
    intros Hn ->. pose proof usize_big. unfold OrdinalSet_insert. rewrite (is_small_eq HO). cbn [bind].
    replace (n <=? 64) with false by lia. cbn [llen length N.of_nat N.eqb]. unfold llen. cbn [length N.of_nat N.eqb].
    rewrite (bij_size HO). cbn [bind]. unfold checked_add. replace (n + 64 <=? usize_max) with false by lia.
    reflexivity.
  Qed.

  Lemma new_huge : usize_max - 64 < n -> OrdinalSet_new O = Val (Large []).
  Proof.
    intros Hn. pose proof usize_big. unfold OrdinalSet_new. rewrite (is_small_eq HO). cbn [bind].
    replace (n <=? 64) with false by lia. reflexivity.
  Qed.

  Definition set_ok (s : OrdinalSet) : Prop := exists m, set_inv O n s m /\ (usize_max - 64 < n -> s = Large []).

  Lemma set_step_ok op s o s' : set_ok s -> set_step O op s = Val (o, s') -> set_ok s'.
  Proof.
    intros Hok E. pose proof usize_big. destruct op as [t|t|sched|l| |]; cbn [set_step] in E.
    - destruct (N.le_gt_cases n (usize_max - 64)) as [Hn|Hn].
      + destruct Hok as (m & H1 & H2). destruct (set_insert_law HO (key_eq_dec HO) t (or_introl Hn) H1) as (s1 & E1 & H3).
        rewrite E1 in E. cbn [bind] in E. injection E as _ <-. eexists. split; [exact H3|lia].
      + destruct Hok as (m & H1 & H2). rewrite (insert_huge t Hn (H2 Hn)) in E. discriminate E.
    - destruct (OrdinalSet_contains O s t); cbn [bind] in E; try discriminate E. injection E as _ <-. exact Hok.
    - destruct (OrdinalSet_iter O s); cbn [bind] in E; try discriminate E.
      destruct (drive _ _ _) as [[? ?]| | | |]; cbn [bind] in E; try discriminate E. injection E as _ <-. exact Hok.
    - destruct (N.le_gt_cases n (usize_max - 64)) as [Hn|Hn].
      + destruct (set_from_iter_law HO (key_eq_dec HO) l (or_introl Hn)) as (s1 & E1 & H3).
        rewrite E1 in E. cbn [bind] in E. injection E as _ <-. eexists. split; [exact H3|lia].
      + unfold OrdinalSet_from_iter in E. rewrite (new_huge Hn) in E. cbn [bind] in E.
        destruct l as [|t l]; cbn [OrdinalSet_insert_all bind] in E.
        * injection E as _ <-. exists ms_empty. split; [|auto]. destruct (set_new_law HO) as (s1 & E1 & H1).
          rewrite (new_huge Hn) in E1. injection E1 as <-. exact H1.
        * rewrite (insert_huge t Hn eq_refl) in E. discriminate E.
    - injection E as _ <-. destruct s; exact Hok.
    - destruct (OrdinalSet_debug O s); cbn [bind] in E; try discriminate E. injection E as _ <-. exact Hok.
  Qed.

  Lemma set_reach s : set_reachable O s -> set_ok s.
  Proof.
    intros (s0 & ops & outs & E0 & E).
    refine (@run_inv _ _ _ (set_step O) set_ok _ ops s0 outs s _ E); [apply set_step_ok|].
    destruct (set_new_law HO) as (s1 & E1 & H1). assert (s1 = s0) by congruence. subst s1.
    exists ms_empty. split; [exact H1|]. intros Hn. rewrite (new_huge Hn) in E0. congruence.
  Qed.

  Lemma array_reach S (s : OrdinalArraySet S) : array_set_reachable O s -> exists m, array_set_inv O n s m.
  Proof.
    intros (s0 & ops & outs & E0 & E).
    assert (HS : N.of_nat S = wcount n).
    { unfold OrdinalArraySet_new, ArraySet_ASSERT in E0. rewrite (array_set_s_eq HO) in E0. cbn [bind] in E0.
      destruct (N.eqb_spec (N.of_nat S) (wcount n)); [assumption|discriminate E0]. }
    destruct (keys_exist HO) as (ks & He).
    refine (@run_inv _ _ _ (@array_set_step _ _ O S) (fun s => exists m, array_set_inv O n s m) _ ops s0 outs s _ E).
    - intros op s1 o s2 (m & H) E1.
      destruct (not_iter op) eqn:Hop; [|destruct op; discriminate].
      destruct (array_step_law HO (key_eq_dec HO) He Hop H) as (s3 & E3 & H3).
      rewrite E3 in E1. injection E1 as _ <-. eauto.
    - destruct (array_new_law HO HS) as (s1 & E1 & H1). assert (s1 = s0) by congruence. subst s1. eauto.
  Qed.

  Lemma all_inv w : OrdinalSet64_all O = Val w -> exists m, set64_inv O n w m.
  Proof.
    unfold OrdinalSet64_all, Set64_ASSERT. rewrite (bij_size HO). cbn [bind].
    destruct (N.leb_spec n 64) as [Hn|Hn]; [|discriminate]. cbn [assert_const bind].
    destruct (N.eq_dec n 64) as [->|Hne].
    - unfold u64_shl, u64_sub. destruct overflow_checks; [discriminate|]. cbn. intros [= <-].
      destruct (set64_new_law HO Hn) as [_ H]. eauto.
    - rewrite shl_one by lia. cbn [bind]. unfold u64_sub.
      assert (2 ^ n <> 0) by (apply N.pow_nonzero; lia).
      replace (1 <=? 2 ^ n) with true by lia. intros [= <-]. exists (fun _ => true).
      rewrite <- N.pred_sub, <- N.ones_equiv. split; [exact Hn|]. split.
      + intros i Hi. destruct (N.lt_ge_cases i n) as [H1|H1]; [exact H1|].
        rewrite N.ones_spec_high in Hi by exact H1. discriminate Hi.
      + intros t i Hi. destruct (bij_to HO t) as (j & Hj & Hlt & _). apply N.ones_spec_low. congruence.
  Qed.

  Lemma set64_reach w : set64_reachable O w -> exists m, set64_inv O n w m.
  Proof.
    intros (s0 & ops & outs & E0 & E).
    refine (@run_inv _ _ _ (set64_step O) (fun s => exists m, set64_inv O n s m) _ ops s0 outs w _ E).
    - clear E E0. intros op s o s' (m & H) E. destruct (keys_exist HO) as (ks & He).
      destruct (not_debug op) eqn:Hop.
      + destruct (set64_step_law HO (key_eq_dec HO) (or_introl Hop) He H) as (s3 & E3 & H3).
        rewrite E3 in E. injection E as _ <-. eauto.
      + destruct op; try discriminate Hop. cbn [set64_step] in E.
        destruct (OrdinalSet64_debug O s); cbn [bind] in E; try discriminate E. injection E as _ <-. eauto.
    - destruct E0 as [E0|E0]; [|now apply all_inv].
      assert (Hn : n <= 64).
      { unfold OrdinalSet64_new, Set64_ASSERT in E0. rewrite (bij_size HO) in E0. cbn [bind] in E0.
        destruct (N.leb_spec n 64); [assumption|discriminate E0]. }
      destruct (set64_new_law HO Hn) as [E1 H1]. assert (s0 = 0) by congruence. subst s0. eauto.
  Qed.

  (** ** Iteration *)

  Lemma set_iter_valid s m l it : set_inv O n s m -> lists_members O (OrdinalSet_contains O s) l ->
    OrdinalSet_iter O s = Val it -> set_rem O n m it l.
  Proof.
    intros H Hl E. destruct (keys_exist HO) as (ks & He).
    assert (El : l = members ks m).
    { apply (listed_unique Hl). apply members_listed; [exact He|]. intros t. now apply (set_contains_law HO). }
    unfold OrdinalSet_iter in E. destruct (OrdinalSet_as_ref O s) as [ws| | | |] eqn:Er; try discriminate E.
    assert (Hw : words_ok O ws m).
    { unfold OrdinalSet_as_ref in Er. rewrite (is_small_eq HO) in Er. cbn [bind] in Er.
      assert (Hnew : forall a b, OrdinalSetRef_new O a = Val b -> a = b).
      { clear. intros a b. unfold OrdinalSetRef_new. destruct (ordinal_array_set_s O); cbn [bind]; try discriminate.
        destruct (debug_assert _); cbn [bind]; try discriminate. congruence. }
      destruct (n <=? 64) eqn:Hn, s as [w|ws']; try discriminate Er; apply Hnew in Er; subst ws.
      - apply H.
      - apply H. }
    cbn [bind] in E. destruct (set_iter_start HO Hw He) as (it' & E' & Hr). assert (it' = it) by congruence.
    subst it' l. exact Hr.
  Qed.

  Lemma set_iter_ok s m : inhabited_or_release n -> set_inv O n s m -> exists it, OrdinalSet_iter O s = Val it.
  Proof.
    intros Hn H. destruct (keys_exist HO) as (ks & He).
    destruct (set_iter_law HO Hn H He) as (it & E & _). eauto.
  Qed.

  Lemma set_iteration s l : 1 <= n \/ debug_assertions = false -> set_reachable O s ->
    lists_members O (OrdinalSet_contains O s) l ->
    exists it, OrdinalSet_iter O s = Val it /\ collects (SetIter_step O) it l /\
      double_ended (SetIter_step O) it l anything.
  Proof.
    intros Hn Hs Hl. destruct (set_reach Hs) as (m & H & _). destruct (set_iter_ok Hn H) as (it & E).
    exists it. split; [exact E|]. pose proof (set_iter_valid H Hl E) as Hr. split.
    - eapply double_ended_collects; [exact (@set_refines _ _ O n HO m)|exact Hr].
    - eapply double_ended_from; [exact (@set_refines _ _ O n HO m)|exact Hr|]. intros; exact I.
  Qed.

  (** The members of a reachable set can be listed. *)
  Lemma set_listable s : set_reachable O s -> exists l, lists_members O (OrdinalSet_contains O s) l.
  Proof.
    intros Hs. destruct (set_reach Hs) as (m & H & _). destruct (keys_exist HO) as (ks & He).
    exists (members ks m). apply members_listed; [exact He|]. intros t. now apply (set_contains_law HO).
  Qed.
  Lemma array_set_listable S (s : OrdinalArraySet S) : array_set_reachable O s ->
    exists l, lists_members O (OrdinalArraySet_contains O s) l.
  Proof.
    intros Hs. destruct (array_reach Hs) as (m & H). destruct (keys_exist HO) as (ks & He).
    exists (members ks m). apply members_listed; [exact He|]. intros t. now apply (array_contains_law HO).
  Qed.
  Lemma set64_listable s : set64_reachable O s -> exists l, lists_members O (OrdinalSet64_contains O s) l.
  Proof.
    intros Hs. destruct (set64_reach Hs) as (m & H). destruct (keys_exist HO) as (ks & He).
    exists (members ks m). apply members_listed; [exact He|]. intros t. now apply (set64_contains_law HO).
  Qed.

  Lemma set64_iter_valid w m l : set64_inv O n w m -> lists_members O (OrdinalSet64_contains O w) l ->
    OrdinalSet64_iter O w = Val w /\ i64_rem O n w l.
  Proof.
    intros H Hl. destruct (keys_exist HO) as (ks & He).
    assert (El : l = members ks m).
    { apply (listed_unique Hl). apply members_listed; [exact He|]. intros t. now apply (set64_contains_law HO). }
    subst l. now apply (set64_iter_law HO).
  Qed.

  Lemma i64_done d s : i64_rem O n s [] -> Iter64_step O d s = Val (None, s).
  Proof.
    intros (H1 & H2 & H3). inversion H3 as [Hb|]. symmetry in Hb.
    apply bits_nil_iff in Hb; [|intros k Hk; apply H2 in Hk; lia]. subst s. destruct d; reflexivity.
  Qed.

  Lemma set64_iteration s l : set64_reachable O s -> lists_members O (OrdinalSet64_contains O s) l ->
    exists it, OrdinalSet64_iter O s = Val it /\ collects (Iter64_step O) it l /\
      double_ended (Iter64_step O) it l (fun it r =>
        Iter64_len it = llen r /\ hint_exact (Iter64_size_hint it) (llen r) /\
        (r = [] -> forall d, Iter64_step O d it = Val (None, it))).
  Proof.
    intros Hs Hl. destruct (set64_reach Hs) as (m & H). destruct (set64_iter_valid H Hl) as [E Hr].
    exists s. split; [exact E|]. split.
    - eapply double_ended_collects; [exact (@i64_refines _ _ O n HO)|exact Hr].
    - eapply double_ended_from; [exact (@i64_refines _ _ O n HO)|exact Hr|]. intros s' l' Hr'.
      split; [now apply (@i64_len _ O n)|]. split.
      + unfold hint_exact, Iter64_size_hint. rewrite (i64_len Hr'). reflexivity.
      + intros -> d. now apply i64_done.
  Qed.

  Lemma set64_hints s l : set64_reachable O s -> lists_members O (OrdinalSet64_contains O s) l ->
    exists it, OrdinalSet64_iter O s = Val it /\
      double_ended (Iter64_step O) it l (fun it _ => hint_exact (Iter64_size_hint it) (Iter64_len it)).
  Proof.
    intros Hs Hl. destruct (set64_iteration Hs Hl) as (it & E & _ & H). exists it. split; [exact E|].
    intros sched. destruct (H sched) as (s' & E' & H1 & H2 & _). exists s'. split; [exact E'|]. reflexivity.
  Qed.

  Lemma set_hints s l : set_reachable O s -> lists_members O (OrdinalSet_contains O s) l ->
    forall it, OrdinalSet_iter O s = Val it ->
      double_ended (SetIter_step O) it l (fun it r => hint_ok (SetIter_size_hint it) (llen r)).
  Proof.
    intros Hs Hl it E. destruct (set_reach Hs) as (m & H & _). pose proof (set_iter_valid H Hl E) as Hr.
    eapply double_ended_from; [exact (@set_refines _ _ O n HO m)|exact Hr|]. intros s' l'. apply set_rem_hint.
  Qed.

  (** ** Clones *)

  Lemma set_clones s l : set_reachable O s -> lists_members O (OrdinalSet_contains O s) l ->
    lists_members O (OrdinalSet_contains O (OrdinalSet_clone s)) l /\
    forall it, OrdinalSet_iter O s = Val it ->
      double_ended (SetIter_step O) it l (fun it r => double_ended (SetIter_step O) (SetIter_clone it) r anything).
  Proof.
    intros Hs Hl. split; [destruct s; exact Hl|]. intros it E. destruct (set_reach Hs) as (m & H & _).
    pose proof (set_iter_valid H Hl E) as Hr.
    eapply double_ended_from; [exact (@set_refines _ _ O n HO m)|exact Hr|]. intros s' l' H'.
    apply set_rem_clone in H'.
    eapply double_ended_from; [exact (@set_refines _ _ O n HO m)|exact H'|]. intros; exact I.
  Qed.

  Lemma array_set_clones S (s : OrdinalArraySet S) l : array_set_reachable O s ->
    lists_members O (OrdinalArraySet_contains O s) l ->
    lists_members O (OrdinalArraySet_contains O (OrdinalArraySet_clone s)) l.
  Proof. intros _ H. exact H. Qed.

  Lemma set64_clones s l : set64_reachable O s -> lists_members O (OrdinalSet64_contains O s) l ->
    lists_members O (OrdinalSet64_contains O (OrdinalSet64_clone s)) l /\
    forall it, OrdinalSet64_iter O s = Val it ->
      double_ended (Iter64_step O) it l (fun it r => double_ended (Iter64_step O) (Iter64_clone it) r anything).
  Proof.
    intros Hs Hl. split; [exact Hl|]. intros it E. destruct (set64_reach Hs) as (m & H).
    destruct (set64_iter_valid H Hl) as [E' Hr]. assert (it = s) by congruence. subst it.
    eapply double_ended_from; [exact (@i64_refines _ _ O n HO)|exact Hr|]. intros s' l' H'.
    eapply double_ended_from; [exact (@i64_refines _ _ O n HO)|exact H'|]. intros; exact I.
  Qed.

  (** ** Debug *)

  Lemma set_debugs s l : set_reachable O s -> lists_members O (OrdinalSet_contains O s) l ->
    (1 <= n \/ debug_assertions = false -> OrdinalSet_debug O s = Val l) /\
    forall it, OrdinalSet_iter O s = Val it ->
      double_ended (SetIter_step O) it l (fun it r => SetIter_debug O it = Val r).
  Proof.
    intros Hs Hl. destruct (set_reach Hs) as (m & H & _). split.
    - intros Hn. destruct (keys_exist HO) as (ks & He). rewrite (set_debug_law HO Hn H He). f_equal.
      apply (@listed_unique _ O (OrdinalSet_contains O s)); [|exact Hl].
      apply members_listed; [exact He|]. intros t. now apply (set_contains_law HO).
    - intros it E. pose proof (set_iter_valid H Hl E) as Hr.
      eapply double_ended_from; [exact (@set_refines _ _ O n HO m)|exact Hr|]. intros s' l' H'.
      apply (set_rem_debug HO H').
  Qed.

  Lemma array_set_debugs S (s : OrdinalArraySet S) l : array_set_reachable O s ->
    lists_members O (OrdinalArraySet_contains O s) l -> OrdinalArraySet_debug O s = Val l.
  Proof.
    intros Hs Hl. destruct (array_reach Hs) as (m & H). destruct (keys_exist HO) as (ks & He).
    rewrite (array_debug_law HO H He). f_equal.
    apply (@listed_unique _ O (OrdinalArraySet_contains O s)); [|exact Hl].
    apply members_listed; [exact He|]. intros t. now apply (array_contains_law HO).
  Qed.

  Lemma set64_debugs s l : set64_reachable O s -> lists_members O (OrdinalSet64_contains O s) l ->
    (1 <= n \/ debug_assertions = false -> OrdinalSet64_debug O s = Val l) /\
    exists it, OrdinalSet64_iter O s = Val it /\
      double_ended (Iter64_step O) it l (fun it r => Iter64_debug O it = Val r).
  Proof.
    intros Hs Hl. destruct (set64_reach Hs) as (m & H). split.
    - intros Hn. destruct (keys_exist HO) as (ks & He). rewrite (set64_debug_law HO Hn H He). f_equal.
      apply (@listed_unique _ O (OrdinalSet64_contains O s)); [|exact Hl].
      apply members_listed; [exact He|]. intros t. now apply (set64_contains_law HO).
    - destruct (set64_iter_valid H Hl) as [E Hr]. exists s. split; [exact E|].
      eapply double_ended_from; [exact (@i64_refines _ _ O n HO)|exact Hr|]. intros s' l' H'.
      apply (i64_debug HO H').
  Qed.

  (** ** OrdinalSet64::all and equality *)

  Lemma all_law : n < 64 -> exists w, OrdinalSet64_all O = Val w /\ forall t, OrdinalSet64_contains O w t = Val true.
  Proof.
    intros Hn. assert (E : OrdinalSet64_all O = Val (2 ^ n - 1)).
    { unfold OrdinalSet64_all. rewrite (set64_assert HO) by lia. cbn [bind]. rewrite (bij_size HO). cbn [bind].
      rewrite shl_one by exact Hn. cbn [bind]. unfold u64_sub.
      assert (2 ^ n <> 0) by (apply N.pow_nonzero; lia). replace (1 <=? 2 ^ n) with true by lia. reflexivity. }
    exists (2 ^ n - 1). split; [exact E|]. intros t. destruct (bij_to HO t) as (i & Hi & Hlt & _).
    unfold OrdinalSet64_contains. rewrite (set64_assert HO) by lia. cbn [bind]. rewrite Hi. cbn [bind].
    rewrite shl_one by lia. cbn [bind]. rewrite mask_test, <- N.pred_sub, <- N.ones_equiv.
    rewrite N.ones_spec_low by exact Hlt. reflexivity.
  Qed.

  Lemma all_64 : n = 64 ->
    OrdinalSet64_all O = Panic POverflow \/
    OrdinalSet64_all O = Val 0 /\ forall t, OrdinalSet64_contains O 0 t = Val false.
  Proof.
    intros Hn. assert (H64 : n <= 64) by lia.
    unfold OrdinalSet64_all. rewrite (set64_assert HO H64). cbn [bind]. rewrite (bij_size HO), Hn. cbn [bind].
    unfold u64_shl, u64_sub. destruct overflow_checks; [left; reflexivity|]. right. split; [reflexivity|].
    intros t. destruct (set64_new_law HO H64) as [_ H]. now rewrite (set64_contains_law HO t H).
  Qed.

  Lemma set64_equality a b : set64_reachable O a -> set64_reachable O b ->
    (OrdinalSet64_eq a b = true <-> forall t, OrdinalSet64_contains O a t = OrdinalSet64_contains O b t).
  Proof.
    intros Ha Hb. unfold OrdinalSet64_eq. rewrite N.eqb_eq. split; [intros ->; reflexivity|].
    intros Heq. destruct (set64_reach Ha) as (m & Hm). destruct (set64_reach Hb) as (m' & Hm').
    apply N.bits_inj. intros i. destruct (N.lt_ge_cases i n) as [Hi|Hi].
    - destruct (bij_from HO Hi) as (t & _ & Ht). specialize (Heq t).
      rewrite (set64_contains_law HO t Hm), (set64_contains_law HO t Hm') in Heq. injection Heq as Heq.
      destruct Hm as (_ & _ & Hm). destruct Hm' as (_ & _ & Hm'). rewrite (Hm _ _ Ht), (Hm' _ _ Ht). exact Heq.
    - destruct Hm as (_ & Hm & _). destruct Hm' as (_ & Hm' & _). specialize (Hm i). specialize (Hm' i).
      destruct (N.testbit a i); [specialize (Hm eq_refl); lia|].
      destruct (N.testbit b i); [specialize (Hm' eq_refl); lia|]. reflexivity.
  Qed.

  (** ** FromIterator *)

  Lemma set_of_In eqd (l : list T) t : set_of eqd l t = true <-> In t l.
  Proof. unfold set_of. destruct (in_dec eqd t l); split; auto; discriminate. Qed.

  Lemma set_collects l : n <= usize_max - 64 ->
    exists s, OrdinalSet_from_iter O l = Val s /\ forall t, exists b, OrdinalSet_contains O s t = Val b /\ (b = true <-> In t l).
  Proof.
    intros Hn. destruct (set_from_iter_law HO (key_eq_dec HO) l (or_introl Hn)) as (s & E & H).
    exists s. split; [exact E|]. intros t. eexists. split; [apply (set_contains_law HO t H)|]. apply set_of_In.
  Qed.
  Lemma array_set_collects S l : ordinal_array_set_s O = Val (N.of_nat S) ->
    exists s : OrdinalArraySet S, OrdinalArraySet_from_iter O S l = Val s /\
      forall t, exists b, OrdinalArraySet_contains O s t = Val b /\ (b = true <-> In t l).
  Proof.
    intros HS. rewrite (array_set_s_eq HO) in HS. assert (HS' : N.of_nat S = wcount n) by congruence.
    destruct (array_from_iter_law HO (key_eq_dec HO) l HS') as (s & E & H).
    exists s. split; [exact E|]. intros t. eexists. split; [apply (array_contains_law HO t H)|]. apply set_of_In.
  Qed.
  Lemma set64_collects l : n <= 64 ->
    exists s, OrdinalSet64_from_iter O l = Val s /\ forall t, exists b, OrdinalSet64_contains O s t = Val b /\ (b = true <-> In t l).
  Proof.
    intros Hn. destruct (set64_from_iter_law HO (key_eq_dec HO) l Hn) as (s & E & H).
    exists s. split; [exact E|]. intros t. eexists. split; [apply (set64_contains_law HO t H)|]. apply set_of_In.
  Qed.

  Lemma set_collects_huge t l : usize_max - 64 < n -> OrdinalSet_from_iter O (t :: l) = Panic PUnwrap.
  Proof.
    intros Hn. unfold OrdinalSet_from_iter. rewrite (new_huge Hn). cbn [bind OrdinalSet_insert_all].
    rewrite (insert_huge t Hn eq_refl). reflexivity.
  Qed.

  (** ** Empty key types, huge key types *)

  Lemma new_set_prints : n <= 64 -> 1 <= n \/ debug_assertions = false ->
    exists s it, OrdinalSet_new O = Val s /\ OrdinalSet_iter O s = Val it /\ collects (SetIter_step O) it [] /\
      OrdinalSet_debug O s = Val [].
  Proof.
    intros _ Hn. destruct (set_new_law HO) as (s & E & H).
    assert (Hr : set_reachable O s) by (exists s, [], []; split; [exact E|reflexivity]).
    assert (Hl : lists_members O (OrdinalSet_contains O s) []).
    { split; [|constructor]. intros t. rewrite (set_contains_law HO t H). cbn. split; [contradiction|discriminate]. }
    destruct (set_iteration Hn Hr Hl) as (it & E' & Hc & _). exists s, it.
    split; [exact E|]. split; [exact E'|]. split; [exact Hc|]. now apply (proj1 (set_debugs Hr Hl)).
  Qed.

  Lemma insert_total s t : n <= usize_max - 64 -> set_reachable O s -> exists b s', OrdinalSet_insert O s t = Val (b, s').
  Proof.
    intros Hn Hs. destruct (set_reach Hs) as (m & H & _).
    destruct (set_insert_law HO (key_eq_dec HO) t (or_introl Hn) H) as (s' & E & _). eauto.
  Qed.

  (** ** The word count *)

  Lemma word_count_least : exists s, ordinal_array_set_s O = Val s /\ n <= 64 * s /\ forall s', n <= 64 * s' -> s <= s'.
  Proof. exists (wcount n). split; [apply (array_set_s_eq HO)|]. apply wcount_spec. Qed.

  Lemma word_count_other S : ordinal_array_set_s O <> Val (N.of_nat S) ->
    OrdinalArraySet_new O S = NoCompile /\
    (forall l, OrdinalArraySet_from_iter O S l = NoCompile) /\
    forall s : OrdinalArraySet S,
      (forall t, OrdinalArraySet_contains O s t = NoCompile) /\ (forall t, OrdinalArraySet_insert O s t = NoCompile) /\
      OrdinalArraySet_debug O s = NoCompile.
  Proof.
    intros HS. rewrite (array_set_s_eq HO) in HS.
    assert (E : ArraySet_ASSERT O S = NoCompile).
    { unfold ArraySet_ASSERT. rewrite (array_set_s_eq HO). cbn [bind].
      destruct (N.eqb_spec (N.of_nat S) (wcount n)); [congruence|reflexivity]. }
    unfold OrdinalArraySet_from_iter, OrdinalArraySet_new, OrdinalArraySet_contains, OrdinalArraySet_as_ref,
      OrdinalArraySet_insert, OrdinalArraySet_debug, OrdinalArraySet_as_ref.
    rewrite E. repeat split; reflexivity.
  Qed.

  Lemma default_any_size S : exists s : OrdinalArraySet S, OrdinalArraySet_default S = Val s.
  Proof.
    unfold OrdinalArraySet_default, as_array. destruct (@try_arr_ok _ S (repeat 0 S)) as (a & E & _).
    - apply repeat_length.
    - rewrite E. eauto.
  Qed.
End Laws.

(** ** Refutations *)

Definition key64 {cfg : Config} : Ordinal (arr bool 6) := Ordinal_array Ordinal_bool 6.

Lemma key64_lawful {cfg : Config} : lawful key64 64.
Proof. apply (@array_law _ _ _ 2 6); [apply bool_lawful|]. unfold usize_max. destruct usize_width; vm_compute; discriminate. Qed.

Lemma all_refuted : forall cfg : Config, exists (K : Type) (O : Ordinal K), lawful O 64 /\
  (overflow_checks = true -> OrdinalSet64_all O = Panic POverflow) /\
  (overflow_checks = false -> exists w, OrdinalSet64_all O = Val w /\ forall t, OrdinalSet64_contains O w t = Val false).
Proof.
  intros cfg. exists (arr bool 6), key64. split; [apply key64_lawful|].
  pose proof (proj1 (@key64_lawful cfg)) as H64.
  assert (E : OrdinalSet64_all key64 = (b <- u64_shl 1 64 ;; u64_sub b 1)).
  { unfold OrdinalSet64_all. rewrite (set64_assert H64) by lia. cbn [bind]. rewrite (bij_size H64). reflexivity. }
  rewrite E. unfold u64_shl, u64_sub. split; intros ->; [reflexivity|]. exists 0. split; [reflexivity|].
  intros t. destruct (set64_new_law H64 (N.le_refl _)) as [_ H]. now rewrite (set64_contains_law H64 t H).
Qed.

Lemma empty_refuted : forall cfg : Config, debug_assertions = true ->
  exists (K : Type) (O : Ordinal K), lawful O 0 /\
  exists s w, OrdinalSet_new O = Val s /\ OrdinalSet_iter O s = Panic PDebugAssert /\
    OrdinalSet_debug O s = Panic PDebugAssert /\
    OrdinalSet64_new O = Val w /\ OrdinalSet64_debug O w = Panic PDebugAssert.
Proof.
  intros cfg D. exists Empty_set, Ordinal_Infallible. split; [apply Infallible_lawful|].
  exists (Small 0), 0. split; [reflexivity|].
  assert (E : OrdinalSetRef_new Ordinal_Infallible [0] = Panic PDebugAssert).
  { unfold OrdinalSetRef_new. cbn. unfold debug_assert. rewrite D. reflexivity. }
  unfold OrdinalSet_iter, OrdinalSet_debug, OrdinalSet64_debug, OrdinalSet64_as_ref.
  assert (E' : OrdinalSet_as_ref Ordinal_Infallible (Small 0) = Panic PDebugAssert) by exact E.
  rewrite E'. split; [reflexivity|]. split; [reflexivity|]. split; [reflexivity|].
  change (OrdinalSetRef_new Ordinal_Infallible [0 : OrdinalSet64]) with (OrdinalSetRef_new Ordinal_Infallible [0]).
  rewrite E. reflexivity.
Qed.

Lemma huge_refuted : forall cfg : Config, exists (K : Type) (O : Ordinal K) (n : N), lawful O n /\
  exists s t, OrdinalSet_new O = Val s /\ OrdinalSet_insert O s t = Panic PUnwrap /\
    OrdinalSet_from_iter O [t] = Panic PUnwrap.
Proof.
  intros cfg. exists NonZeroUsize, Ordinal_NonZeroUsize, usize_max.
  pose proof (@NonZeroUsize_lawful cfg) as HL. split; [exact HL|]. pose proof (proj1 HL) as H.
  pose proof (@usize_big cfg).
  destruct (bij_from H (i := 0)) as (t & _); [lia|].
  exists (Large []), t. split; [apply (new_huge H); lia|]. split.
  - apply (insert_huge H); [lia|reflexivity].
  - apply (set_collects_huge H). lia.
Qed.

Lemma default_refuted : forall cfg : Config, exists (K : Type) (O : Ordinal K) (n : N) (S : nat), lawful O n /\
  ordinal_array_set_s O <> Val (N.of_nat S) /\
  exists s : OrdinalArraySet S, OrdinalArraySet_default S = Val s /\ OrdinalArraySet_clone s = s.
Proof.
  intros cfg. exists bool, Ordinal_bool, 2, 3%nat. split; [apply bool_lawful|]. split.
  - rewrite (array_set_s_eq (proj1 (@bool_lawful cfg))). discriminate.
  - destruct (default_any_size 3) as (s & E). exists s. auto.
Qed.

Lemma empty_iteration_refuted : forall cfg : Config, debug_assertions = true ->
  exists (K : Type) (O : Ordinal K) (s : OrdinalSet), lawful O 0 /\ set_reachable O s /\
    lists_members O (OrdinalSet_contains O s) [] /\ OrdinalSet_iter O s = Panic PDebugAssert /\
    OrdinalSet_debug O s = Panic PDebugAssert.
Proof.
  intros cfg D. destruct (@empty_refuted cfg D) as (K & O & HL & s & w & E1 & E2 & E3 & _).
  exists K, O, s. split; [exact HL|]. split; [exists s, [], []; split; [exact E1|reflexivity]|].
  split; [|split; assumption]. split; [|constructor]. intros t.
  destruct (bij_to (proj1 HL) t) as (i & _ & H & _). lia.
Qed.

Lemma set_from_iter_refuted : forall cfg : Config, exists (K : Type) (O : Ordinal K) (n : N) (t : K), lawful O n /\
  OrdinalSet_from_iter O [t] = Panic PUnwrap.
Proof.
  intros cfg. destruct (@huge_refuted cfg) as (K & O & n & HL & s & t & _ & _ & E). exists K, O, n, t. auto.
Qed.
