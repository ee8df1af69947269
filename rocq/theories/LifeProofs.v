(** * LifeProofs: destructors, Drain, retain. *)
From Verif Require Import Base BaseProofs Spec SpecMem SpecMap SpecTotal SpecCatch SpecResume SpecLedger SpecLife ModelOrdinal ModelValues
  ModelArrayBuilder ModelIter ModelTotal ModelMap ModelDrop ModelResume ModelUnwind ModelCatch MapMachine TotalMachine ModelLife
  ResumeProofs UnwindProofs2 CatchProofs5 LedgerProofs LedgerProofs2 LedgerProofs3.
From Coq Require Import List Lia Permutation. Import ListNotations.
Set Implicit Arguments.
Unset Strict Implicit.

Section Life.
  Context {V : Type} (boom : list V -> V -> option panic).

  Section Destroy.
    Context {M : Type}.
    Lemma destroy_law v (log : list V) (m : M) s e : destroy boom v (log, m) = (s, e) ->
      s = (log ++ [v], m) /\ (e = Ended tt \/ exists w, e = Unwinds w /\ boom log v = Some w).
    Proof. unfold destroy, destructor. destruct (boom log v) as [w|] eqn:E; intros [= <- <-]; eauto. Qed.
    Lemma glue_unwinding_law vs : forall (log : list V) (m : M) s e, glue_unwinding boom vs (log, m) = (s, e) ->
      (e = Ended tt /\ s = (log ++ vs, m)) \/ (e = Aborts /\ exists a b, vs = a ++ b /\ s = (log ++ a, m)).
    Proof.
      induction vs as [|v vs IH]; intros log m s e; cbn [glue_unwinding].
      - intros [= <- <-]. left. now rewrite app_nil_r.
      - destruct (destroy boom v (log, m)) as [s1 e1] eqn:E. apply destroy_law in E. destruct E as [-> [-> | (w & -> & _)]].
        + intros E. destruct (IH _ _ _ _ E) as [[-> ->] | (-> & a & b & -> & ->)].
          * left. now rewrite <- app_assoc.
          * right. split; [reflexivity|]. exists (v :: a), b. now rewrite <- app_assoc.
        + intros [= <- <-]. right. split; [reflexivity|]. exists [v], vs. split; reflexivity.
    Qed.
    Lemma unwinding_glue_law A vs w : forall (log : list V) (m : M) s (e : ending A),
      (glue_unwinding boom vs ;;! fun s => (s, Unwinds w)) (log, m) = (s, e) ->
      (e = Unwinds w /\ s = (log ++ vs, m)) \/ (e = Aborts /\ exists a b, vs = a ++ b /\ s = (log ++ a, m)).
    Proof.
      intros log m s e. unfold abind. destruct (glue_unwinding boom vs (log, m)) as [s1 e1] eqn:E.
      destruct (glue_unwinding_law E) as [[-> ->] | (-> & a & b & -> & ->)]; intros [= <- <-]; eauto 10.
    Qed.
    Lemma glue_law vs : forall (log : list V) (m : M) s e, glue boom vs (log, m) = (s, e) ->
      ((e = Ended tt \/ exists w, e = Unwinds w) /\ s = (log ++ vs, m)) \/ (e = Aborts /\ exists a b, vs = a ++ b /\ s = (log ++ a, m)).
    Proof.
      induction vs as [|v vs IH]; intros log m s e; cbn [glue].
      - intros [= <- <-]. left. rewrite app_nil_r. auto.
      - destruct (destroy boom v (log, m)) as [s1 e1] eqn:E. apply destroy_law in E. destruct E as [-> [-> | (w & -> & _)]].
        + intros E. destruct (IH _ _ _ _ E) as [[H ->] | (-> & a & b & -> & ->)].
          * left. rewrite <- app_assoc. auto.
          * right. split; [reflexivity|]. exists (v :: a), b. now rewrite <- app_assoc.
        + intros E. destruct (unwinding_glue_law E) as [[-> ->] | (-> & a & b & -> & ->)].
          * left. rewrite <- app_assoc. eauto.
          * right. split; [reflexivity|]. exists (v :: a), b. now rewrite <- app_assoc.
    Qed.
    Lemma owning_law A vs (x : act (list V * M) A) s s' e : owning boom vs x s = (s', e) ->
      exists log1 m1 e1, x s = ((log1, m1), e1) /\
        match e1 with
        | Unwinds w => (e = Unwinds w /\ s' = (log1 ++ vs, m1)) \/ (e = Aborts /\ exists a b, vs = a ++ b /\ s' = (log1 ++ a, m1))
        | _ => e = e1 /\ s' = (log1, m1)
        end.
    Proof.
      unfold owning. destruct (x s) as [[log1 m1] e1]. intros E. exists log1, m1, e1. split; [reflexivity|].
      destruct e1; try (injection E as <- <-; auto). exact (unwinding_glue_law E).
    Qed.
    Lemma calm_law A (x : act M A) (log : list V) m s e : calm x (log, m) = (s, e) -> exists m', x m = (m', e) /\ s = (log, m').
    Proof. unfold calm. destruct (x m) as [m' e']. intros [= <- <-]. eauto. Qed.
  End Destroy.

  (** ** Drain *)
  Section Drains.
    Context {cfg : Config} {K : Type} (O : Ordinal K).

    Lemma drain_destroy_law fuel : forall log (d : @Drain V) log' d' e, drain_destroy boom O fuel (log, d) = ((log', d'), e) ->
      exists ds, log' = log ++ ds /\ Permutation (stored (fst d)) (ds ++ stored (fst d')) /\ e <> Aborts.
    Proof.
      induction fuel as [|fuel IH]; intros log d log' d' e; cbn [drain_destroy].
      { intros [= <- <- <-]. exists []. rewrite app_nil_r. repeat split; [apply Permutation_refl|discriminate]. }
      destruct (drain_resume_step (pure_from O) Front (tt, d)) as [[u1 d1] r] eqn:E1. destruct d as [storage it].
      pose proof (drain_keeps E1) as P. cbn [fst snd] in P |- *.
      destruct r as [[[k v]|]|w| | |]; cbn [handed_out app] in P;
        try (intros [= <- <- <-]; exists []; rewrite app_nil_r; repeat split; [exact P|discriminate]).
      unfold abind. destruct (destroy boom v (log, d1)) as [s1 e1] eqn:E2. apply destroy_law in E2.
      destruct E2 as [-> [-> | (w & -> & _)]].
      - intros E. destruct (IH _ _ _ _ _ E) as (ds & -> & P2 & N). exists (v :: ds). rewrite <- app_assoc. repeat split; [|exact N].
        eapply Permutation_trans; [exact P|]. cbn [app]. apply perm_skip. exact P2.
      - intros [= <- <- <-]. exists [v]. repeat split; [exact P|discriminate].
    Qed.
    Lemma drain_destroy_empties fuel : forall log (d : @Drain V) log' d', ahead d ->
      drain_destroy boom O fuel (log, d) = ((log', d'), Ended tt) -> stored (fst d') = [].
    Proof.
      induction fuel as [|fuel IH]; intros log d log' d' H; cbn [drain_destroy]; [discriminate|].
      destruct (drain_resume_step (pure_from O) Front (tt, d)) as [[u1 d1] r] eqn:E1.
      destruct r as [[[k v]|]|w| | |]; try discriminate.
      - unfold abind. destruct (destroy boom v (log, d1)) as [s1 e1] eqn:E2. apply destroy_law in E2.
        destruct E2 as [-> [-> | (w & -> & _)]]; [|discriminate].
        intros E. exact (IH _ _ _ _ (proj1 (ahead_loop H E1)) E).
      - intros [= <- <-]. destruct (ahead_loop H E1) as [A B]. specialize (B eq_refl). unfold ahead in A. rewrite B in A.
        destruct d1 as [storage it]. cbn [fst snd] in *. clear - A. induction storage as [|[v|] l IH]; [reflexivity| |].
        + destruct (A 0%nat v eq_refl).
        + apply IH. intros j v H. exact (A (Datatypes.S j) v H).
    Qed.

    (** What every operation has to satisfy. *)
    Definition good_call (op : map_op K V) (h log : list V) (e : ending (map_out K V)) (log' h' : list V) : Prop :=
      match e with
      | Ended o => exists g t ds, log' = log ++ ds /\ life_account op (Seen o) h g t ds h' /\ balanced h g t ds h'
      | Unwinds w => exists g t ds, log' = log ++ ds /\ life_account op (Caught w) h g t ds h' /\ balanced h g t ds h'
      | Aborts => exists g ds rest, log' = log ++ ds /\ abort_account op h g /\ balanced h g [] ds rest
      | Stuck => True
      end.

    Lemma drain_life_law sched leak log (m : list (option V)) log' m' e : drain_life boom O sched leak (log, m) = ((log', m'), e) ->
      good_call (OpDrain sched leak) (stored m) log e log' (stored m').
    Proof.
      unfold drain_life. destruct (drain_calls (pure_from O) sched _) as [[got [u d]] r] eqn:E.
      pose proof (calls_keep E) as P. cbn [fst snd] in P. cbn [Drain_new fst] in P.
      assert (B : forall ds (d' : @Drain V), Permutation (stored (fst d)) (ds ++ stored (fst d')) ->
        balanced (stored m) [] (map snd (somes got)) ds (stored (fst d'))).
      { intros ds d' P2. unfold balanced. rewrite app_nil_r. eapply Permutation_trans; [exact P|]. now apply Permutation_app_head. }
      assert (C : forall ds (d' : @Drain V), Permutation (stored (fst d)) (ds ++ stored (fst d')) ->
        balanced (stored m) [] [] (ds ++ map snd (somes got)) (stored (fst d'))).
      { intros ds d' P2. unfold balanced. eapply Permutation_trans; [exact (B _ _ P2)|]. cbn [app]. rewrite <- app_assoc.
        rewrite !app_assoc. apply Permutation_app_tail, Permutation_app_comm. }
      assert (D : forall ds (d' : @Drain V) a b, Permutation (stored (fst d)) (ds ++ stored (fst d')) -> map snd (somes got) = a ++ b ->
        balanced (stored m) [] [] (ds ++ a) (b ++ stored (fst d'))).
      { intros ds d' a b P2 Q. pose proof (C _ _ P2) as X. rewrite Q in X. unfold balanced in *. now rewrite !app_assoc in *. }
      destruct r as [[]|w| | |]; try (intros [= <- <- <-]; exact I).
      - destruct leak.
        + intros [= <- <- <-]. exists [], (map snd (somes got)), []. rewrite app_nil_r. repeat split.
          * exists got. repeat split.
          * apply B. apply Permutation_refl.
        + destruct (drain_destroy boom O _ (log, d)) as [[log1 d1] e1] eqn:E1.
          destruct (drain_destroy_law E1) as (ds & -> & P2 & N). intros E2. apply owning_law in E2.
          destruct E2 as (log2 & m2 & e2 & [= <- <- <-] & E2).
          destruct e1 as [[]|w| |]; [| |congruence|].
          * destruct E2 as [-> [= -> ->]].
            exists [], (map snd (somes got)), ds. repeat split; [|exact (B _ _ P2)].
            exists got. repeat split. apply (drain_destroy_empties (ahead_calls (@ahead_start _ m) E) E1).
          * destruct E2 as [[-> [= -> ->]] | (-> & a & b & Q & [= -> ->])]; rewrite <- app_assoc.
            -- exists [], [], (ds ++ map snd (somes got)). repeat split. exact (C _ _ P2).
            -- exists [], (ds ++ a), (b ++ stored (fst d1)). repeat split. exact (D _ _ _ _ P2 Q).
          * destruct E2 as [-> _]. exact I.
      - destruct (drain_destroy boom O _ (log, d)) as [[log1 d1] e1] eqn:E1.
        destruct (drain_destroy_law E1) as (ds & -> & P2 & N). intros E2. apply owning_law in E2.
        destruct E2 as (log2 & m2 & e2 & [= <- <- <-] & E2).
        destruct e1 as [[]|w'| |]; [| |congruence|].
        + destruct E2 as [[-> [= -> ->]] | (-> & a & b & Q & [= -> ->])]; rewrite <- app_assoc.
          * exists [], [], (ds ++ map snd (somes got)). repeat split. exact (C _ _ P2).
          * exists [], (ds ++ a), (b ++ stored (fst d1)). repeat split. exact (D _ _ _ _ P2 Q).
        + destruct E2 as [-> [= -> ->]]. exists [], ds, (map snd (somes got) ++ stored (fst d1)). repeat split.
          pose proof (D ds d1 [] _ P2 eq_refl) as X. now rewrite app_nil_r in X.
        + destruct E2 as [-> _]. exact I.
    Qed.
    Lemma clear_life_law log (m : list (option V)) log' m' e : clear_life boom O (log, m) = ((log', m'), e) ->
      good_call OpClear (stored m) log e log' (stored m').
    Proof.
      unfold clear_life. unfold abind. destruct (drain_life boom O [] false (log, m)) as [[log1 m1] e1] eqn:E.
      pose proof (drain_life_law E) as H.
      assert (Q : forall o, e1 = Ended o -> o = OutEntries []).
      { intros o ->. revert E. unfold drain_life. cbn [drain_calls]. destruct (drain_destroy boom O _ _) as [[log2 d2] e2].
        intros E. apply owning_law in E. destruct E as (l3 & m3 & e3 & [= <- <- <-] & E).
        destruct e2; [destruct E as [E _]; now injection E|destruct E as [[E _]|[E _]]; discriminate E|destruct E as [E _]; discriminate E..]. }
      destruct e1 as [o|w| |]; intros [= <- <- <-].
      - cbn in H. destruct H as (g & t & ds & -> & (got & Eo & -> & -> & H') & B). specialize (Q _ eq_refl). rewrite Q in Eo.
        injection Eo as <-. cbn in B. exists [], [], ds. repeat split; assumption.
      - cbn in H. destruct H as (g & t & ds & -> & [-> ->] & B). exists [], [], ds. repeat split; assumption.
      - cbn in H. destruct H as (g & ds & rest & -> & -> & B). exists [], ds, rest. repeat split. exact B.
      - exact I.
    Qed.
  End Drains.

  (** ** retain *)
  Section Retain.
    Context {cfg : Config} {K : Type} (O : Ordinal K) (f : K -> V -> V * bool).

    Lemma retain_life_account fuel : forall (pre rest : list (option V)) nxt log log' storage r,
      OrdinalArrayMap_retain_loop_with O (@retain_destroy V boom K) (retain_calls f) fuel (pre ++ rest)
        {| e_next := nxt; e_items := map N.of_nat (seq (length pre) (length rest)) |} log = (log', storage, r) ->
      exists l tail, stored rest = map snd l ++ tail /\ stored storage = stored pre ++ kept (verdicts f l) ++ tail /\
        log' = log ++ rejected (verdicts f l) /\ (r = Val tt -> tail = []).
    Proof.
      induction fuel as [|fuel IH]; intros pre rest nxt log log' storage r; cbn [OrdinalArrayMap_retain_loop_with].
      { intros [= <- <- <-]. exists [], (stored rest). rewrite stored_app, app_nil_r. repeat split. discriminate. }
      destruct rest as [|x rest]; cbn [length seq map].
      - unfold TIterMut_step, enumerate_step, enumerate_next. cbn [e_items pop_front].
        intros [= <- <- <-]. exists [], []. rewrite stored_app, !app_nil_r. repeat split.
      - unfold TIterMut_step at 1, enumerate_step, enumerate_next. cbn [e_items e_next pop_front].
        assert (Stop : forall r', r' <> Val tt -> (log', storage, r) = (log, pre ++ x :: rest, r') ->
          exists l tail, stored (x :: rest) = map snd l ++ tail /\ stored storage = stored pre ++ kept (verdicts f l) ++ tail /\
            log' = log ++ rejected (verdicts f l) /\ (r = Val tt -> tail = [])).
        { intros r' Hr [= -> -> ->]. exists [], (stored (x :: rest)). rewrite stored_app, app_nil_r. repeat split. intros H. contradiction. }
        destruct (from_ordinal O nxt) as [[k|]|w| | |]; cbn [bind unwrap];
          try (intros E; symmetry in E; eapply Stop; [|exact E]; discriminate).
        destruct (uadd nxt 1) as [n1|w| | |]; cbn [bind]; try (intros E; symmetry in E; eapply Stop; [|exact E]; discriminate).
        unfold deref at 1, slice_get. rewrite Nnat.Nat2N.id, nth_mid. unfold store_at. rewrite Nnat.Nat2N.id.
        assert (Next : forall y, pre ++ y :: rest = (pre ++ [y]) ++ rest) by (intros y; now rewrite <- app_assoc).
        assert (Len : forall y, S (length pre) = length (pre ++ [y])) by (intros y; rewrite app_length; cbn; lia).
        destruct x as [v|].
        + unfold retain_calls at 1. destruct (f k v) as [v' b] eqn:Ef. rewrite list_set_mid. destruct b.
          * rewrite (Next (Some v')), (Len (Some v')). intros E. destruct (IH _ _ _ _ _ _ _ E) as (l & tail & H1 & H2 & H4 & H3).
            exists ((k, v) :: l), tail. cbn [stored map snd app]. rewrite H1. split; [reflexivity|]. split; [|split; [|exact H3]].
            -- rewrite H2, stored_app. unfold verdicts, kept. cbn [map fst snd filter]. rewrite Ef. cbn [snd map fst app stored].
               now rewrite <- app_assoc.
            -- rewrite H4. unfold verdicts, rejected. cbn [map fst snd filter]. rewrite Ef. reflexivity.
          * unfold retain_destroy at 1, destructor. cbn [snd]. rewrite list_set_mid. destruct (boom log v') as [w|].
            -- intros [= <- <- <-]. exists [(k, v)], (stored rest). cbn [stored map snd app]. split; [reflexivity|].
               unfold verdicts, kept, rejected. cbn [map fst snd filter]. rewrite Ef. cbn [snd negb map fst app].
               rewrite stored_app. repeat split. discriminate.
            -- rewrite (Next None), (Len None). intros E. destruct (IH _ _ _ _ _ _ _ E) as (l & tail & H1 & H2 & H4 & H3).
               exists ((k, v) :: l), tail. cbn [stored map snd app]. rewrite H1. split; [reflexivity|]. split; [|split; [|exact H3]].
               ++ rewrite H2, stored_app. unfold verdicts, kept. cbn [map fst snd filter]. rewrite Ef. cbn [snd map fst app stored].
                  now rewrite app_nil_r.
               ++ rewrite H4. unfold verdicts, rejected. cbn [map fst snd filter]. rewrite Ef. cbn [snd negb map fst].
                  now rewrite <- app_assoc.
        + rewrite (Next None), (Len None). intros E. destruct (IH _ _ _ _ _ _ _ E) as (l & tail & H1 & H2 & H4 & H3).
          exists l, tail. cbn [stored]. split; [exact H1|]. split; [|split; assumption]. rewrite H2, stored_app. cbn [stored].
          now rewrite app_nil_r.
    Qed.
    Lemma retain_life_law S log (m : @OrdinalArrayMap V S) log' m' e : retain_life boom O f (log, m) = ((log', m'), e) ->
      good_call (OpRetain f) (stored (arr_list m)) log e log' (stored (arr_list m')).
    Proof.
      unfold retain_life. destruct (OrdinalArrayMap_retain_with O _ _ m log) as [[log1 l] r] eqn:G.
      destruct (retain_life_account (pre := []) G) as (es & tail & H1 & H2 & -> & H3). cbn [stored app] in H2.
      destruct (try_arr S l) as [a|] eqn:Ga; intros [= <- <- <-]; [|exact I]. rewrite (try_arr_list Ga).
      destruct r as [[]|w| | |]; cbn [bind ending_of good_call]; try exact I;
        exists (map fst (verdicts f es)), (map snd es), (rejected (verdicts f es)); (split; [reflexivity|]).
      - specialize (H3 eq_refl). subst tail. rewrite app_nil_r in H1, H2. split.
        + exists es. rewrite H1, H2. repeat split.
        + rewrite H1, H2. pose proof (retain_balanced f es []) as P. now rewrite !app_nil_r in P.
      - split; [exists es, tail; rewrite H1, H2; repeat split|]. rewrite H1, H2. apply retain_balanced.
    Qed.
  End Retain.
End Life.
