(** * LifeProofs4: making total maps, consuming maps. *)
From Verif Require Import Base BaseProofs Spec SpecMem SpecMap SpecTotal SpecCatch SpecResume SpecLedger SpecLife ModelOrdinal ModelValues
  ModelArrayBuilder ModelIter ModelTotal ModelMap ModelDrop ModelResume ModelUnwind ModelCatch MapMachine TotalMachine ModelLife
  ArrayProofs ResumeProofs UnwindProofs2 CatchProofs5 LedgerProofs LedgerProofs2 LedgerProofs3 LifeProofs LifeProofs2 LifeProofs3.
From Coq Require Import List Lia Permutation. Import ListNotations.
Set Implicit Arguments.
Unset Strict Implicit.

Section Make.
  Context {V : Type} (boom : list V -> V -> option panic) {cfg : Config} {K : Type} (O : Ordinal K).
  Context {E St : Type} (init : St -> K -> St * res (result V E)) (made : St -> list V) (Rec : records init made).

  Lemma asked st k st' r : init st k = (st', r) -> made st' = made st ++ match r with Val (ResOk v) => [v] | _ => [] end.
  Proof. intros Ei. pose proof (Rec st k) as H. now rewrite Ei in H. Qed.

  Lemma htotal_loop_law fuel : forall base map it log st log' st' e, made st = base ++ map ->
    htotal_try_new_loop_life boom O init fuel map it (log, st) = ((log', st'), e) ->
    exists new, made st' = base ++ new /\
      match e with
      | Ended (ResOk m) => log' = log /\ m = new
      | Ended (ResErr _) | Unwinds _ => log' = log ++ new
      | Aborts => exists a b, new = a ++ b /\ log' = log ++ a
      | Stuck => True
      end.
  Proof.
    induction fuel as [|fuel IH]; intros base map it log st log' st' e Hm; cbn [htotal_try_new_loop_life]; [intros [= <- <- <-]; eauto|].
    destruct (values_next O it) as [[[k|] it1]|w| | |]; try (intros [= <- <- <-]; exists map; now auto).
    - destruct (init st k) as [st1 r] eqn:Ei. apply asked in Ei. rewrite Hm in Ei. destruct r as [[v|er]|w| | |]; rewrite ?app_nil_r in Ei.
      + rewrite <- app_assoc in Ei. intros X. exact (IH _ _ _ _ _ _ _ _ Ei X).
      + unfold abind. destruct (glue boom map (log, st1)) as [s2 e2] eqn:G. destruct (glue_law G) as [[H ->] | (-> & a & b & -> & ->)].
        * destruct H as [-> | (w & ->)]; intros [= <- <- <-]; exists map; auto.
        * intros [= <- <- <-]. exists (a ++ b). split; [exact Ei|]. exists a, b. auto.
      + intros X. destruct (unwinding_glue_law X) as [[-> [= -> ->]] | (-> & a & b & -> & [= -> ->])]; eexists; split; try exact Ei; auto.
        exists a, b. auto.
      + intros [= <- <- <-]. eauto.
      + intros [= <- <- <-]. eauto.
      + intros [= <- <- <-]. eauto.
    - intros X. destruct (unwinding_glue_law X) as [[-> [= -> ->]] | (-> & a & b & -> & [= -> ->])]; eexists; split; try exact Hm; auto.
      exists a, b. auto.
  Qed.
  Lemma htotal_made log st log' st' e : htotal_try_new_life boom O init (log, st) = ((log', st'), e) ->
    exists new, made st' = made st ++ new /\
      match e with
      | Ended (ResOk m) => log' = log /\ m = new
      | Ended (ResErr _) | Unwinds _ => log' = log ++ new
      | Aborts => exists a b, new = a ++ b /\ log' = log ++ a
      | Stuck => True
      end.
  Proof.
    unfold htotal_try_new_life. unfold abind, look. destruct (values_new O) as [it|w| | |]; cbn [ending_of];
      try (intros [= <- <- <-]; exists []; rewrite !app_nil_r; now auto).
    apply htotal_loop_law. now rewrite app_nil_r.
  Qed.

  (** The builder *)
  Lemma builder_cells vs : forall (pre post : list (option V)) log log' cells r,
    builder_drop_loop_with (destructor boom) (pre ++ map Some vs ++ post) (length vs) (length pre) log = (log', cells, r) ->
    (r = Val tt /\ log' = log ++ vs) \/
    exists w a v b, r = Panic w /\ vs = a ++ v :: b /\ log' = log ++ a ++ [v] /\ boom (log ++ a) v = Some w.
  Proof.
    induction vs as [|v vs IH]; intros pre post log log' cells r; cbn [length builder_drop_loop_with map app].
    - intros [= <- <- <-]. left. now rewrite app_nil_r.
    - rewrite nth_mid, list_set_mid. unfold destructor at 1. destruct (boom log v) as [w|] eqn:Eb.
      + intros [= <- <- <-]. right. exists w, [], v, vs. rewrite app_nil_r. repeat split. exact Eb.
      + replace (pre ++ None :: map Some vs ++ post) with ((pre ++ [None]) ++ map Some vs ++ post) by now rewrite <- app_assoc.
        replace (S (length pre)) with (length (pre ++ [@None V])) by (rewrite app_length; cbn; lia).
        intros X. destruct (IH _ _ _ _ _ _ X) as [[-> ->] | (w & a & x & b & -> & -> & -> & Hb)].
        * left. now rewrite <- app_assoc.
        * right. exists w, (v :: a), x, b. rewrite <- app_assoc in Hb |- *. repeat split. exact Hb.
  Qed.
  Lemma builder_life_law {M} S vs log (m : M) s' e : builder_life boom (builder_of S vs) (log, m) = (s', e) ->
    (e = Ended tt /\ s' = (log ++ vs, m)) \/
    exists w a v b, e = Unwinds w /\ vs = a ++ v :: b /\ s' = (log ++ a ++ [v], m) /\ boom (log ++ a) v = Some w.
  Proof.
    unfold builder_life, builder_drop_with, builder_of. cbn [b_cells b_filled].
    destruct (builder_drop_loop_with _ _ _ _ _) as [[log1 cells] r] eqn:X. intros [= <- <-].
    destruct (builder_cells (pre := []) X) as [[-> ->] | (w & a & x & b & -> & -> & -> & Hb)]; [left; auto|].
    right. exists w, a, x, b. auto.
  Qed.
  Lemma unwinding_builder_law {M A} S vs w log (m : M) s' (e : ending A) : unwinding w (builder_life boom (builder_of S vs)) (log, m) = (s', e) ->
    (e = Unwinds w /\ s' = (log ++ vs, m)) \/ (e = Aborts /\ exists a b, vs = a ++ b /\ s' = (log ++ a, m)).
  Proof.
    unfold unwinding. destruct (builder_life boom _ (log, m)) as [s1 e1] eqn:X.
    destruct (builder_life_law X) as [[-> ->] | (w1 & a & v & b & -> & -> & -> & _)]; intros [= <- <-]; [left; auto|].
    right. split; [reflexivity|]. exists (a ++ [v]), b. now rewrite <- app_assoc.
  Qed.

  Context (S : nat).
  Definition array_made (new log : list V) (e : ending (result (OrdinalTotalArrayMap S V) E)) (log' : list V) : Prop :=
    match e with
    | Ended (ResOk m) => log' = log /\ arr_list m = new
    | Ended (ResErr _) => log' = log ++ new
    | Unwinds w => exists ds, log' = log ++ ds /\
        (Permutation new ds \/ exists a v b, new = a ++ v :: b /\ ds = a ++ [v] /\ boom (log ++ a) v = Some w)
    | Aborts => exists ds rest, log' = log ++ ds /\ Permutation new (ds ++ rest)
    | Stuck => True
    end.
  Lemma left_unwinding {M} vs w log (m : M) log' m' e : unwinding w (builder_life boom (builder_of S vs)) (log, m) = ((log', m'), e) ->
    m' = m /\ array_made vs log e log'.
  Proof.
    intros X. destruct (unwinding_builder_law X) as [[-> [= -> ->]] | (-> & a & b & -> & [= -> ->])]; (split; [reflexivity|]).
    - exists vs. split; [reflexivity|]. left. apply Permutation_refl.
    - exists a, b. split; [reflexivity|apply Permutation_refl].
  Qed.
  Lemma fill_life_law fuel : forall base map it log st log' st' e, made st = base ++ map -> (length map <= S)%nat ->
    fill_life boom O S init fuel (builder_of S map) it (log, st) = ((log', st'), e) ->
    exists new, made st' = base ++ new /\ array_made new log e log'.
  Proof.
    induction fuel as [|fuel IH]; intros base map it log st log' st' e Hm Hl; cbn [fill_life]; [intros [= <- <- <-]; eauto; exists map; now split|].
    destruct (values_next O it) as [[[k|] it1]|w| | |]; try (intros [= <- <- <-]; exists map; now auto).
    - destruct (init st k) as [st1 r] eqn:Ei. apply asked in Ei. rewrite Hm in Ei. destruct r as [[v|er]|w| | |]; rewrite ?app_nil_r in Ei;
        try (intros [= <- <- <-]; exists map; now auto).
      + rewrite <- app_assoc in Ei. destruct (Nat.lt_ge_cases (length map) S) as [Hlt|Hge].
        * rewrite push_ok by exact Hlt. intros X. refine (IH _ _ _ _ _ _ _ _ Ei _ X). rewrite app_length. cbn. lia.
        * rewrite push_full by exact Hge. intros X. exists (map ++ [v]). revert X. unfold unwinding, abind.
          destruct (destroy boom v (log, st1)) as [s2 e2] eqn:G. apply destroy_law in G. destruct G as [-> [-> | (w & -> & _)]].
          -- destruct (builder_life boom _ _) as [s3 e3] eqn:X.
             destruct (builder_life_law X) as [[-> ->] | (w1 & a & x & b & -> & -> & -> & _)]; intros [= <- <- <-]; (split; [exact Ei|]).
             ++ exists (v :: map). split; [now rewrite <- app_assoc|]. left. apply Permutation_sym, Permutation_cons_append.
             ++ exists (v :: a ++ [x]), b. split; [now rewrite <- app_assoc|]. eapply Permutation_trans; [apply Permutation_sym, Permutation_cons_append|].
                cbn [app]. apply perm_skip. rewrite <- app_assoc. apply Permutation_refl.
          -- intros [= <- <- <-]. split; [exact Ei|]. exists [v], map. split; [reflexivity|]. apply Permutation_sym, Permutation_cons_append.
      + intros X. exists map. revert X. unfold abind. destruct (builder_life boom _ _) as [s3 e3] eqn:X.
        destruct (builder_life_law X) as [[-> ->] | (w1 & a & x & b & -> & -> & -> & Hb)]; intros [= <- <- <-]; (split; [exact Ei|]).
        * reflexivity.
        * exists (a ++ [x]). split; [reflexivity|]. right. exists a, x, b. auto.
      + intros X. exists map. destruct (left_unwinding X) as [-> H]. auto.
    - change (b_filled (builder_of S map)) with (length map). destruct (Nat.eqb_spec (length map) S) as [Hs|Hs]; cbn [negb].
      + unfold builder_of at 1. cbn [b_cells]. rewrite Hs, Nat.sub_diag. cbn [repeat]. rewrite app_nil_r, all_init_map.
        destruct (try_arr_ok _ Hs) as (a & -> & Ha). intros [= <- <- <-]. exists map. split; [exact Hm|]. split; [reflexivity|exact Ha].
      + replace (Nat.leb (length map) S) with true by (symmetry; apply Nat.leb_le; exact Hl). unfold abind.
        destruct (builder_life boom _ _) as [s3 e3] eqn:X.
        destruct (builder_life_law X) as [[-> ->] | (w1 & a & x & b & -> & -> & -> & Hb)]; intros [= <- <- <-]; eexists; (split; [exact Hm|]).
        * exists map. split; [reflexivity|]. left. apply Permutation_refl.
        * exists (a ++ [x]). split; [reflexivity|]. right. exists a, x, b. auto.
    - intros X. exists map. destruct (left_unwinding X) as [-> H]. auto.
  Qed.
  Lemma atotal_made log st log' st' e : atotal_try_new_life boom O S init (log, st) = ((log', st'), e) ->
    exists new, made st' = made st ++ new /\ array_made new log e log'.
  Proof.
    assert (Z : forall (w : panic), array_made [] log (Unwinds w) log).
    { intros w. exists []. rewrite app_nil_r. split; [reflexivity|]. left. apply Permutation_refl. }
    unfold atotal_try_new_life. unfold abind, look. destruct (ASSERT O S) as [u|w| | |]; cbn [ending_of];
      try (intros [= <- <- <-]; exists []; rewrite ?app_nil_r; now auto).
    destruct (values_new O) as [it|w| | |]; cbn [ending_of];
      try (intros [= <- <- <-]; exists []; rewrite ?app_nil_r; now auto).
    rewrite builder_new_of. apply fill_life_law; [now rewrite app_nil_r|cbn; lia].
  Qed.
End Make.

(** ** Owning iterators *)
Section Consume.
  Context {V : Type} (boom : list V -> V -> option panic) {cfg : Config} {K : Type}.
  Section Step.
    Context {A : Type} (values : list A -> list V) (Hv : forall a b, values (a ++ b) = values a ++ values b) (O : Ordinal K).
    Lemma owned_step_law d log it log' it' e : owned_step boom O values d (log, it) = ((log', it'), e) ->
      match e with
      | Ended o => log' = log /\ Permutation (values (e_items it)) (values (map snd (opt_list o)) ++ values (e_items it'))
      | Unwinds _ => exists ds, log' = log ++ ds /\ Permutation (values (e_items it)) (ds ++ values (e_items it'))
      | Aborts => exists ds rest, log' = log ++ ds /\ Permutation (values (e_items it)) (ds ++ rest)
      | Stuck => True
      end.
    Proof.
      unfold owned_step. destruct (enumerate_resume (pure_from O) d (tt, it)) as [[u it1] r] eqn:X. intros Y. apply owning_law in Y.
      destruct Y as (log1 & it2 & e1 & [= <- <- <-] & H).
      assert (P : match r with Val None => e_items it1 = e_items it /\ values [] = []
        | Val (Some (k, a)) => popped d (e_items it) = [a] /\ Permutation (values (e_items it)) (values [a] ++ values (e_items it1))
        | _ => Permutation (values (e_items it)) (values (popped d (e_items it)) ++ values (e_items it1)) end).
      { assert (Nil : values [] = []).
        { pose proof (Hv [] []) as N. cbn [app] in N. destruct (values []) as [|x l]; [reflexivity|].
          apply (f_equal (@length V)) in N. rewrite app_length in N. cbn in N. lia. }
        assert (F : forall x l, Permutation (values (x :: l)) (values [x] ++ values l)).
        { intros x l. change (x :: l) with ([x] ++ l). rewrite Hv. apply Permutation_refl. }
        assert (B : forall x l, Permutation (values (l ++ [x])) (values [x] ++ values l)).
        { intros x l. rewrite Hv. apply Permutation_app_comm. }
        revert X. destruct d; cbn [enumerate_resume popped]; unfold enumerate_resume_next, enumerate_resume_back, popped.
        - destruct (e_items it) as [|x l] eqn:El; cbn [pop_front]; [intros [= <- <- <-]; auto|].
          destruct (ask (pure_from O) tt (e_next it)) as [u1 [k|w| | |]]; try (intros [= <- <- <-]; exact (F x l)).
          destruct (uadd (e_next it) 1) as [n|w| | |]; intros [= <- <- <-]; try exact (F x l). split; [reflexivity|exact (F x l)].
        - destruct (pop_back (e_items it)) as [[x l]|] eqn:Ep; [|intros [= <- <- <-]; auto]. rewrite (pop_back_app Ep).
          destruct (uadd (e_next it) (llen l)) as [n|w| | |]; try (intros [= <- <- <-]; exact (B x l)).
          destruct (ask (pure_from O) tt n) as [u1 [k|w| | |]]; intros [= <- <- <-]; try exact (B x l). split; [reflexivity|exact (B x l)]. }
      destruct r as [[[k a]|]|w| | |]; cbn [ending_of] in H.
      - destruct H as [-> [= -> ->]]. split; [reflexivity|exact (proj2 P)].
      - destruct H as [-> [= -> ->]]. destruct P as [P N]. split; [reflexivity|]. cbn [opt_list map]. rewrite N, P. apply Permutation_refl.
      - destruct H as [[-> [= -> ->]] | (-> & a & b & Q & [= -> ->])].
        + exists (values (popped d (e_items it))). split; [reflexivity|exact P].
        + exists a, (b ++ values (e_items it1)). split; [reflexivity|]. rewrite app_assoc, <- Q. exact P.
      - destruct H as [-> _]. exact I.
      - destruct H as [-> _]. exact I.
      - destruct H as [-> _]. exact I.
    Qed.
  End Step.

  Definition ate {It} (left : It -> list V) (it : It) (log : list V) (e : ending (option (K * V))) (log' : list V) (it' : It) : Prop :=
    match e with
    | Ended o => log' = log /\ Permutation (left it) (map snd (opt_list o) ++ left it')
    | Unwinds _ => exists ds, log' = log ++ ds /\ Permutation (left it) (ds ++ left it')
    | Aborts => exists ds rest, log' = log ++ ds /\ Permutation (left it) (ds ++ rest)
    | Stuck => True
    end.
  Lemma total_ate O d log (it : enumerate V) log' it' e : total_next boom O d (log, it) = ((log', it'), e) ->
    ate (@e_items V) it log e log' it'.
  Proof. exact (@owned_step_law V (fun l => l) (fun a b => eq_refl) O d log it log' it' e). Qed.
  Lemma sparse_ate O d fuel : forall log (it : enumerate (option V)) log' it' e, owned_sparse boom O d fuel (log, it) = ((log', it'), e) ->
    ate (fun it => stored (e_items it)) it log e log' it'.
  Proof.
    induction fuel as [|fuel IH]; intros log it log' it' e; cbn [owned_sparse]; [intros [= <- <- <-]; exact I|].
    unfold abind. destruct (owned_step boom O stored d (log, it)) as [[log1 it1] e1] eqn:X. apply owned_step_law in X; [|exact stored_app].
    destruct e1 as [[[k [v|]]|]|w| |]; try (intros [= <- <- <-]; exact X).
    destruct X as [-> P]. cbn [opt_list map snd stored app] in P. intros Y. apply IH in Y.
    destruct e as [o|w| |]; cbn [ate] in *; try exact I.
    - destruct Y as [-> Y]. split; [reflexivity|]. eapply Permutation_trans; eassumption.
    - destruct Y as (ds & -> & Y). exists ds. split; [reflexivity|]. eapply Permutation_trans; eassumption.
    - destruct Y as (ds & rest & -> & Y). exists ds, rest. split; [reflexivity|]. eapply Permutation_trans; eassumption.
  Qed.
  Lemma owned_ate O d log (it : enumerate (option V)) log' it' e : owned_next boom O d (log, it) = ((log', it'), e) ->
    ate (fun it => stored (e_items it)) it log e log' it'.
  Proof. apply sparse_ate. Qed.

  Lemma eaten {It} (left : It -> list V) (step : Ordinal K * dir -> act (list V * It) (option (K * V)))
    (H : forall p log it log' it' e, step p (log, it) = ((log', it'), e) -> ate left it log e log' it') :
    forall calls log it got log' it', catch_run step calls (log, it) = Some (got, (log', it')) ->
      exists ds, log' = log ++ ds /\ Permutation (left it) (handed got ++ ds ++ left it').
  Proof.
    induction calls as [|p calls IH]; intros log it got log' it'; cbn [catch_run].
    - intros [= <- <- <-]. exists []. rewrite app_nil_r. split; [reflexivity|apply Permutation_refl].
    - destruct (step p (log, it)) as [[log1 it1] [o|w| |]] eqn:X; try discriminate; apply H in X; cbn [ate] in X.
      + destruct X as [-> P]. destruct (catch_run step calls (log, it1)) as [[l [log2 it2]]|] eqn:Y; [|discriminate]. intros [= <- <- <-].
        destruct (IH _ _ _ _ _ Y) as (ds & -> & P2). exists ds. split; [reflexivity|].
        unfold handed. cbn [flat_map]. fold (handed l). rewrite <- app_assoc. eapply Permutation_trans; [exact P|].
        replace (match o with Some (_, v) => [v] | None => [] end) with (map snd (opt_list o)) by (destruct o as [[? ?]|]; reflexivity).
        now apply Permutation_app_head.
      + destruct X as (d1 & -> & P). destruct (catch_run step calls (log ++ d1, it1)) as [[l [log2 it2]]|] eqn:Y; [|discriminate]. intros [= <- <- <-].
        destruct (IH _ _ _ _ _ Y) as (ds & -> & P2). exists (d1 ++ ds). split; [now rewrite app_assoc|].
        unfold handed. cbn [flat_map app]. fold (handed l). eapply Permutation_trans; [exact P|].
        eapply Permutation_trans; [apply Permutation_app_head, P2|]. rewrite <- !app_assoc, !app_assoc. do 2 apply Permutation_app_tail.
        apply Permutation_app_comm.
  Qed.
End Consume.

(** ** Whole lives *)
Section Lives.
  Context {V : Type} (boom : list V -> V -> option panic) {cfg : Config} {K : Type}.

  Lemma life_sum (given d1 h1 gs ts d2 h2 got d3 left : list V) :
    Permutation given (d1 ++ h1) -> balanced h1 gs ts d2 h2 -> Permutation h2 (got ++ d3 ++ left) ->
    Permutation (given ++ gs) (ts ++ got ++ ((d1 ++ d2) ++ d3) ++ left).
  Proof.
    unfold balanced. intros P1 P2 P3. eapply Permutation_trans; [apply Permutation_app_tail, P1|]. rewrite <- !app_assoc.
    eapply Permutation_trans; [apply Permutation_app_head, P2|].
    eapply Permutation_trans; [do 3 apply Permutation_app_head; exact P3|].
    rewrite !app_assoc. do 2 apply Permutation_app_tail. rewrite <- !app_assoc.
    eapply Permutation_trans; [apply Permutation_app_swap_app|]. apply Permutation_app_head.
    rewrite app_assoc. apply Permutation_app_comm.
  Qed.
  Lemma once (g t log : list V) : Permutation g (t ++ log) -> NoDup g -> NoDup log /\ forall v, In v log -> ~ In v t.
  Proof.
    intros P N. apply (Permutation_NoDup P) in N. split; [clear P; induction t as [|x t IH]; [exact N|]; inversion N; auto|].
    intros v H1 H2. apply in_split in H2. destruct H2 as (a & b & ->). rewrite <- app_assoc in N. cbn [app] in N.
    apply NoDup_remove_2 in N. apply N. rewrite !in_app_iff. auto.
  Qed.
  Lemma glue_ends {M} vs (log : list V) (m : M) s e : glue boom vs (log, m) = (s, e) -> e <> Aborts -> s = (log ++ vs, m).
  Proof. intros X N. destruct (glue_law X) as [[_ ->] | [-> _]]; [reflexivity|congruence]. Qed.

  Section Any.
    Context {Op Out M It : Type} (step : Op -> act (list V * M) Out) (held : M -> list V)
      (account : Op -> seen Out -> list V -> list V -> list V -> list V -> list V -> Prop)
      (Hprog : forall ops log m outs log' m', catch_run step ops (log, m) = Some (outs, (log', m')) ->
        exists gs ts ds, log' = log ++ ds /\ books account ops outs (held m) gs ts ds (held m') /\ balanced (held m) gs ts ds (held m'))
      (left : It -> list V) (next : Ordinal K * dir -> act (list V * It) (option (K * V)))
      (Hnext : forall calls log it got log' it', catch_run next calls (log, it) = Some (got, (log', it')) ->
        exists ds, log' = log ++ ds /\ Permutation (left it) (handed got ++ ds ++ left it')).
    Lemma any_life given log0 m ops outs log1 m1 it calls got log2 it2 log3 e :
      Permutation given (log0 ++ held m) -> catch_run step ops (log0, m) = Some (outs, (log1, m1)) ->
      left it = held m1 -> catch_run next calls (log1, it) = Some (got, (log2, it2)) ->
      glue boom (left it2) (log2, tt) = ((log3, tt), e) -> e <> Aborts ->
      exists gs ts ds, books account ops outs (held m) gs ts ds (held m1) /\
        Permutation (given ++ gs) ((ts ++ handed got) ++ log3) /\
        (NoDup (given ++ gs) -> NoDup log3 /\ forall v, In v log3 -> ~ In v (ts ++ handed got)).
    Proof.
      intros P X1 Hl X2 X3 N. destruct (Hprog X1) as (gs & ts & ds & -> & B & Bal). destruct (Hnext X2) as (d2 & -> & P2).
      apply glue_ends in X3; [|exact N]. injection X3 as ->. exists gs, ts, ds. split; [exact B|].
      assert (P3 : Permutation (given ++ gs) ((ts ++ handed got) ++ ((log0 ++ ds) ++ d2) ++ left it2)).
      { rewrite <- (app_assoc ts). rewrite Hl in P2. exact (life_sum P Bal P2). }
      split; [exact P3|]. intros Nd. exact (once P3 Nd).
    Qed.
  End Any.

  Lemma heap_whole_life (O : Ordinal K) l u log0 m (ops : list (Ordinal K * map_op K V)) outs log1 m1 calls got log2 it2 log3 e :
    heap_from_iter_life boom O l ([], tt) = ((log0, u), Ended m) ->
    catch_run (fun p => heap_life boom (fst p) (snd p)) ops (log0, m) = Some (outs, (log1, m1)) ->
    catch_run (fun p : Ordinal K * dir => owned_next boom (fst p) (snd p)) calls (log1, OrdinalMap_into_iter m1) = Some (got, (log2, it2)) ->
    glue boom (stored (e_items it2)) (log2, tt) = ((log3, tt), e) -> e <> Aborts ->
    exists gs ts ds, books (fun p => life_account (snd p)) ops outs (stored m) gs ts ds (stored m1) /\
      Permutation (map snd l ++ gs) ((ts ++ handed got) ++ log3) /\
      (NoDup (map snd l ++ gs) -> NoDup log3 /\ forall v, In v log3 -> ~ In v (ts ++ handed got)).
  Proof.
    intros X0 X1 X2 X3 N. apply (heap_begun (cfg := cfg)) in X0. cbn [fst] in X0. destruct X0 as (ds & -> & P).
    exact (any_life (it := OrdinalMap_into_iter m1) (heap_life_books (boom := boom)) (eaten (fun p => owned_ate (O := fst p) (d := snd p))) P X1 eq_refl X2 X3 N).
  Qed.
  Lemma array_whole_life (O : Ordinal K) S l u log0 m (ops : list (Ordinal K * map_op K V)) outs log1 m1 calls got log2 it2 log3 e :
    array_from_iter_life boom O S l ([], tt) = ((log0, u), Ended m) ->
    catch_run (fun p => array_life boom (fst p) (S := S) (snd p)) ops (log0, m) = Some (outs, (log1, m1)) ->
    catch_run (fun p : Ordinal K * dir => owned_next boom (fst p) (snd p)) calls (log1, OrdinalArrayMap_into_iter m1) = Some (got, (log2, it2)) ->
    glue boom (stored (e_items it2)) (log2, tt) = ((log3, tt), e) -> e <> Aborts ->
    exists gs ts ds, books (fun p => life_account (snd p)) ops outs (stored (arr_list m)) gs ts ds (stored (arr_list m1)) /\
      Permutation (map snd l ++ gs) ((ts ++ handed got) ++ log3) /\
      (NoDup (map snd l ++ gs) -> NoDup log3 /\ forall v, In v log3 -> ~ In v (ts ++ handed got)).
  Proof.
    intros X0 X1 X2 X3 N. apply (array_begun (cfg := cfg)) in X0. cbn [fst] in X0. destruct X0 as (ds & -> & P).
    exact (any_life (it := OrdinalArrayMap_into_iter m1) (held := fun m : @OrdinalArrayMap V S => stored (arr_list m)) (array_life_books (boom := boom) (S := S))
      (eaten (fun p => owned_ate (O := fst p) (d := snd p))) P X1 eq_refl X2 X3 N).
  Qed.
  Lemma htotal_whole_life (O : Ordinal K) E St (init : St -> K -> St * res (result V E)) made st st1 log0 m (ops : list (Ordinal K * total_op K V)) outs log1 m1 calls got log2 it2 log3 e :
    records init made ->
    htotal_try_new_life boom O init ([], st) = ((log0, st1), Ended (ResOk m)) ->
    catch_run (fun p => htotal_life boom (fst p) (snd p)) ops (log0, m) = Some (outs, (log1, m1)) ->
    catch_run (fun p : Ordinal K * dir => total_next boom (fst p) (snd p)) calls (log1, OrdinalTotalMap_into_iter m1) = Some (got, (log2, it2)) ->
    glue boom (e_items it2) (log2, tt) = ((log3, tt), e) -> e <> Aborts ->
    exists new gs ts ds, made st1 = made st ++ new /\ books (fun p => total_life_account (snd p)) ops outs m gs ts ds m1 /\
      Permutation (new ++ gs) ((ts ++ handed got) ++ log3) /\
      (NoDup (new ++ gs) -> NoDup log3 /\ forall v, In v log3 -> ~ In v (ts ++ handed got)).
  Proof.
    intros Rec X0 X1 X2 X3 N. destruct (htotal_made Rec X0) as (new & Hn & -> & ->). exists new.
    destruct (any_life (log0 := []) (it := OrdinalTotalMap_into_iter m1) (held := fun m : @OrdinalTotalMap V => m) (given := new) (htotal_life_books (boom := boom))
      (eaten (fun p => total_ate (O := fst p) (d := snd p))) (Permutation_refl _) X1 eq_refl X2 X3 N) as (gs & ts & ds & H).
    exists gs, ts, ds. split; [exact Hn|exact H].
  Qed.
  Lemma atotal_whole_life (O : Ordinal K) S E St (init : St -> K -> St * res (result V E)) made st st1 log0 m (ops : list (Ordinal K * total_op K V)) outs log1 m1 calls got log2 it2 log3 e :
    records init made ->
    atotal_try_new_life boom O S init ([], st) = ((log0, st1), Ended (ResOk m)) ->
    catch_run (fun p => atotal_life boom (fst p) (S := S) (snd p)) ops (log0, m) = Some (outs, (log1, m1)) ->
    catch_run (fun p : Ordinal K * dir => total_next boom (fst p) (snd p)) calls (log1, OrdinalTotalArrayMap_into_iter m1) = Some (got, (log2, it2)) ->
    glue boom (e_items it2) (log2, tt) = ((log3, tt), e) -> e <> Aborts ->
    exists new gs ts ds, made st1 = made st ++ new /\ books (fun p => total_life_account (snd p)) ops outs (arr_list m) gs ts ds (arr_list m1) /\
      Permutation (new ++ gs) ((ts ++ handed got) ++ log3) /\
      (NoDup (new ++ gs) -> NoDup log3 /\ forall v, In v log3 -> ~ In v (ts ++ handed got)).
  Proof.
    intros Rec X0 X1 X2 X3 N. destruct (atotal_made Rec X0) as (new & Hn & -> & <-). eexists.
    destruct (any_life (log0 := []) (it := OrdinalTotalArrayMap_into_iter m1) (held := fun m : OrdinalTotalArrayMap S V => arr_list m) (given := arr_list m) (atotal_life_books (boom := boom) (S := S))
      (eaten (fun p => total_ate (O := fst p) (d := snd p))) (Permutation_refl _) X1 eq_refl X2 X3 N) as (gs & ts & ds & H).
    exists gs, ts, ds. split; [exact Hn|exact H].
  Qed.
End Lives.

Section Together.
  Context (V : Type) (boom : list V -> V -> option panic) (cfg : Config) (K : Type).
  Lemma all_aborts (O : Ordinal K) (S : nat) log log' :
    (forall op m m', heap_life boom O op (log, m) = ((log', m'), Aborts) ->
       exists g ds rest, log' = log ++ ds /\ abort_account op (stored m) g /\ balanced (stored m) g [] ds rest) /\
    (forall op m m', array_life boom O (S := S) op (log, m) = ((log', m'), Aborts) ->
       exists g ds rest, log' = log ++ ds /\ abort_account op (stored (arr_list m)) g /\ balanced (stored (arr_list m)) g [] ds rest) /\
    (forall op m m', htotal_life boom O op (log, m) = ((log', m'), Aborts) ->
       exists g ds rest, log' = log ++ ds /\ total_abort_account op m g /\ balanced m g [] ds rest) /\
    (forall op m m', atotal_life boom O (S := S) op (log, m) = ((log', m'), Aborts) ->
       exists g ds rest, log' = log ++ ds /\ total_abort_account op (arr_list m) g /\ balanced (arr_list m) g [] ds rest).
  Proof.
    repeat split; intros op m m' X.
    - exact (heap_life_law X).
    - exact (array_life_law X).
    - exact (htotal_life_law X).
    - exact (atotal_life_law X).
  Qed.
  Lemma all_eaten (calls : list (Ordinal K * dir)) log got log' :
    (forall it it' : enumerate (option V),
       catch_run (fun p => owned_next boom (fst p) (snd p)) calls (log, it) = Some (got, (log', it')) ->
       exists ds, log' = log ++ ds /\ Permutation (stored (e_items it)) (handed got ++ ds ++ stored (e_items it'))) /\
    (forall it it' : enumerate V,
       catch_run (fun p => total_next boom (fst p) (snd p)) calls (log, it) = Some (got, (log', it')) ->
       exists ds, log' = log ++ ds /\ Permutation (e_items it) (handed got ++ ds ++ e_items it')).
  Proof.
    split; intros it it'.
    - exact (@eaten V K _ (fun it : enumerate (option V) => stored (e_items it)) _ (fun p => owned_ate (O := fst p) (d := snd p)) calls log it got log' it').
    - exact (@eaten V K _ (@e_items V) _ (fun p => total_ate (O := fst p) (d := snd p)) calls log it got log' it').
  Qed.
End Together.
