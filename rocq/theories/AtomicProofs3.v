(** * AtomicProofs3: the threads of AtomicProofs.v with any implementation of [Ordinal]. *)
From Verif Require Import Base Spec SpecAtomic SpecAtomicAny ModelAtomic BaseProofs AtomicProofs.
From Coq Require Import List Lia.
Import ListNotations.
Set Implicit Arguments.
Unset Strict Implicit.

Lemma deeds_snoc_same {T} (tr : list (deed T)) i c o :
  deeds_of i (tr ++ [(i, c, o)]) = deeds_of i tr ++ [(i, c, o)].
Proof. unfold deeds_of. rewrite filter_app. cbn. rewrite Nat.eqb_refl. reflexivity. Qed.

Lemma deeds_snoc_other {T} (tr : list (deed T)) i j c o : i <> j ->
  deeds_of j (tr ++ [(i, c, o)]) = deeds_of j tr.
Proof.
  intros H. unfold deeds_of. rewrite filter_app. cbn.
  destruct (Nat.eqb_spec i j); [contradiction|]. apply app_nil_r.
Qed.

(** What a thread does with the response. *)
Definition finish {T} (r : res (out T)) (e : out T + panic) : Prop :=
  match e with inl o => r = Val o | inr w => r = Panic w end.

Section Proofs.
  Context {T : Type} (O : Ordinal T) (HO : answers O).

  Notation lives c := (forall why, ~ dies O c why).

  Lemma finish_decode i (wrap : T -> out T) :
    finish (t <- decode O i ;; Val (wrap t)) (handed O i wrap).
  Proof.
    unfold handed, decode. pose proof (proj2 HO i) as H.
    destruct (from_ordinal O i) as [[t|]| | | |]; try contradiction; reflexivity.
  Qed.

  Lemma answered t : (exists i, ordinal O t = Val i) \/ (exists w, ordinal O t = Panic w).
  Proof. pose proof (proj1 HO t) as U. destruct (ordinal O t); try contradiction; eauto. Qed.

  Lemma method_any c :
    (exists why, refuses O c why /\ call_method O c = Panic why) \/
    (forall why, ~ refuses O c why) /\
    exists q k, call_method O c = Val (q, k) /\
      illegal_request q = negb (legal c) /\
      forall i, finish (k (fst (perform q i))) (fst (effect O c i)) /\
        snd (perform q i) = snd (effect O c i).
  Proof.
    destruct c as [o|t o|old new s f|]; cbn [call_method refuses].
    - right. split; [auto|]. do 2 eexists. split; [reflexivity|]. split; [destruct o; reflexivity|].
      intros i. cbn [perform fst snd effect]. split; [apply finish_decode|reflexivity].
    - unfold AtomicOrdinal_store. destruct (answered t) as [(j & Hj)|(w & Hw)].
      2:{ left. exists w. rewrite Hw. auto. }
      right. split; [congruence|]. rewrite Hj.
      do 2 eexists. split; [reflexivity|]. split; [destruct o; reflexivity|].
      intros i. cbn. rewrite Hj. split; reflexivity.
    - unfold AtomicOrdinal_compare_exchange. destruct (answered old) as [(j & Hj)|(w & Hw)].
      2:{ left. exists w. rewrite Hw. auto. }
      destruct (answered new) as [(j' & Hj')|(w & Hw)].
      2:{ left. exists w. rewrite Hj, Hw. eauto. }
      right. split; [intros w [H|[_ H]]; congruence|]. rewrite Hj, Hj'.
      do 2 eexists. split; [reflexivity|]. split; [destruct f; reflexivity|].
      intros i. cbn [perform effect]. rewrite Hj, Hj'. pose proof (finish_decode i) as D.
      destruct (i =? j); cbn [fst snd]; (split; [|reflexivity]).
      + specialize (D (@OOk T)). destruct (decode O i); exact D.
      + specialize (D (@OErr T)). destruct (decode O i); exact D.
    - right. split; [auto|]. do 2 eexists. split; [reflexivity|]. split; [reflexivity|].
      intros i. cbn [perform fst snd effect]. split; [apply finish_decode|reflexivity].
  Qed.

  Lemma method_got c q k : call_method O c = Val (q, k) ->
    (forall why, ~ refuses O c why) /\
    illegal_request q = negb (legal c) /\
    forall i, finish (k (fst (perform q i))) (fst (effect O c i)) /\
      snd (perform q i) = snd (effect O c i).
  Proof.
    intros H. destruct (method_any c) as [(w & _ & E)|(G & q' & k' & E & R)]; [congruence|].
    rewrite H in E. injection E as <- <-. auto.
  Qed.

  Section Machine.
    Context {Mem : Type} (apply : nat -> request -> Mem -> res response * Mem)
      (R : Mem -> list (deed T) -> Prop).

    Hypothesis Hcall : forall choice m tr c q k, R m tr -> call_method O c = Val (q, k) ->
      if legal c
      then exists r m' e, apply choice q m = (Val r, m') /\ finish (k r) e /\
             forall i : nat, R m' (tr ++ [(i, c, e)])
      else apply choice q m = (Panic POrdering, m).

    Definition any_inv (p : list (call T)) (mine : list (deed T)) (th : thread T) : Prop :=
      p = t_begun th ++ t_todo th /\
      Forall (fun c => lives c) (map d_call mine) /\
      match t_phase th with
      | PIdle => t_begun th = map d_call mine /\ map inl (t_returned th) = map d_end mine
      | PReady q k => exists c, t_begun th = map d_call mine ++ [c] /\
          call_method O c = Val (q, k) /\ map inl (t_returned th) = map d_end mine
      | PGot r k => exists e, t_begun th = map d_call mine /\ finish (k r) e /\
          map inl (t_returned th) ++ [e] = map d_end mine
      | PDead why =>
          (exists c, t_begun th = map d_call mine ++ [c] /\
             dies O c why /\ map inl (t_returned th) = map d_end mine) \/
          (t_begun th = map d_call mine /\ map d_end mine = map inl (t_returned th) ++ [inr why])
      | PWrong => False
      end.

    Definition sys_inv (progs : list (list (call T))) (tr : list (deed T))
        (sys : list (thread T) * Mem) : Prop :=
      R (snd sys) tr /\ length (fst sys) = length progs /\
      Forall (fun e => (fst (fst e) < length progs)%nat) tr /\
      forall i p th, nth_error progs i = Some p -> nth_error (fst sys) i = Some th ->
        any_inv p (deeds_of i tr) th.

    Lemma any_step choice p tr th m (i : nat) : R m tr -> any_inv p (deeds_of i tr) th ->
      exists evs, (evs = [] \/ exists c o, evs = [(i, c, o)]) /\
        R (snd (thread_step O apply choice th m)) (tr ++ evs) /\
        any_inv p (deeds_of i (tr ++ evs)) (fst (thread_step O apply choice th m)).
    Proof.
      intros HR (Hp & Hleg & Hth). unfold thread_step.
      destruct (t_phase th) as [|q k|r k|w|] eqn:Hph.
      - exists []. rewrite app_nil_r. split; [left; reflexivity|].
        destruct (t_todo th) as [|c todo] eqn:Htd.
        + cbn [fst snd]. split; [exact HR|]. unfold any_inv. rewrite Hph, Htd. auto.
        + destruct Hth as [H1 H2].
          destruct (method_any c) as [(w & Hw & Hm)|(_ & q & k & Hm & _ & _)]; rewrite Hm; cbn [fst snd];
            (split; [exact HR|]); unfold any_inv; cbn;
            (split; [rewrite Hp, <- app_assoc; reflexivity|]; split; [exact Hleg|]).
          * left. exists c. rewrite H1. split; [reflexivity|]. split; [left; exact Hw|exact H2].
          * exists c. rewrite H1. auto.
      - destruct Hth as (c & H1 & Hm & H2). pose proof (Hcall choice HR Hm) as Hc.
        destruct (legal c) eqn:Hl.
        + destruct Hc as (r & m' & o & Ha & Hk & HR'). rewrite Ha. exists [(i, c, o)].
          split; [right; exists c, o; reflexivity|]. cbn [fst snd]. split; [apply HR'|].
          unfold any_inv. cbn. rewrite deeds_snoc_same, !map_app. cbn.
          split; [exact Hp|]. split.
          { apply Forall_app. split; [exact Hleg|]. constructor; [|constructor].
            intros w [D|(_ & D & _)]; [exact (proj1 (method_got Hm) w D)|unfold d_call in D; cbn in D; congruence]. }
          exists o. split; [exact H1|]. split; [exact Hk|]. rewrite H2. reflexivity.
        + rewrite Hc. exists []. rewrite app_nil_r. split; [left; reflexivity|]. cbn [fst snd].
          split; [exact HR|]. unfold any_inv. cbn. split; [exact Hp|]. split; [exact Hleg|].
          left. exists c. split; [exact H1|]. split; [|exact H2]. right.
          split; [exact (proj1 (method_got Hm))|auto].
      - destruct Hth as (e & H1 & Hk & H2). exists []. rewrite app_nil_r.
        split; [left; reflexivity|].
        destruct e as [o|w]; cbn [finish] in Hk; rewrite Hk; cbn [fst snd]; (split; [exact HR|]);
          unfold any_inv; cbn; (split; [exact Hp|]; split; [exact Hleg|]).
        + rewrite map_app. auto.
        + right. auto.
      - exists []. rewrite app_nil_r. split; [left; reflexivity|]. cbn [fst snd].
        split; [exact HR|]. unfold any_inv. rewrite Hph. auto.
      - destruct Hth.
    Qed.

    Lemma sys_step progs tr sys ic : sys_inv progs tr sys ->
      exists evs, sys_inv progs (tr ++ evs) (system_step O apply sys ic).
    Proof.
      destruct sys as [ths m], ic as [i choice]. intros (HR & Hlen & Htr & Hinv).
      cbn [fst snd] in *. unfold system_step. cbn [fst snd].
      destruct (nth_error ths i) as [th|] eqn:Hth.
      - destruct (nth_error progs i) as [p|] eqn:Hp.
        2:{ apply nth_error_None in Hp. rewrite <- Hlen in Hp. apply nth_error_None in Hp. congruence. }
        destruct (any_step choice HR (Hinv _ _ _ Hp Hth)) as (evs & Hevs & HR' & Hth').
        destruct (thread_step O apply choice th m) as [th' m'] eqn:Hst. cbn [fst snd] in *.
        exists evs. unfold sys_inv. cbn [fst snd]. split; [exact HR'|].
        split; [rewrite length_list_set; exact Hlen|]. split.
        + apply Forall_app. split; [exact Htr|].
          assert (i < length progs)%nat by (apply nth_error_Some; congruence).
          destruct Hevs as [->|(c & o & ->)]; constructor; [|constructor]. exact H.
        + intros j pj thj Hpj. rewrite nth_list_set, Hth.
          destruct (Nat.eqb_spec i j) as [<-|Hij].
          * intros E. injection E as <-. rewrite Hp in Hpj. injection Hpj as <-. exact Hth'.
          * intros Hj. destruct Hevs as [->|(c & o & ->)].
            -- rewrite app_nil_r. eapply Hinv; eassumption.
            -- rewrite deeds_snoc_other by exact Hij. eapply Hinv; eassumption.
      - exists []. rewrite app_nil_r. split; [exact HR|]. auto.
    Qed.

    Lemma sys_run progs sched : forall tr sys, sys_inv progs tr sys ->
      exists evs, sys_inv progs (tr ++ evs) (fold_left (system_step O apply) sched sys).
    Proof.
      induction sched as [|ic sched IH]; intros tr sys H.
      - exists []. rewrite app_nil_r. exact H.
      - destruct (sys_step ic H) as (e1 & H1). destruct (IH _ _ H1) as (e2 & H2).
        exists (e1 ++ e2). rewrite app_assoc. exact H2.
    Qed.

    Lemma sys_init progs m0 : R m0 [] -> sys_inv progs [] (map thread_init progs, m0).
    Proof.
      intros HR. split; [exact HR|]. split; [apply map_length|]. split; [constructor|].
      intros i p th Hp Hth. cbn [fst] in Hth. rewrite nth_error_map, Hp in Hth.
      injection Hth as <-. unfold any_inv. cbn. auto.
    Qed.

    Lemma sys_execute progs m0 s1 s2 : R m0 [] ->
      exists t1 t2, sys_inv progs t1 (execute O apply progs m0 s1) /\
                    sys_inv progs (t1 ++ t2) (execute O apply progs m0 (s1 ++ s2)).
    Proof.
      intros HR. destruct (sys_run s1 (sys_init progs HR)) as (t1 & H1).
      destruct (sys_run s2 H1) as (t2 & H2). exists t1, t2. split; [exact H1|].
      unfold execute. rewrite fold_left_app. exact H2.
    Qed.

    Lemma any_view p mine th : any_inv p mine th ->
      exists w, thread_view th = Some w /\
        prefix (v_begun w) p /\
        prefix (map d_call mine) (v_begun w) /\
        prefix (map inl (v_returned w)) (map d_end mine) /\
        Forall (fun c => lives c) (map d_call mine) /\
        (length (v_begun w) <= S (length (v_returned w)))%nat /\
        match v_panic w with
        | None => True
        | Some why =>
            (exists c, v_begun w = map d_call mine ++ [c] /\ dies O c why /\
               map inl (v_returned w) = map d_end mine) \/
            (v_begun w = map d_call mine /\ map d_end mine = map inl (v_returned w) ++ [inr why])
        end.
    Proof.
      intros (Hp & Hleg & Hth). unfold thread_view.
      assert (Hpre : prefix (t_begun th) p) by (eexists; exact Hp).
      assert (Hlen : forall l, map d_end mine = map inl (t_returned th) ++ l ->
                length mine = (length (t_returned th) + length l)%nat).
      { intros l E. rewrite <- (map_length d_end), E, app_length, map_length. reflexivity. }
      destruct (t_phase th) as [|q k|r k|w|]; try (destruct Hth; fail); eexists; (split; [reflexivity|]); cbn;
        (split; [exact Hpre|]).
      - destruct Hth as [-> H]. rewrite H. specialize (Hlen []). rewrite app_nil_r in Hlen.
        rewrite map_length. cbn in Hlen. rewrite (Hlen (eq_sym H)).
        repeat split; auto using prefix_refl. lia.
      - destruct Hth as (c & -> & _ & H). rewrite H. specialize (Hlen []). rewrite app_nil_r in Hlen.
        rewrite app_length, map_length. cbn in Hlen |- *. rewrite (Hlen (eq_sym H)).
        repeat split; auto using prefix_refl, prefix_app. lia.
      - destruct Hth as (o & -> & _ & H). rewrite map_length, <- H. rewrite (Hlen _ (eq_sym H)). cbn.
        repeat split; auto using prefix_refl, prefix_app. lia.
      - destruct Hth as [(c & Hb & Hc & H)|(Hb & H)].
        + rewrite Hb, H. pose proof (Hlen []) as L. rewrite app_nil_r in L.
          rewrite app_length, map_length. cbn in L |- *. rewrite (L (eq_sym H)).
          repeat split; auto using prefix_refl, prefix_app; [lia|]. left. exists c. auto.
        + rewrite Hb, H, map_length, (Hlen _ H). cbn.
          repeat split; auto using prefix_refl, prefix_app. lia.
    Qed.

    Lemma any_explains progs tr sys : sys_inv progs tr sys ->
      exists vs, views (fst sys) = Some vs /\ explains_any O progs tr vs.
    Proof.
      intros (_ & Hlen & Htr & Hinv).
      assert (Hp : forall i th, nth_error (fst sys) i = Some th -> exists p, nth_error progs i = Some p).
      { intros i th Hth. destruct (nth_error progs i) as [p|] eqn:E; [eauto|].
        apply nth_error_None in E. rewrite <- Hlen in E. apply nth_error_None in E. congruence. }
      destruct (@views_inv T (fst sys)) as (vs & E1 & E2 & E3).
      { intros i th Hth. destruct (Hp _ _ Hth) as (p & Ep).
        destruct (any_view (Hinv _ _ _ Ep Hth)) as (w & Ew & _). congruence. }
      exists vs. split; [exact E1|]. split; [congruence|]. split; [exact Htr|].
      intros i p w Ep Ew.
      destruct (nth_error (fst sys) i) as [th|] eqn:Hth.
      2:{ apply nth_error_None in Hth. rewrite <- E2 in Hth. apply nth_error_None in Hth. congruence. }
      destruct (any_view (Hinv _ _ _ Ep Hth)) as (w' & Ew' & Hw').
      rewrite (E3 _ _ Hth), Ew' in Ew. injection Ew as <-. exact Hw'.
    Qed.

    (** A thread given three turns for each call is done or has panicked. *)
    Definition any_work (th : thread T) : nat :=
      match t_phase th with
      | PIdle => 3 * length (t_todo th)
      | PReady _ _ => 3 * length (t_todo th) + 2
      | PGot _ _ => 3 * length (t_todo th) + 1
      | _ => 0
      end%nat.

    Lemma any_step_work choice p tr th m i : R m tr -> any_inv p (deeds_of i tr) th ->
      (any_work (fst (thread_step O apply choice th m)) <= Nat.pred (any_work th))%nat.
    Proof.
      intros HR (Hp & Hleg & Hth). unfold thread_step, any_work.
      destruct (t_phase th) as [|q k|r k|w|] eqn:Hph.
      - destruct (t_todo th) as [|c todo] eqn:Htd.
        + cbn [fst]. rewrite Htd, Hph. reflexivity.
        + destruct (method_any c) as [(w & Hw & Hm)|(_ & q & k & Hm & _ & _)]; rewrite Hm; cbn; lia.
      - destruct (apply choice q m) as [[x| | | |] m'] eqn:Ha; cbn; lia.
      - destruct (k r); cbn; lia.
      - cbn [fst]. rewrite Hph. lia.
      - destruct Hth.
    Qed.

    Lemma any_run_work progs sched i p : nth_error progs i = Some p ->
      forall tr sys th, sys_inv progs tr sys -> nth_error (fst sys) i = Some th ->
      exists tr' th', sys_inv progs tr' (fold_left (system_step O apply) sched sys) /\
        nth_error (fst (fold_left (system_step O apply) sched sys)) i = Some th' /\
        (any_work th' <= any_work th - turns i sched)%nat.
    Proof.
      intros Hp. induction sched as [|[j choice] sched IH]; intros tr sys th Hsys Hth.
      - exists tr, th. split; [exact Hsys|]. split; [exact Hth|]. cbn. lia.
      - destruct (sys_step (j, choice) Hsys) as (evs & Hsys').
        destruct sys as [ths m]. cbn [fst] in Hth.
        assert (Hstep : exists th1, nth_error (fst (system_step O apply (ths, m) (j, choice))) i = Some th1 /\
                  (any_work th1 <= any_work th - turns i [(j, choice)])%nat).
        { unfold system_step. cbn [fst snd]. destruct (nth_error ths j) as [thj|] eqn:Hj.
          - destruct (thread_step O apply choice thj m) as [th' m'] eqn:Hst. cbn [fst].
            rewrite nth_list_set, Hj. unfold turns. cbn [filter fst]. destruct (Nat.eqb_spec j i) as [->|Hne].
            + eexists. split; [reflexivity|]. assert (thj = th) by congruence. subst thj.
              destruct Hsys as (HR & _ & _ & Hinv). cbn [fst snd] in HR, Hinv.
              pose proof (any_step_work choice HR (Hinv _ _ _ Hp Hth)) as Hw.
              rewrite Hst in Hw. cbn [fst] in Hw. cbn [length]. lia.
            + exists th. split; [exact Hth|]. cbn. lia.
          - exists th. split; [exact Hth|]. unfold turns. cbn.
            destruct (Nat.eqb_spec j i) as [->|Hne]; [congruence|]. cbn. lia. }
        destruct Hstep as (th1 & Hth1 & Hw1).
        destruct (IH _ _ _ Hsys' Hth1) as (tr' & th' & H1 & H2 & H3).
        exists tr', th'. cbn [fold_left]. split; [exact H1|]. split; [exact H2|].
        unfold turns in *. cbn in *. destruct (Nat.eqb j i); cbn in *; lia.
    Qed.

    Lemma any_wait_free progs m0 sched i p : R m0 [] -> nth_error progs i = Some p ->
      (3 * length p <= turns i sched)%nat ->
      exists vs w, views (fst (execute O apply progs m0 sched)) = Some vs /\
        nth_error vs i = Some w /\
        (v_panic w <> None \/ v_begun w = p /\ length (v_returned w) = length p).
    Proof.
      intros HR Hp Ht.
      assert (Hth : nth_error (fst (map (@thread_init T) progs, m0)) i = Some (thread_init p)).
      { cbn [fst]. rewrite nth_error_map, Hp. reflexivity. }
      destruct (any_run_work sched Hp (sys_init progs HR) Hth) as (tr & th & Hsys & Hn & Hw).
      destruct (any_explains Hsys) as (vs & Hvs & Hlen & _). exists vs.
      assert (Hsome : forall ths vs j th, views ths = Some vs -> nth_error ths j = Some th ->
                nth_error vs j = thread_view (T := T) th).
      { clear. induction ths as [|t ths IH]; intros vs j th E; [destruct j; discriminate|].
        cbn in E. destruct (thread_view t) eqn:Et; [|discriminate E].
        destruct (views ths) as [vs'|] eqn:Ev; [|discriminate E]. injection E as <-.
        destruct j as [|j]; cbn; [intros [= <-]; congruence|apply IH; reflexivity]. }
      destruct Hsys as (_ & _ & _ & Hinv). pose proof (Hinv _ _ _ Hp Hn) as Hi.
      destruct (any_view Hi) as (w & Ew & _). exists w.
      split; [exact Hvs|]. split; [rewrite (Hsome _ _ _ _ Hvs Hn); exact Ew|].
      unfold thread_view in Ew. destruct Hi as (Hb & _ & Hph).
      unfold any_work in Hw. cbn in Hw. destruct (t_phase th) as [|q k|r k|why|] eqn:E.
      - right. injection Ew as <-. cbn. destruct Hph as [H1 H2].
        destruct (t_todo th); [|cbn in Hw; lia]. rewrite app_nil_r in Hb. split; [congruence|].
        rewrite <- (map_length (@inl (out T) panic)), H2, Hb, H1, !map_length. reflexivity.
      - exfalso. lia.
      - exfalso. lia.
      - left. injection Ew as <-. discriminate.
      - destruct Hph.
    Qed.
  End Machine.

  (** ** The two memories *)

  Lemma sc_any_call (i0 : N) (choice : nat) m tr c q k : number_trace O i0 tr m ->
    call_method O c = Val (q, k) ->
    if legal c
    then exists r m' e, sc_apply q m = (Val r, m') /\ finish (k r) e /\
           forall i : nat, number_trace O i0 (tr ++ [(i, c, e)]) m'
    else sc_apply q m = (Panic POrdering, m).
  Proof.
    intros Htr Hm. destruct (method_got Hm) as (_ & Hill & Hk). unfold sc_apply. rewrite Hill.
    destruct (legal c); cbn [negb]; [|reflexivity].
    destruct (Hk m) as (Hk1 & Hk2). destruct (perform q m) as [r w]. cbn [fst snd] in *.
    do 3 eexists. split; [reflexivity|]. split; [exact Hk1|]. intros i. rewrite Hk2. constructor. exact Htr.
  Qed.

  Lemma weak_any_call (i0 : N) choice m tr c q k : stale_number_trace O i0 tr m ->
    call_method O c = Val (q, k) ->
    if legal c
    then exists r m' e, weak_apply choice q m = (Val r, m') /\ finish (k r) e /\
           forall i : nat, stale_number_trace O i0 (tr ++ [(i, c, e)]) m'
    else weak_apply choice q m = (Panic POrdering, m).
  Proof.
    intros Htr Hm. destruct (method_got Hm) as (_ & Hill & Hk). unfold weak_apply. rewrite Hill.
    destruct (legal c); cbn [negb]; [|reflexivity].
    assert (Hin : In (nth choice m (hd 0 m)) m).
    { assert (Hne : m <> []).
      { destruct Htr as [|? ? ? ? ? Ht Hi']; [discriminate|].
        destruct (snd (effect O c0 i)); [intros E; destruct is; discriminate|].
        intros ->. destruct Hi'. }
      destruct (Nat.lt_ge_cases choice (length m)) as [L|L]; [apply nth_In; exact L|].
      rewrite nth_overflow by exact L. destruct m; [congruence|]. left. reflexivity. }
    destruct (Hk (nth choice m (hd 0 m))) as (Hk1 & Hk2).
    destruct (perform q (nth choice m (hd 0 m))) as [r w]. cbn [fst snd] in *.
    do 3 eexists. split; [reflexivity|]. split; [exact Hk1|]. intros i. rewrite Hk2. constructor; assumption.
  Qed.

  Lemma sc_any cell progs s1 s2 :
    exists t1 t2 vs1 vs2,
      views (fst (execute O (fun _ => sc_apply) progs cell s1)) = Some vs1 /\
      views (fst (execute O (fun _ => sc_apply) progs cell (s1 ++ s2))) = Some vs2 /\
      number_trace O cell t1 (snd (execute O (fun _ => sc_apply) progs cell s1)) /\
      explains_any O progs t1 vs1 /\
      number_trace O cell (t1 ++ t2) (snd (execute O (fun _ => sc_apply) progs cell (s1 ++ s2))) /\
      explains_any O progs (t1 ++ t2) vs2.
  Proof.
    destruct (@sys_execute _ (fun _ => sc_apply) (fun m tr => number_trace O cell tr m)
                (sc_any_call (i0 := cell)) progs cell s1 s2) as (t1 & t2 & H1 & H2).
    { constructor. }
    destruct (any_explains H1) as (vs1 & V1 & X1). destruct (any_explains H2) as (vs2 & V2 & X2).
    exists t1, t2, vs1, vs2. destruct H1 as (R1 & _), H2 as (R2 & _). auto 10.
  Qed.

  Lemma weak_any cell progs s1 s2 :
    exists t1 t2 vs1 vs2,
      views (fst (execute O weak_apply progs [cell] s1)) = Some vs1 /\
      views (fst (execute O weak_apply progs [cell] (s1 ++ s2))) = Some vs2 /\
      stale_number_trace O cell t1 (snd (execute O weak_apply progs [cell] s1)) /\
      explains_any O progs t1 vs1 /\
      stale_number_trace O cell (t1 ++ t2) (snd (execute O weak_apply progs [cell] (s1 ++ s2))) /\
      explains_any O progs (t1 ++ t2) vs2.
  Proof.
    destruct (@sys_execute _ weak_apply (fun m tr => stale_number_trace O cell tr m)
                (weak_any_call (i0 := cell)) progs [cell] s1 s2) as (t1 & t2 & H1 & H2).
    { constructor. }
    destruct (any_explains H1) as (vs1 & V1 & X1). destruct (any_explains H2) as (vs2 & V2 & X2).
    exists t1, t2, vs1, vs2. destruct H1 as (R1 & _), H2 as (R2 & _). auto 10.
  Qed.

  Lemma sc_any_wait_free cell progs sched i p : nth_error progs i = Some p ->
    (3 * length p <= turns i sched)%nat ->
    exists vs w, views (fst (execute O (fun _ => sc_apply) progs cell sched)) = Some vs /\
      nth_error vs i = Some w /\
      (v_panic w <> None \/ v_begun w = p /\ length (v_returned w) = length p).
  Proof.
    apply (@any_wait_free _ (fun _ => sc_apply) (fun m tr => number_trace O cell tr m)
             (sc_any_call (i0 := cell))). constructor.
  Qed.

  Lemma weak_any_wait_free cell progs sched i p : nth_error progs i = Some p ->
    (3 * length p <= turns i sched)%nat ->
    exists vs w, views (fst (execute O weak_apply progs [cell] sched)) = Some vs /\
      nth_error vs i = Some w /\
      (v_panic w <> None \/ v_begun w = p /\ length (v_returned w) = length p).
  Proof.
    apply (@any_wait_free _ weak_apply (fun m tr => stale_number_trace O cell tr m)
             (weak_any_call (i0 := cell))). constructor.
  Qed.
End Proofs.
