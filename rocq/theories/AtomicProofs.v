(** * AtomicProofs: lemmas behind the theorems about AtomicOrdinal. *)
From Verif Require Import Base Spec SpecAtomic ModelAtomic BaseProofs.
From Coq Require Import List.
Import ListNotations.
Unset Strict Implicit.

Lemma prefix_refl {A} (l : list A) : prefix l l.
Proof. exists []. rewrite app_nil_r. reflexivity. Qed.
Lemma prefix_app {A} (l r : list A) : prefix l (l ++ r).
Proof. exists r. reflexivity. Qed.

Lemma nth_list_set {A} (l : list A) i j a :
  nth_error (list_set l i a) j =
  if Nat.eqb i j then match nth_error l i with Some _ => Some a | None => None end
  else nth_error l j.
Proof.
  revert i j. induction l as [|x l IH]; intros i j.
  - destruct (Nat.eqb i j); destruct i, j; reflexivity.
  - destruct i, j; cbn; try reflexivity. rewrite IH. reflexivity.
Qed.
Lemma length_list_set {A} (l : list A) i a : length (list_set l i a) = length l.
Proof. revert i. induction l as [|x l IH]; intros [|i]; cbn; try reflexivity. rewrite IH. reflexivity. Qed.

Lemma of_thread_snoc_same {T} (tr : list (event T)) i c o :
  of_thread i (tr ++ [(i, c, o)]) = of_thread i tr ++ [(i, c, o)].
Proof. unfold of_thread. rewrite filter_app. cbn. rewrite Nat.eqb_refl. reflexivity. Qed.
Lemma of_thread_snoc_other {T} (tr : list (event T)) i j c o : i <> j ->
  of_thread j (tr ++ [(i, c, o)]) = of_thread j tr.
Proof.
  intros H. unfold of_thread. rewrite filter_app. cbn. apply Nat.eqb_neq in H. rewrite H.
  apply app_nil_r.
Qed.

Lemma reg_run_snoc {T} (eqd : forall a b : T, {a = b} + {a <> b}) cs c v :
  reg_run eqd (cs ++ [c]) v =
  (fst (reg_run eqd cs v) ++ [fst (reg_step eqd c (snd (reg_run eqd cs v)))],
   snd (reg_step eqd c (snd (reg_run eqd cs v)))).
Proof.
  revert v. induction cs as [|d cs IH]; intros v; cbn [app reg_run].
  - cbn [fst snd app]. destruct (reg_step eqd c v) as [o v']. reflexivity.
  - destruct (reg_step eqd d v) as [o v']. rewrite IH. destruct (reg_run eqd cs v') as [os v''].
    cbn [fst snd]. destruct (reg_step eqd c v''). reflexivity.
Qed.

Section Proofs.
  Context {cfg : Config} {T : Type} (O : Ordinal T) (n : N) (HO : ordinal_bijection O n)
    (eqd : forall a b : T, {a = b} + {a <> b}).

  Lemma decode_ok t i : ordinal O t = Val i -> decode O i = Val t.
  Proof.
    intros H. destruct (bij_to HO t) as (j & Hj & _ & Hf). rewrite H in Hj. injection Hj as <-.
    unfold decode. rewrite Hf. reflexivity.
  Qed.

  (** The result and effect of a call that reads [v]. *)
  Definition reads (c : call T) (v : T) : out T * option T :=
    match c with
    | CLoad _ | CDebug => (OVal v, None)
    | CStore t _ => (OUnit, Some t)
    | CCas old new _ _ => if eqd v old then (OOk v, Some new) else (OErr v, None)
    end.

  Lemma method_of c : exists q k, call_method O c = Val (q, k) /\
    illegal_request q = negb (legal c) /\
    forall v i, ordinal O v = Val i ->
      k (fst (perform q i)) = Val (fst (reads c v)) /\
      match snd (reads c v), snd (perform q i) with
      | Some t, Some j => ordinal O t = Val j
      | None, None => True
      | _, _ => False
      end.
  Proof.
    destruct c as [o|t o|old new s f|]; cbn [call_method].
    - do 2 eexists. split; [reflexivity|]. split; [destruct o; reflexivity|].
      intros v i Hv. cbn. rewrite (decode_ok Hv). split; [reflexivity|exact I].
    - destruct (bij_to HO t) as (j & Hj & _). unfold AtomicOrdinal_store. rewrite Hj.
      do 2 eexists. split; [reflexivity|]. split; [destruct o; reflexivity|].
      intros v i Hv. cbn. split; [reflexivity|exact Hj].
    - destruct (bij_to HO old) as (j & Hj & _). destruct (bij_to HO new) as (j' & Hj' & _).
      unfold AtomicOrdinal_compare_exchange. rewrite Hj, Hj'.
      do 2 eexists. split; [reflexivity|]. split; [destruct f; reflexivity|].
      intros v i Hv. cbn [perform reads]. destruct (eqd v old) as [->|Hne].
      + rewrite Hj in Hv. injection Hv as <-. rewrite N.eqb_refl. cbn.
        rewrite (decode_ok Hj). split; [reflexivity|exact Hj'].
      + destruct (N.eqb_spec i j) as [->|Hij].
        * exfalso. apply Hne. eapply bij_inj; eassumption.
        * cbn. rewrite (decode_ok Hv). split; [reflexivity|exact I].
    - do 2 eexists. split; [reflexivity|]. split; [reflexivity|].
      intros v i Hv. cbn. rewrite (decode_ok Hv). split; [reflexivity|exact I].
  Qed.

  (** ** The machine, for any memory *)

  Section Machine.
    Context {Mem : Type} (apply : nat -> request -> Mem -> res response * Mem)
      (R : Mem -> list (event T) -> Prop).

    (** A legal call extends the trace by an event, an illegal one panics without effect. *)
    Hypothesis Hcall : forall choice m tr c q k, R m tr -> call_method O c = Val (q, k) ->
      if legal c
      then exists r m' o, apply choice q m = (Val r, m') /\ k r = Val o /\
             forall i : nat, R m' (tr ++ [(i, c, o)])
      else apply choice q m = (Panic POrdering, m).

    Definition thread_inv (p : list (call T)) (mine : list (event T)) (th : thread T) : Prop :=
      p = t_begun th ++ t_todo th /\
      Forall (fun c => legal c = true) (map ev_call mine) /\
      match t_phase th with
      | PIdle => t_begun th = map ev_call mine /\ t_returned th = map ev_out mine
      | PReady q k => exists c, t_begun th = map ev_call mine ++ [c] /\
          call_method O c = Val (q, k) /\ t_returned th = map ev_out mine
      | PGot r k => exists o, t_begun th = map ev_call mine /\ k r = Val o /\
          t_returned th ++ [o] = map ev_out mine
      | PDead why => why = POrdering /\ exists c, t_begun th = map ev_call mine ++ [c] /\
          legal c = false /\ t_returned th = map ev_out mine
      | PWrong => False
      end.

    Definition system_inv (progs : list (list (call T))) (tr : list (event T))
        (sys : list (thread T) * Mem) : Prop :=
      R (snd sys) tr /\ length (fst sys) = length progs /\
      Forall (fun e => (ev_thread e < length progs)%nat) tr /\
      forall i p th, nth_error progs i = Some p -> nth_error (fst sys) i = Some th ->
        thread_inv p (of_thread i tr) th.

    Lemma thread_step_inv choice p tr th m (i : nat) : R m tr -> thread_inv p (of_thread i tr) th ->
      exists evs, (evs = [] \/ exists c o, evs = [(i, c, o)]) /\
        R (snd (thread_step O apply choice th m)) (tr ++ evs) /\
        thread_inv p (of_thread i (tr ++ evs)) (fst (thread_step O apply choice th m)).
    Proof.
      intros HR (Hp & Hleg & Hth). unfold thread_step.
      destruct (t_phase th) as [|q k|r k|w|] eqn:Hph.
      - exists []. rewrite app_nil_r. split; [left; reflexivity|].
        destruct (t_todo th) as [|c todo] eqn:Htd.
        + cbn [fst snd]. split; [exact HR|]. unfold thread_inv. rewrite Hph, Htd. auto.
        + destruct (method_of c) as (q & k & Hm & _ & _). rewrite Hm. cbn [fst snd].
          split; [exact HR|]. destruct Hth as [H1 H2]. unfold thread_inv. cbn.
          split; [rewrite Hp, <- app_assoc; reflexivity|]. split; [exact Hleg|].
          exists c. rewrite H1. auto.
      - destruct Hth as (c & H1 & Hm & H2). pose proof (Hcall choice HR Hm) as Hc.
        destruct (legal c) eqn:Hl.
        + destruct Hc as (r & m' & o & Ha & Hk & HR'). rewrite Ha. exists [(i, c, o)].
          split; [right; exists c, o; reflexivity|]. cbn [fst snd]. split; [apply HR'|].
          unfold thread_inv. cbn. rewrite of_thread_snoc_same, !map_app. cbn.
          split; [exact Hp|]. split; [rewrite Forall_app; auto|].
          exists o. split; [exact H1|]. split; [exact Hk|]. rewrite H2. reflexivity.
        + rewrite Hc. exists []. rewrite app_nil_r. split; [left; reflexivity|]. cbn [fst snd].
          split; [exact HR|]. unfold thread_inv. cbn. split; [exact Hp|]. split; [exact Hleg|].
          split; [reflexivity|]. exists c. auto.
      - destruct Hth as (o & H1 & Hk & H2). rewrite Hk. exists []. rewrite app_nil_r.
        split; [left; reflexivity|]. cbn [fst snd]. split; [exact HR|].
        unfold thread_inv. cbn. auto.
      - exists []. rewrite app_nil_r. split; [left; reflexivity|]. cbn [fst snd].
        split; [exact HR|]. unfold thread_inv. rewrite Hph. auto.
      - destruct Hth.
    Qed.

    Lemma system_step_inv progs tr sys ic : system_inv progs tr sys ->
      exists evs, system_inv progs (tr ++ evs) (system_step O apply sys ic).
    Proof.
      destruct sys as [ths m], ic as [i choice]. intros (HR & Hlen & Htr & Hinv).
      cbn [fst snd] in *. unfold system_step. cbn [fst snd].
      destruct (nth_error ths i) as [th|] eqn:Hth.
      - destruct (nth_error progs i) as [p|] eqn:Hp.
        2:{ apply nth_error_None in Hp. rewrite <- Hlen in Hp. apply nth_error_None in Hp. congruence. }
        destruct (thread_step_inv choice HR (Hinv _ _ _ Hp Hth)) as (evs & Hevs & HR' & Hth').
        destruct (thread_step O apply choice th m) as [th' m'] eqn:Hst. cbn [fst snd] in *.
        exists evs. unfold system_inv. cbn [fst snd]. split; [exact HR'|].
        split; [rewrite length_list_set; exact Hlen|]. split.
        + apply Forall_app. split; [exact Htr|].
          assert (i < length progs)%nat by (apply nth_error_Some; congruence).
          destruct Hevs as [->|(c & o & ->)]; constructor; [|constructor]. exact H.
        + intros j pj thj Hpj. rewrite nth_list_set, Hth.
          destruct (Nat.eqb_spec i j) as [<-|Hij].
          * intros E. injection E as <-. rewrite Hp in Hpj. injection Hpj as <-. exact Hth'.
          * intros Hj. destruct Hevs as [->|(c & o & ->)].
            -- rewrite app_nil_r. eapply Hinv; eassumption.
            -- rewrite of_thread_snoc_other by exact Hij. eapply Hinv; eassumption.
      - exists []. rewrite app_nil_r. split; [exact HR|]. auto.
    Qed.

    Lemma fold_inv progs sched : forall tr sys, system_inv progs tr sys ->
      exists evs, system_inv progs (tr ++ evs) (fold_left (system_step O apply) sched sys).
    Proof.
      induction sched as [|ic sched IH]; intros tr sys H.
      - exists []. rewrite app_nil_r. exact H.
      - destruct (system_step_inv ic H) as (e1 & H1). destruct (IH _ _ H1) as (e2 & H2).
        exists (e1 ++ e2). rewrite app_assoc. exact H2.
    Qed.

    Lemma init_inv progs m0 : R m0 [] -> system_inv progs [] (map thread_init progs, m0).
    Proof.
      intros HR. split; [exact HR|]. split; [apply map_length|]. split; [constructor|].
      intros i p th Hp Hth. cbn [fst] in Hth. rewrite nth_error_map, Hp in Hth.
      injection Hth as <-. unfold thread_inv. cbn. auto.
    Qed.

    Lemma execute_inv progs m0 s1 s2 : R m0 [] ->
      exists t1 t2, system_inv progs t1 (execute O apply progs m0 s1) /\
                    system_inv progs (t1 ++ t2) (execute O apply progs m0 (s1 ++ s2)).
    Proof.
      intros HR. destruct (fold_inv s1 (init_inv progs HR)) as (t1 & H1).
      destruct (fold_inv s2 H1) as (t2 & H2). exists t1, t2. split; [exact H1|].
      unfold execute. rewrite fold_left_app. exact H2.
    Qed.

    Lemma thread_view_inv p mine th : thread_inv p mine th ->
      exists w, thread_view th = Some w /\
        prefix (v_begun w) p /\
        prefix (map ev_call mine) (v_begun w) /\
        prefix (v_returned w) (map ev_out mine) /\
        Forall (fun c => legal c = true) (map ev_call mine) /\
        (length (v_begun w) <= S (length (v_returned w)))%nat /\
        match v_panic w with
        | None => True
        | Some why => why = POrdering /\
            exists c, v_begun w = map ev_call mine ++ [c] /\ legal c = false /\ v_returned w = map ev_out mine
        end.
    Proof.
      intros (Hp & Hleg & Hth). unfold thread_view.
      assert (Hpre : prefix (t_begun th) p) by (eexists; exact Hp).
      destruct (t_phase th) as [|q k|r k|w|]; try (destruct Hth; fail); eexists; (split; [reflexivity|]); cbn;
        (split; [exact Hpre|]).
      - destruct Hth as [-> ->]. rewrite !map_length. repeat split; auto using prefix_refl. 
      - destruct Hth as (c & -> & _ & ->). rewrite app_length, !map_length. cbn.
        repeat split; auto using prefix_refl, prefix_app. lia.
      - destruct Hth as (o & -> & _ & H).
        assert (Hl : length mine = Datatypes.S (length (t_returned th))).
        { rewrite <- (map_length ev_out), <- H, app_length. cbn. lia. }
        rewrite <- H. rewrite map_length. repeat split; auto using prefix_refl, prefix_app. lia.
      - destruct Hth as (-> & c & -> & Hc & ->). rewrite app_length, !map_length. cbn.
        repeat split; auto using prefix_refl, prefix_app; [lia|]. exists c. auto.
    Qed.

    Lemma views_inv (ths : list (thread T)) : (forall i th, nth_error ths i = Some th -> thread_view th <> None) ->
      exists vs, views ths = Some vs /\ length vs = length ths /\
        forall i th, nth_error ths i = Some th -> nth_error vs i = thread_view th.
    Proof.
      induction ths as [|th ths IH]; intros H.
      - exists []. split; [reflexivity|]. split; [reflexivity|]. intros [|i] th E; discriminate E.
      - destruct IH as (vs & E1 & E2 & E3). { intros i t Ht. apply (H (Datatypes.S i) t Ht). }
        pose proof (H 0%nat th eq_refl) as H0. destruct (thread_view th) as [w|] eqn:Ew; [|congruence].
        exists (w :: vs). cbn. rewrite Ew, E1. split; [reflexivity|]. split; [cbn; congruence|].
        intros [|i] t Ht; cbn in *; [injection Ht as <-; congruence|auto].
    Qed.

    Lemma inv_explains progs tr sys : system_inv progs tr sys ->
      exists vs, views (fst sys) = Some vs /\ explains progs tr vs.
    Proof.
      intros (_ & Hlen & Htr & Hinv).
      assert (Hp : forall i th, nth_error (fst sys) i = Some th -> exists p, nth_error progs i = Some p).
      { intros i th Hth. destruct (nth_error progs i) as [p|] eqn:E; [eauto|].
        apply nth_error_None in E. rewrite <- Hlen in E. apply nth_error_None in E. congruence. }
      destruct (@views_inv (fst sys)) as (vs & E1 & E2 & E3).
      { intros i th Hth. destruct (Hp _ _ Hth) as (p & Ep).
        destruct (thread_view_inv (Hinv _ _ _ Ep Hth)) as (w & Ew & _). congruence. }
      exists vs. split; [exact E1|]. split; [congruence|]. split; [exact Htr|].
      intros i p w Ep Ew.
      destruct (nth_error (fst sys) i) as [th|] eqn:Hth.
      2:{ apply nth_error_None in Hth. rewrite <- E2 in Hth. apply nth_error_None in Hth. congruence. }
      destruct (thread_view_inv (Hinv _ _ _ Ep Hth)) as (w' & Ew' & Hw').
      rewrite (E3 _ _ Hth), Ew' in Ew. injection Ew as <-. exact Hw'.
    Qed.
  End Machine.

  (** ** Sequentially consistent memory *)

  Definition sc_rel (v0 : T) (cell : N) (tr : list (event T)) : Prop :=
    register_trace eqd v0 tr /\
    ordinal O (snd (reg_run eqd (map ev_call tr) v0)) = Val cell.

  Lemma reg_reads c v : reg_step eqd c v =
    (fst (reads c v), match snd (reads c v) with Some t => t | None => v end).
  Proof. destruct c; cbn; try reflexivity. destruct (eqd v old); reflexivity. Qed.

  Lemma sc_call v0 (choice : nat) m tr c q k : sc_rel v0 m tr -> call_method O c = Val (q, k) ->
    if legal c
    then exists r m' o, sc_apply q m = (Val r, m') /\ k r = Val o /\
           forall i : nat, sc_rel v0 m' (tr ++ [(i, c, o)])
    else sc_apply q m = (Panic POrdering, m).
  Proof.
    intros (Htr & Hcell) Hm. destruct (method_of c) as (q' & k' & Hm' & Hill & Hk).
    rewrite Hm in Hm'. injection Hm' as <- <-. unfold sc_apply. rewrite Hill.
    destruct (legal c); cbn [negb]; [|reflexivity].
    destruct (Hk _ _ Hcell) as (Hk1 & Hk2). destruct (perform q m) as [r w]. cbn [fst snd] in *.
    do 3 eexists. split; [reflexivity|]. split; [exact Hk1|]. intros i.
    unfold sc_rel, register_trace. rewrite !map_app. cbn [map ev_call ev_out fst snd].
    rewrite reg_run_snoc, reg_reads. cbn [fst snd]. rewrite Htr. split; [reflexivity|].
    destruct (snd (reads c (snd (reg_run eqd (map ev_call tr) v0)))), w; try contradiction; assumption.
  Qed.

  Lemma sc_linearizable v0 cell progs s1 s2 : AtomicOrdinal_new O v0 = Val cell ->
    exists t1 t2 vs1 vs2,
      views (fst (execute O (fun _ => sc_apply) progs cell s1)) = Some vs1 /\
      views (fst (execute O (fun _ => sc_apply) progs cell (s1 ++ s2))) = Some vs2 /\
      register_trace eqd v0 t1 /\ explains progs t1 vs1 /\
      register_trace eqd v0 (t1 ++ t2) /\ explains progs (t1 ++ t2) vs2.
  Proof.
    intros Hnew.
    destruct (@execute_inv _ (fun _ => sc_apply) (sc_rel v0) (sc_call (v0 := v0)) progs cell s1 s2)
      as (t1 & t2 & H1 & H2).
    { split; [reflexivity|exact Hnew]. }
    destruct (inv_explains H1) as (vs1 & V1 & X1). destruct (inv_explains H2) as (vs2 & V2 & X2).
    exists t1, t2, vs1, vs2. destruct H1 as ((R1 & _) & _), H2 as ((R2 & _) & _). auto 10.
  Qed.

  (** ** Weak memory *)

  Definition weak_rel (v0 : T) (cell : list N) (tr : list (event T)) : Prop :=
    stale_trace v0 tr /\ Forall2 (fun t i => ordinal O t = Val i) (v0 :: written tr) cell.

  Lemma stale_snoc v0 tr (e : event T) : stale_trace v0 tr ->
    stale_result (v0 :: written tr) (ev_call e) (ev_out e) -> stale_trace v0 (tr ++ [e]).
  Proof.
    intros H He before x after E. destruct after as [|y after] using rev_ind.
    - apply app_inj_tail in E as [<- <-]. exact He.
    - rewrite app_comm_cons, app_assoc in E. apply app_inj_tail in E as [E _]. eapply H, E.
  Qed.

  Lemma Forall2_nth {A B} (P : A -> B -> Prop) la lb j a0 b0 : Forall2 P la lb -> P a0 b0 -> In a0 la ->
    exists a, In a la /\ P a (nth j lb b0).
  Proof.
    intros H H0 Hin. revert j. induction H as [|a b la lb Hab H IH] in Hin |- *; intros j.
    - destruct Hin.
    - destruct j as [|j]; [exists a; split; [left; reflexivity|exact Hab]|]. cbn [nth].
      destruct (Nat.ltb_spec j (length lb)) as [Hj|Hj].
      + destruct (nth_error lb j) as [x|] eqn:Ex.
        2:{ apply nth_error_None in Ex. lia. }
        rewrite (nth_error_nth _ _ _ Ex).
        clear IH Hin. revert j Hj Ex. induction H as [|a' b' la lb Hab' H IH]; intros [|j] Hj Ex; cbn in *; try lia; try discriminate.
        * injection Ex as <-. exists a'. auto.
        * destruct (IH j) as (y & [->|Hy] & Hp); [lia|exact Ex| |].
          -- exists y. auto.
          -- exists y. auto.
      + rewrite nth_overflow by exact Hj. exists a0. auto.
  Qed.

  Lemma weak_call v0 choice m tr c q k : weak_rel v0 m tr -> call_method O c = Val (q, k) ->
    if legal c
    then exists r m' o, weak_apply choice q m = (Val r, m') /\ k r = Val o /\
           forall i : nat, weak_rel v0 m' (tr ++ [(i, c, o)])
    else weak_apply choice q m = (Panic POrdering, m).
  Proof.
    intros (Htr & Hcell) Hm. destruct (method_of c) as (q' & k' & Hm' & Hill & Hk).
    rewrite Hm in Hm'. injection Hm' as <- <-. unfold weak_apply. rewrite Hill.
    destruct (legal c); cbn [negb]; [|reflexivity].
    assert (Hread : exists v, In v (v0 :: written tr) /\ ordinal O v = Val (nth choice m (hd 0 m))).
    { inversion Hcell as [|? i0 ? is H0 Hrest]; subst. cbn [hd].
      eapply (Forall2_nth choice Hcell); [exact H0|left; reflexivity]. }
    destruct Hread as (v & Hin & Hv).
    destruct (Hk _ _ Hv) as (Hk1 & Hk2).
    destruct (perform q (nth choice m (hd 0 m))) as [r w] eqn:Hperf. cbn [fst snd] in *.
    do 3 eexists. split; [reflexivity|]. split; [exact Hk1|]. intros i. split.
    - apply stale_snoc; [exact Htr|]. cbn [ev_call ev_out fst snd].
      destruct c as [o|t o|old new s f|]; cbn [reads stale_result fst].
      + exists v. auto.
      + reflexivity.
      + destruct (eqd v old) as [<-|Hne]; cbn [fst]; [left; auto|right; exists v; auto].
      + exists v. auto.
    - unfold written. rewrite flat_map_app. fold (written tr). cbn [flat_map ev_call ev_out fst snd].
      rewrite app_nil_r.
      destruct c as [o|t o|old new s f|]; cbn [reads fst snd] in *.
      + destruct w; [contradiction|]. rewrite app_nil_r. exact Hcell.
      + destruct w; [|contradiction]. rewrite app_comm_cons. apply Forall2_app; [exact Hcell|]. auto.
      + destruct (eqd v old) as [->|Hne]; cbn [fst snd] in *.
        * destruct w; [|contradiction]. rewrite app_comm_cons. apply Forall2_app; [exact Hcell|]. auto.
        * destruct w; [contradiction|]. rewrite app_nil_r. exact Hcell.
      + destruct w; [contradiction|]. rewrite app_nil_r. exact Hcell.
  Qed.

  Lemma weak_sound v0 cell progs s1 s2 : AtomicOrdinal_new O v0 = Val cell ->
    exists t1 t2 vs1 vs2,
      views (fst (execute O weak_apply progs [cell] s1)) = Some vs1 /\
      views (fst (execute O weak_apply progs [cell] (s1 ++ s2))) = Some vs2 /\
      stale_trace v0 t1 /\ explains progs t1 vs1 /\
      stale_trace v0 (t1 ++ t2) /\ explains progs (t1 ++ t2) vs2.
  Proof.
    intros Hnew.
    destruct (@execute_inv _ weak_apply (weak_rel v0) (weak_call (v0 := v0)) progs [cell] s1 s2)
      as (t1 & t2 & H1 & H2).
    { split; [|constructor; [exact Hnew|constructor]]. intros [|b before] e after E; discriminate E. }
    destruct (inv_explains H1) as (vs1 & V1 & X1). destruct (inv_explains H2) as (vs2 & V2 & X2).
    exists t1, t2, vs1, vs2. destruct H1 as ((R1 & _) & _), H2 as ((R2 & _) & _). auto 10.
  Qed.

  (** ** Calls without interference *)

  Lemma call_alone_legal c t i : ordinal O t = Val i -> legal c = true ->
    exists j, call_alone O c i = (Val (fst (reg_step eqd c t)), j) /\
      ordinal O (snd (reg_step eqd c t)) = Val j.
  Proof.
    intros Ht Hl. destruct (method_of c) as (q & k & Hm & Hill & Hk).
    unfold call_alone. rewrite Hm. unfold sc_apply. rewrite Hill, Hl. cbn [negb].
    destruct (Hk _ _ Ht) as (Hk1 & Hk2). rewrite reg_reads.
    destruct (perform q i) as [r w]. cbn [fst snd] in *. cbn [bind]. rewrite Hk1.
    eexists. split; [reflexivity|].
    destruct (snd (reads c t)), w; try contradiction; assumption.
  Qed.

  Lemma call_alone_illegal c i : legal c = false -> call_alone O c i = (Panic POrdering, i).
  Proof.
    intros Hl. destruct (method_of c) as (q & k & Hm & Hill & Hk).
    unfold call_alone. rewrite Hm. unfold sc_apply. rewrite Hill, Hl. reflexivity.
  Qed.

  Lemma legal_cases (c : call T) : legal c = false <->
    match c with
    | CLoad o => o = Release \/ o = AcqRel
    | CStore _ o => o = Acquire \/ o = AcqRel
    | CCas _ _ _ failure => failure = Release \/ failure = AcqRel
    | CDebug => False
    end.
  Proof.
    destruct c as [o|t o|old new s o|]; [destruct o..|]; cbn;
      (split; [intros H; try discriminate H; auto|intros H; try reflexivity; intuition discriminate]).
  Qed.

  Lemma panics_exactly c t i : ordinal O t = Val i ->
    ((exists why, fst (call_alone O c i) = Panic why) <->
     match c with
     | CLoad o => o = Release \/ o = AcqRel
     | CStore _ o => o = Acquire \/ o = AcqRel
     | CCas _ _ _ failure => failure = Release \/ failure = AcqRel
     | CDebug => False
     end) /\
    ((exists why, fst (call_alone O c i) = Panic why) -> snd (call_alone O c i) = i).
  Proof.
    intros Ht. rewrite <- legal_cases.
    assert (H : (exists why, fst (call_alone O c i) = Panic why) -> legal c = false).
    { intros (why & H). destruct (legal c) eqn:Hl; [|reflexivity].
      destruct (call_alone_legal Ht Hl) as (j & E & _). rewrite E in H. discriminate H. }
    split; [split; [exact H|]|].
    - intros Hl. rewrite (call_alone_illegal i Hl). eexists. reflexivity.
    - intros Hp. rewrite (call_alone_illegal i (H Hp)). reflexivity.
  Qed.

  (** ** Wait-freedom *)

  Section Progress.
    Context {Mem : Type} (apply : nat -> request -> Mem -> res response * Mem)
      (R : Mem -> list (event T) -> Prop).
    Hypothesis Hcall : forall choice m tr c q k, R m tr -> call_method O c = Val (q, k) ->
      if legal c
      then exists r m' o, apply choice q m = (Val r, m') /\ k r = Val o /\
             forall i : nat, R m' (tr ++ [(i, c, o)])
      else apply choice q m = (Panic POrdering, m).

    (** Steps a thread still has to make. *)
    Definition work (th : thread T) : nat :=
      (3 * length (t_todo th) + match t_phase th with PReady _ _ => 2 | PGot _ _ => 1 | _ => 0 end)%nat.

    Lemma step_work choice p tr th m i : R m tr -> thread_inv p (of_thread i tr) th ->
      Forall (fun c => legal c = true) p ->
      work (fst (thread_step O apply choice th m)) = Nat.pred (work th) /\
      (forall why, t_phase th <> PDead why).
    Proof.
      intros HR (Hp & Hleg & Hth) Hall. unfold thread_step, work.
      assert (Hnd : forall why, t_phase th <> PDead why).
      { intros why E. rewrite E in Hth. destruct Hth as (_ & c & Hb & Hc & _).
        rewrite Hp, Hb in Hall. rewrite !Forall_app in Hall. destruct Hall as [[_ Hall] _].
        inversion Hall. congruence. }
      split; [|exact Hnd].
      destruct (t_phase th) as [|q k|r k|w|] eqn:Hph.
      - destruct (t_todo th) as [|c todo] eqn:Htd.
        + cbn [fst]. rewrite Htd, Hph. reflexivity.
        + destruct (method_of c) as (q & k & Hm & _ & _). rewrite Hm. cbn. lia.
      - destruct Hth as (c & H1 & Hm & H2). pose proof (Hcall choice HR Hm) as Hc.
        assert (Hl : legal c = true).
        { rewrite Hp, H1, !Forall_app in Hall. destruct Hall as [[_ Hall] _]. inversion Hall. assumption. }
        rewrite Hl in Hc. destruct Hc as (r & m' & o & Ha & Hk & HR'). rewrite Ha. cbn. lia.
      - destruct Hth as (o & H1 & Hk & H2). rewrite Hk. cbn. lia.
      - destruct (Hnd w eq_refl).
      - destruct Hth.
    Qed.

    Lemma run_work progs sched i p : nth_error progs i = Some p ->
      Forall (fun c => legal c = true) p ->
      forall tr sys th, system_inv R progs tr sys -> nth_error (fst sys) i = Some th ->
      exists tr' th', system_inv R progs tr' (fold_left (system_step O apply) sched sys) /\
        nth_error (fst (fold_left (system_step O apply) sched sys)) i = Some th' /\
        (work th' = work th - turns i sched)%nat.
    Proof.
      intros Hp Hall. induction sched as [|[j choice] sched IH]; intros tr sys th Hsys Hth.
      - exists tr, th. split; [exact Hsys|]. split; [exact Hth|]. cbn. lia.
      - destruct (system_step_inv Hcall (j, choice) Hsys) as (evs & Hsys').
        destruct sys as [ths m]. cbn [fst] in Hth.
        assert (Hstep : exists th1, nth_error (fst (system_step O apply (ths, m) (j, choice))) i = Some th1 /\
                  (work th1 = work th - turns i [(j, choice)])%nat).
        { unfold system_step. cbn [fst snd]. destruct (nth_error ths j) as [thj|] eqn:Hj.
          - destruct (thread_step O apply choice thj m) as [th' m'] eqn:Hst. cbn [fst].
            rewrite nth_list_set, Hj. unfold turns. cbn [filter fst]. destruct (Nat.eqb_spec j i) as [->|Hne].
            + eexists. split; [reflexivity|]. assert (thj = th) by congruence. subst thj.
              destruct Hsys as (HR & _ & _ & Hinv). cbn [fst snd] in HR, Hinv.
              destruct (step_work choice HR (Hinv _ _ _ Hp Hth) Hall) as (Hw & _).
              rewrite Hst in Hw. cbn [fst] in Hw. cbn [length].
              match goal with |- ?a = _ => change a with (work th') end. rewrite Hw. lia.
            + exists th. split; [exact Hth|]. cbn. lia.
          - exists th. split; [exact Hth|]. unfold turns. cbn.
            destruct (Nat.eqb_spec j i) as [->|Hne]; [congruence|]. cbn. lia. }
        destruct Hstep as (th1 & Hth1 & Hw1).
        destruct (IH _ _ _ Hsys' Hth1) as (tr' & th' & H1 & H2 & H3).
        exists tr', th'. cbn [fold_left]. split; [exact H1|]. split; [exact H2|].
        rewrite H3, Hw1. unfold turns. cbn. destruct (Nat.eqb j i); cbn; lia.
    Qed.

    Lemma wait_free progs m0 sched i p : R m0 [] -> nth_error progs i = Some p ->
      Forall (fun c => legal c = true) p -> (3 * length p <= turns i sched)%nat ->
      exists vs w, views (fst (execute O apply progs m0 sched)) = Some vs /\
        nth_error vs i = Some w /\ v_begun w = p /\ length (v_returned w) = length p /\ v_panic w = None.
    Proof.
      intros HR Hp Hall Ht.
      assert (Hth : nth_error (fst (map (@thread_init T) progs, m0)) i = Some (thread_init p)).
      { cbn [fst]. rewrite nth_error_map, Hp. reflexivity. }
      destruct (run_work sched Hp Hall (init_inv progs HR) Hth) as (tr & th & Hsys & Hn & Hw).
      destruct (inv_explains Hsys) as (vs & Hvs & Hlen & _). exists vs.
      assert (Hview : t_begun th = p /\ length (t_returned th) = length p /\ t_phase th = PIdle).
      { destruct Hsys as (_ & _ & _ & Hinv).
        pose proof (Hinv _ _ _ Hp Hn) as (Hb & _ & Hph).
        unfold work in Hw. cbn in Hw.
        assert (Htodo : t_todo th = []) by (destruct (t_todo th); [reflexivity|cbn in Hw; lia]).
        rewrite Htodo, app_nil_r in Hb.
        destruct (t_phase th) as [|q k|r k|w|] eqn:E; try lia.
        - split; [congruence|]. destruct Hph as [H1 H2]. rewrite Hb, H1, H2, !map_length.
          split; reflexivity.
        - exfalso. destruct Hph as (_ & c & Hc & Hl & _). rewrite Hb, Hc in Hall.
          rewrite Forall_app in Hall. destruct Hall as [_ Hall]. inversion Hall. congruence. }
      destruct Hview as (H1 & H2 & H3).
      exists {| v_begun := t_begun th; v_returned := t_returned th; v_panic := None |}.
      split; [exact Hvs|]. split; [|auto].
      assert (Hsome : forall ths vs j th, views ths = Some vs -> nth_error ths j = Some th ->
                nth_error vs j = thread_view (T := T) th).
      { clear. induction ths as [|t ths IH]; intros vs j th E; [destruct j; discriminate|].
        cbn in E. destruct (thread_view t) eqn:Et; [|discriminate E].
        destruct (views ths) as [vs'|] eqn:Ev; [|discriminate E]. injection E as <-.
        destruct j as [|j]; cbn; [intros [= <-]; congruence|apply IH; reflexivity]. }
      rewrite (Hsome _ _ _ _ Hvs Hn). unfold thread_view. rewrite H3. reflexivity.
    Qed.
  End Progress.

  Lemma sc_wait_free v0 cell progs sched i p : AtomicOrdinal_new O v0 = Val cell ->
    nth_error progs i = Some p -> Forall (fun c => legal c = true) p ->
    (3 * length p <= turns i sched)%nat ->
    exists vs w, views (fst (execute O (fun _ => sc_apply) progs cell sched)) = Some vs /\
      nth_error vs i = Some w /\ v_begun w = p /\ length (v_returned w) = length p /\ v_panic w = None.
  Proof.
    intros Hnew. apply (@wait_free _ (fun _ => sc_apply) (sc_rel v0) (sc_call (v0 := v0))).
    split; [reflexivity|exact Hnew].
  Qed.

  Lemma weak_wait_free v0 cell progs sched i p : AtomicOrdinal_new O v0 = Val cell ->
    nth_error progs i = Some p -> Forall (fun c => legal c = true) p ->
    (3 * length p <= turns i sched)%nat ->
    exists vs w, views (fst (execute O weak_apply progs [cell] sched)) = Some vs /\
      nth_error vs i = Some w /\ v_begun w = p /\ length (v_returned w) = length p /\ v_panic w = None.
  Proof.
    intros Hnew. apply (@wait_free _ weak_apply (weak_rel v0) (weak_call (v0 := v0))).
    split; [|constructor; [exact Hnew|constructor]]. intros [|b before] e after E; discriminate E.
  Qed.
End Proofs.
