(** * LifeProofs5: lemmas for C109. *)
From Verif Require Import Base Spec SpecIter SpecMap SpecTotal SpecCatch SpecResume SpecDrop SpecLifeRun ModelOrdinal ModelValues ModelArrayBuilder
  ModelIter ModelTotal ModelMap ModelResume ModelUnwind ModelDrop MapMachine TotalMachine ModelCatch ModelLife
  OrdinalProofs BaseProofs IterLib IterProofs MapIterProofs MapLib ArrayProofs MapMutProofs MapProofs MapProofs2 MapProofs5 TotalProofs TotalProofs3 ResumeProofs UnwindProofs2 DropProofs
  CatchProofs CatchProofs2.
From Coq Require Import List. Import ListNotations.
Set Implicit Arguments. Unset Strict Implicit.

Definition ends_as {A} (x : option (seen A)) : ending A :=
  match x with Some (Seen o) => Ended o | Some (Caught w) => Unwinds w | None => Aborts end.

(** ** Simulation *)
Section Simulation.
  Context {Op M S Out V : Type} (step : Op -> act (list V * M) Out) (spec : Op -> list V * S -> (list V * S) * option (seen Out)).
  Context (rep : M -> S -> Prop) (ok : Op -> Prop).
  Definition follows (op : Op) : Prop := forall log m s, rep m s ->
    exists m', step op (log, m) = ((fst (fst (spec op (log, s))), m'), ends_as (snd (spec op (log, s)))) /\
      (snd (spec op (log, s)) <> None -> rep m' (snd (fst (spec op (log, s))))).
  Context (H : forall op, ok op -> follows op).

  Lemma follows_run ops : Forall ok ops -> forall log m s, rep m s ->
    match life_run spec ops (log, s) with
    | Some (outs, (log', s')) => exists m', catch_run step ops (log, m) = Some (outs, (log', m')) /\ rep m' s'
    | None => exists ops1 op ops2 outs t, ops = ops1 ++ op :: ops2 /\ catch_run step ops1 (log, m) = Some (outs, t) /\
        snd (step op t) = Aborts
    end.
  Proof.
    induction 1 as [|op ops Ho _ IH]; intros log m s R; cbn [life_run catch_run].
    - exists m. auto.
    - destruct (H Ho log R) as (m' & E & R'). destruct (spec op (log, s)) as [[log1 s1] x]. cbn [fst snd] in *.
      destruct x as [o|].
      + specialize (IH log1 m' s1 (R' ltac:(discriminate))). rewrite E.
        destruct (life_run spec ops (log1, s1)) as [[outs [log2 s2]]|]; cbn [opt_map].
        * destruct IH as (m2 & E2 & R2). exists m2. rewrite E2. destruct o; auto.
        * destruct IH as (ops1 & op2 & ops2 & outs & t & -> & E2 & A).
          exists (op :: ops1), op2, ops2, (o :: outs), t. cbn [catch_run]. rewrite E, E2. destruct o; auto.
      + exists [], op, ops, [], (log, m). rewrite E. auto.
  Qed.
End Simulation.

(** ** Destructors *)
Section Glue.
  Context {V M : Type} (boom : list V -> V -> option panic).

  Lemma destroy_is v (log : list V) (m : M) : destroy boom v (log, m) =
    ((log ++ [v], m), match boom log v with None => Ended tt | Some w => Unwinds w end).
  Proof. unfold destroy, destructor. destruct (boom log v); reflexivity. Qed.
  Lemma glue_unwinding_is w vs : forall (log : list V) (m : M),
    glue_unwinding boom vs (log, m) = ((fst (destroyed_all boom (Some w) log vs), m),
      match snd (destroyed_all boom (Some w) log vs) with Some _ => Ended tt | None => Aborts end) /\
    (snd (destroyed_all boom (Some w) log vs) <> None -> snd (destroyed_all boom (Some w) log vs) = Some (Some w)).
  Proof.
    induction vs as [|v vs IH]; intros log m; cbn [glue_unwinding destroyed_all]; [split; reflexivity|].
    rewrite destroy_is. destruct (boom log v); [split; [reflexivity|]; intros []; reflexivity|]. apply IH.
  Qed.
  Lemma glue_is vs : forall (log : list V) (m : M),
    glue boom vs (log, m) = ((fst (destroyed_all boom None log vs), m),
      match snd (destroyed_all boom None log vs) with Some None => Ended tt | Some (Some w) => Unwinds w | None => Aborts end).
  Proof.
    induction vs as [|v vs IH]; intros log m; cbn [glue destroyed_all]; [reflexivity|].
    rewrite destroy_is. destruct (boom log v) as [w|]; [|apply IH]. unfold abind.
    destruct (@glue_unwinding_is w vs (log ++ [v]) m) as [-> Q].
    destruct (snd (destroyed_all boom (Some w) (log ++ [v]) vs)) as [p|]; [|reflexivity].
    specialize (Q ltac:(discriminate)). injection Q as ->. reflexivity.
  Qed.
  Lemma owning_caught A vs w (x : act (list V * M) A) log m log' m' : x (log, m) = ((log', m'), Unwinds w) ->
    owning boom vs x (log, m) = ((fst (destroyed_all boom (Some w) log' vs), m'),
      match snd (destroyed_all boom (Some w) log' vs) with Some _ => Unwinds w | None => Aborts end).
  Proof.
    intros E. unfold owning. rewrite E. unfold abind. destruct (@glue_unwinding_is w vs log' m') as [-> _].
    destruct (snd (destroyed_all boom (Some w) log' vs)); reflexivity.
  Qed.
  Lemma owning_ended A vs (x : act (list V * M) A) s s' a : x s = (s', Ended a) -> owning boom vs x s = (s', Ended a).
  Proof. intros E. unfold owning. now rewrite E. Qed.
  Lemma calm_is A (x : act M A) (log : list V) m m' e : x m = (m', e) -> calm x (log, m) = ((log, m'), e).
  Proof. intros E. unfold calm. now rewrite E. Qed.
End Glue.

(** ** Lawful keys *)
Section Lawful.
  Context {cfg : Config} {K V : Type} (boom : list V -> V -> option panic) (O : Ordinal K).
  Context (n : N) (HO : ordinal_bijection O n).
  Context (eqd : forall a b : K, {a = b} + {a <> b}).
  Context (ks : list K) (He : enumeration O ks).
  Implicit Types m : pmap K V.

  Lemma same_version : panicking_version O O.
  Proof. repeat split. intros k. now left. Qed.

  Lemma drain_destroy_ok ks' m fuel : forall log (d : @Drain V) rest, drained O n ks' m d rest -> (length rest < fuel)%nat ->
    exists d', drain_destroy boom O fuel (log, d) =
      ((fst (fst (destroyed_until boom log rest)), d'),
       match snd (destroyed_until boom log rest) with None => Ended tt | Some w => Unwinds w end) /\
      drained O n ks' m d' (snd (fst (destroyed_until boom log rest))).
  Proof.
    induction fuel as [|fuel IH]; intros log d rest H Hf; [lia|]. cbn [drain_destroy].
    destruct (drain_refines HO Front H) as (d1 & E & H1). rewrite drain_agree in E. unfold forget in E.
    destruct (drain_resume_step (pure_from O) Front (tt, d)) as [[u1 d2] r]. cbn [fst snd] in E.
    destruct r as [o| | | |]; cbn [bind] in E; try discriminate E. injection E as -> ->.
    destruct rest as [|[k v] rest]; cbn [deque_step fst snd destroyed_until] in *; [eauto|].
    unfold abind. rewrite destroy_is. destruct (boom log v) as [w|]; cbn [fst snd]; [eauto|].
    apply IH; [exact H1|cbn in Hf; lia].
  Qed.

  Lemma drain_life_ok ks' m sched leak log : key_slots O n ks' ->
    let st := map m ks' in
    let '(got, rest) := deque_run sched (pm_entries ks' m) in
    exists rest' log' e, drain_life boom O sched leak (log, st) = ((log', map (pm_restrict eqd m (map fst rest')) ks'), e) /\
      (if leak then rest' = rest /\ log' = log /\ e = Ended (OutEntries got)
       else let '(log1, rest1, p) := destroyed_until boom log rest in rest' = rest1 /\
         match p with
         | None => log' = log1 /\ e = Ended (OutEntries got)
         | Some w => let '(log2, x) := destroyed_all boom (Some w) log1 (map snd (somes got)) in
                     log' = log2 /\ e = match x with Some _ => Unwinds w | None => Aborts end
         end).
  Proof.
    intros Hk st. unfold st, drain_life.
    destruct (@drive_refines _ _ _ _ (@drain_refines _ _ _ _ HO ks' V m) sched _ _ (drained_init Hk m)) as (d & E & Hd).
    replace (Drain_new (map m ks') (TIterMut_new (slots (length (map m ks')))))
      with (map m ks', {| e_next := 0; e_items := slots (length ks') |}) by (rewrite map_length; reflexivity).
    rewrite drain_calls_agree in E.
    destruct (drain_calls (pure_from O) sched _) as [[got0 [u0 d0]] r].
    destruct r as [[]| | | |]; cbn [bind] in E; try discriminate E. injection E as -> ->.
    destruct (deque_run sched (pm_entries ks' m)) as [got rest]. cbn [fst snd] in *.
    destruct leak.
    - exists rest, log, (Ended (OutEntries got)). rewrite (drained_storage Hk eqd Hd). auto.
    - assert (Hf : (length rest < Datatypes.S (length (e_items (snd d))))%nat).
      { pose proof (drained_len Hd) as L. unfold TIterMut_len, enumerate_len, llen in L. lia. }
      destruct (drain_destroy_ok log Hd Hf) as (d1 & E1 & H1). rewrite E1.
      destruct (destroyed_until boom log rest) as [[log1 rest1] p]. cbn [fst snd] in *.
      rewrite (drained_storage Hk eqd H1). destruct p as [w|].
      + erewrite owning_caught by reflexivity.
        destruct (destroyed_all boom (Some w) log1 (map snd (somes got))) as [log2 x]. cbn [fst snd].
        exists rest1, log2, (match x with Some _ => Unwinds w | None => Aborts end). auto.
      + erewrite owning_ended by reflexivity. exists rest1, log1, (Ended (OutEntries got)). auto.
  Qed.

  Lemma stored_entries ks' m : stored (map m ks') = map snd (pm_entries ks' m).
  Proof. induction ks' as [|k l IH]; [reflexivity|]. cbn. destruct (m k); cbn; now rewrite IH. Qed.
  Lemma restrict_all m l : (forall k, m k <> None -> In k l) -> forall k, pm_restrict eqd m l k = m k.
  Proof.
    intros H k. unfold pm_restrict, mem. destruct (in_dec eqd k l); [reflexivity|].
    destruct (m k) eqn:E; [|reflexivity]. elim n0. apply H. congruence.
  Qed.

  (** *** OrdinalMap *)
  Lemma restrict_rep ks' m l : covers O n ks' m -> ks' = ks \/ ks' = [] -> heap_rep O n ks (map (pm_restrict eqd m l) ks') (pm_restrict eqd m l).
  Proof.
    intros [H1 H2] H3. exists ks'. split; [reflexivity|]. split; [|exact H3]. split; [exact H1|]. intros k Hk. apply H2.
    unfold pm_restrict in Hk. destruct (mem eqd k l); congruence.
  Qed.

  Lemma heap_drain_life sched leak log (st : @OrdinalMap V) m : heap_rep O n ks st m ->
    let '(got, rest) := deque_run sched (pm_entries ks m) in
    exists rest' log' st' e, drain_life boom O sched leak (log, st) = ((log', st'), e) /\
      heap_rep O n ks st' (pm_restrict eqd m (map fst rest')) /\
      (if leak then rest' = rest /\ log' = log /\ e = Ended (OutEntries got)
       else let '(log1, rest1, p) := destroyed_until boom log rest in rest' = rest1 /\
         match p with
         | None => log' = log1 /\ e = Ended (OutEntries got)
         | Some w => let '(log2, x) := destroyed_all boom (Some w) log1 (map snd (somes got)) in
                     log' = log2 /\ e = match x with Some _ => Unwinds w | None => Aborts end
         end).
  Proof.
    intros (ks' & -> & Hc & H3). pose proof (drain_life_ok m sched leak log (proj1 Hc)) as D. cbn zeta in D.
    rewrite (rep_entries Hc H3) in D. destruct (deque_run sched (pm_entries ks m)) as [got rest].
    destruct D as (rest' & log' & e & E & D). exists rest', log', (map (pm_restrict eqd m (map fst rest')) ks'), e.
    split; [exact E|]. split; [now apply restrict_rep|exact D].
  Qed.

  (** *** OrdinalArrayMap *)
  Let Hks : key_slots O n ks := ks_slots HO He.
  Definition retain_end (p : option panic) : res unit := match p with None => Val tt | Some w => Panic w end.
  Lemma retain_loop_life f kmid : forall kpre m it log fuel,
    ks = kpre ++ kmid -> pending O n it (kslots (length kpre) kmid) -> (length kmid < fuel)%nat ->
    OrdinalArrayMap_retain_loop_with O (@retain_destroy V boom K) (retain_calls f) fuel (map m ks) it log =
      let '(log', m', p) := retain_until boom eqd f log (pm_entries kmid m) m in (log', map m' ks, retain_end p).
  Proof.
    assert (Hnd : NoDup ks) by (destruct Hks as [Hn _]; exact (numbered_NoDup Hn)).
    induction kmid as [|k kmid IH]; intros kpre m it log fuel E H Hfu;
      (destruct fuel as [|fuel]; [cbn in Hfu; lia|]); cbn [OrdinalArrayMap_retain_loop_with]; unfold TIterMut_step;
      destruct (enumerate_refines HO Front H) as (it' & E1 & H'); rewrite E1.
    - cbn [kslots slots_from length seq map combine deque_step fst snd pm_entries]. reflexivity.
    - rewrite kslots_cons in *. cbn [deque_step fst snd] in *.
      assert (Hk : ordinal O k = Val (N.of_nat (length kpre))).
      { destruct Hks as [Hn _]. assert (Ek : nth_error ks (length kpre) = Some k) by (rewrite E; apply nth_error_app_at).
        rewrite (numbered_nth Hn Ek). f_equal. }
      assert (Hlt : N.of_nat (length kpre) < llen ks).
      { unfold llen. rewrite E, app_length. cbn [length]. lia. }
      rewrite (at_deref HO Hks m Hk Hlt).
      assert (E' : ks = (kpre ++ [k]) ++ kmid) by (rewrite E, <- app_assoc; reflexivity).
      assert (H2 : pending O n it' (kslots (length (kpre ++ [k])) kmid)).
      { rewrite app_length. cbn [length]. rewrite Nat.add_1_r. exact H'. }
      assert (Hk' : forall x, In x kmid -> k <> x).
      { intros x Hx ->. rewrite E in Hnd. apply nodup_app_r in Hnd. inversion Hnd; contradiction. }
      assert (Hent : forall o, pm_entries kmid (pm_set eqd m k o) = pm_entries kmid m).
      { intros o. apply pm_entries_ext. intros x Hx. apply pm_set_other. now apply Hk'. }
      assert (Hfu' : (length kmid < fuel)%nat) by (cbn in Hfu; lia).
      cbn [pm_entries]. destruct (m k) as [v|] eqn:Em.
      + unfold retain_calls at 1. cbn [retain_until]. destruct (f k v) as [v' b] eqn:Ef.
        rewrite (at_store HO eqd Hks m Hk Hlt). destruct b.
        * rewrite (IH (kpre ++ [k]) (pm_set eqd m k (Some v')) it' log fuel E' H2 Hfu'), Hent. reflexivity.
        * rewrite (at_store HO eqd Hks _ Hk Hlt).
          assert (Eq : map (pm_set eqd (pm_set eqd m k (Some v')) k None) ks = map (pm_set eqd m k None) ks).
          { apply map_ext. intros x. unfold pm_set. destruct (eqd k x); reflexivity. }
          rewrite Eq. unfold retain_destroy at 1, destructor. cbn [snd]. destruct (boom log v') as [w|]; [reflexivity|].
          rewrite (IH (kpre ++ [k]) (pm_set eqd m k None) it' _ fuel E' H2 Hfu'), Hent. reflexivity.
      + apply (IH (kpre ++ [k]) m it' log fuel E' H2 Hfu').
  Qed.
End Lawful.

Section Versions.
  Context {cfg : Config} {K V : Type} (boom : list V -> V -> option panic) (O O0 : Ordinal K) (HP : panicking_version O O0).
  Context (n : N) (HO : ordinal_bijection O0 n).
  Context (eqd : forall a b : K, {a = b} + {a <> b}).
  Context (ks : list K) (He : enumeration O0 ks).

  Lemma key_panic_cases key : (exists k w, key = Some k /\ ordinal O k = Panic w /\ key_panic O key = Some w) \/
    (forall k, key = Some k -> ordinal O k = ordinal O0 k) /\ key_panic O key = None.
  Proof.
    destruct key as [k|]; [|right; split; [discriminate|reflexivity]]. unfold key_panic.
    destruct (proj2 (proj2 HP) k) as [E|(w & E)].
    - right. split; [intros ? [= <-]; exact E|]. rewrite E. destruct (bij_to HO k) as (i & -> & _). reflexivity.
    - left. exists k, w. rewrite E. auto.
  Qed.

  (** *** OrdinalMap *)
  Lemma heap_life_same op s : (forall k, map_key op = Some k -> ordinal O k = ordinal O0 k) ->
    heap_life boom O op s = heap_life (V := V) boom O0 op s.
  Proof.
    intros H. pose proof (version_init (V := V) HP) as Hi. destruct s as [log m].
    destruct op; cbn [map_key] in H; try specialize (H _ eq_refl); cbn [heap_life];
      unfold calm, owning, assign_life, heap_act, OrdinalMap_insert_act, OrdinalMap_entry_act, OrdinalMap_remove_act, OrdinalMap_init_full_map_act,
        replaces, heap_step, OrdinalMap_insert, OrdinalMap_get, OrdinalMap_get_mut, OrdinalMap_contains_key, OrdinalMap_remove, OrdinalMap_entry,
        calm, abind, look;
      rewrite ?Hi, ?H; try reflexivity; clear H Hi;
      destruct HP as (Hs & Hf & _); clear HP HO He; destruct O as [s1 o1 f1], O0 as [s2 o2 f2]; cbn in *; subst; reflexivity.
  Qed.
  Lemma heap_ended op (st : @OrdinalMap V) m : heap_op op = true -> heap_rep O0 n ks st m ->
    exists st', heap_act O0 op st = (st', Ended (fst (spec_step eqd ks op m))) /\ heap_rep O0 n ks st' (snd (spec_step eqd ks op m)).
  Proof.
    intros Hop H. apply andb_prop in Hop as [H1 H2]. destruct (heap_step_ok HO eqd He H1 H2 H) as (st' & E & H').
    exists st'. split; [|exact H']. now apply (heap_erases O0 op st).
  Qed.
  Lemma heap_caught op k w (st : @OrdinalMap V) m : heap_op op = true -> heap_rep O0 n ks st m -> map_key op = Some k -> ordinal O k = Panic w ->
    exists st', heap_act O op st = (st', Unwinds w) /\ heap_rep O0 n ks st' m.
  Proof.
    intros Hop H Ek Ew. destruct (heap_catch_step HP HO eqd He Hop H) as [(st' & _ & Hr & _)|(st' & w' & E & Hw & H')].
    - exfalso. rewrite Ek in Hr. cbn in Hr. destruct Hr as (i & Ei). congruence.
    - exists st'. rewrite Ek in Hw. cbn in Hw. assert (w' = w) as -> by congruence. auto.
  Qed.

  Ltac plain E := eexists; split; [apply calm_is; exact E|intros _; assumption].

  Lemma heap_follows op : heap_op op = true ->
    follows (heap_life boom O) (life_step boom eqd ks O) (heap_rep O0 n ks) op.
  Proof.
    intros Hop log st m H. unfold life_step. destruct (key_panic_cases (map_key op)) as [(k & w & Ek & Ew & ->)|[Hs ->]].
    - destruct (heap_caught Hop H Ek Ew) as (st' & E & H').
      destruct op; cbn [map_key] in Ek; try discriminate Ek; injection Ek as ->; cbn [heap_life no_key_step];
        try (plain E).
      + rewrite (owning_caught boom [v] (calm_is log E)). eexists.
        destruct (destroyed_all boom (Some w) log [v]) as [log' x]. cbn [fst snd]. split; [destruct x; reflexivity|auto].
      + destruct (@heap_caught (OpEntryDrop k) k w st m eq_refl H eq_refl Ew) as (st1 & E1 & H1).
        cbn [heap_act] in E1. unfold abind in E1. destruct (OrdinalMap_entry_act O k st) as [st2 e2] eqn:E2.
        exists st1. split; [|intros _; exact H1]. unfold abind at 1. rewrite (calm_is log E2).
        destruct e2; cbn in E1; try discriminate E1. injection E1 as -> ->. reflexivity.
    - rewrite (heap_life_same (log, st) Hs). unfold key_step.
      destruct (heap_ended Hop H) as (st' & E & H'). destruct op; cbn [heap_life]; try discriminate Hop;
        try (destruct (spec_step eqd ks _ m) as [o m']; cbn [fst snd ends_as] in *; plain E).
      + destruct (spec_step eqd ks _ m) as [o m']; cbn [fst snd ends_as] in *. eexists. split; [|intros _; exact H'].
        apply owning_ended. now apply calm_is.
      + (* clear *)
        cbn [spec_step]. pose proof (heap_drain_life boom HO eqd [] false log H) as D. cbn [deque_run] in D.
        destruct D as (rest' & log' & st1 & e & E1 & R & D). unfold clear_life, abind. rewrite E1.
        destruct (destroyed_until boom log (pm_entries ks m)) as [[log1 rest1] p]. cbn [fst snd].
        destruct D as [-> D]. destruct p as [w|]; cbn in D; destruct D as [-> ->]; exists st1; split; auto.
      + (* drain *)
        cbn [spec_step]. pose proof (heap_drain_life boom HO eqd sched leak log H) as D.
        destruct (deque_run sched (pm_entries ks m)) as [got rest]. destruct D as (rest' & log' & st1 & e & E1 & R & D).
        rewrite E1. exists st1. destruct leak.
        * destruct D as (-> & -> & ->). split; auto.
        * destruct (destroyed_until boom log rest) as [[log1 rest1] p]. destruct D as [-> D]. destruct p as [w|].
          -- destruct (destroyed_all boom (Some w) log1 (map snd (somes got))) as [log2 x]. destruct D as [-> ->]. cbn [fst snd].
             split; [destruct x; reflexivity|auto].
          -- destruct D as [-> ->]. split; auto.
      + (* or_insert *)
        destruct (@heap_ended (OpEntryDrop k) st m eq_refl H) as (st1 & E1 & H1). cbn [spec_step snd fst] in H1, E1.
        cbn [heap_act] in E, E1. unfold abind in E1, E. destruct (OrdinalMap_entry_act O0 k st) as [st2 e2] eqn:E2.
        destruct e2 as [e2| | |]; cbn in E1; try discriminate E1. injection E1 as -> E1.
        unfold abind at 1. rewrite (calm_is log E2). unfold or_insert_life.
        unfold replaces, abind, look, entry_or_insert in E. unfold owning, calm, abind, look, replaces.
        destruct (Entry_or_insert st1 e2 v) as [[i st3]| | | |] eqn:E3; cbn in E |- *; try discriminate E.
        destruct e2 as [oe|ve]; rewrite <- E1.
        * assert (st3 = st1) as ->.
          { revert E3. cbn [Entry_or_insert]. destruct (deref st1 _) as [o| | | |]; cbn; try discriminate.
            destruct o; cbn; try discriminate. now intros [= _ <-]. }
          unfold destroy, destructor. destruct (boom log v) as [w1|]; cbn; [eauto|].
          destruct (deref st1 i) as [cur| | | |]; cbn in E |- *; try discriminate E.
          destruct (write_some st1 i w) as [st4| | | |]; cbn in E |- *; try discriminate E. injection E as <- E.
          exists st4. rewrite E. auto.
        * cbn. destruct (deref st3 i) as [cur| | | |]; cbn in E |- *; try discriminate E.
          destruct (write_some st3 i w) as [st4| | | |]; cbn in E |- *; try discriminate E. injection E as <- E.
          exists st4. rewrite E. auto.
      + (* clone *)
        cbn [spec_step] in *. unfold assign_life. unfold calm, abind, look, put, ret. cbn [heap_step ending_of].
        cbn [heap_act] in E. unfold replaces, abind, look, put, ret in E. cbn in E. injection E as E.
        rewrite glue_is. destruct H as (ks' & -> & Hc & H3). rewrite stored_entries, (rep_entries Hc H3).
        destruct (destroyed_all boom None log (map snd (pm_entries ks m))) as [log' x]. cbn [fst snd] in *.
        eexists. split; [destruct x as [[]|]; reflexivity|]. intros _. rewrite E. exact H'.
  Qed.

  (** *** OrdinalArrayMap *)
  Section Arrays.
  Context (S : nat).
  Local Notation amap := (@OrdinalArrayMap V S).
  Lemma array_life_same op (s : list V * amap) : (forall k, map_key op = Some k -> ordinal O k = ordinal O0 k) ->
    array_life boom O op s = array_life (V := V) boom O0 op s.
  Proof.
    intros H. destruct s as [log m].
    destruct op; cbn [map_key] in H; try specialize (H _ eq_refl); cbn [array_life];
      unfold calm, owning, assign_life, array_act, OrdinalArrayMap_insert_act, OrdinalArrayMap_entry_act, OrdinalArrayMap_remove_act,
        replaces, array_step, OrdinalArrayMap_insert, OrdinalArrayMap_contains_key, OrdinalArrayMap_remove, OrdinalArrayMap_entry,
        OrdinalArrayMap_get, OrdinalArrayMap_get_mut,
        OrdinalTotalArrayMap_get, OrdinalTotalArrayMap_index_mut, OrdinalTotalArrayMap_get_mut, calm, abind, look;
      rewrite ?H; try reflexivity; clear H;
      destruct HP as (Hs & Hf & _); clear HP HO He; destruct O as [s1 o1 f1], O0 as [s2 o2 f2]; cbn in *; subst; reflexivity.
  Qed.
  Lemma array_ended op (a : amap) m : array_rep ks a m ->
    exists a', array_act O0 op a = (a', Ended (fst (spec_step eqd ks op m))) /\ array_rep ks a' (snd (spec_step eqd ks op m)).
  Proof.
    intros H. destruct (array_step_ok HO eqd He op H) as (a' & E & H').
    exists a'. split; [|exact H']. now apply (array_erases O0 op a).
  Qed.
  Lemma array_caught op k w (a : amap) m : array_rep ks a m -> map_key op = Some k -> ordinal O k = Panic w ->
    exists a', array_act O op a = (a', Unwinds w) /\ array_rep ks a' m.
  Proof.
    intros H Ek Ew. destruct (array_catch_step HP HO eqd He op H) as [(st' & _ & Hr & _)|(st' & w' & E & Hw & H')].
    - exfalso. rewrite Ek in Hr. cbn in Hr. destruct Hr as (i & Ei). congruence.
    - exists st'. rewrite Ek in Hw. cbn in Hw. assert (w' = w) as -> by congruence. auto.
  Qed.
  Lemma slots_life {A} (f : act (list V * list (option V)) A) log (a : amap) m log' m' e : array_rep ks a m ->
    f (log, map m ks) = ((log', map m' ks), e) -> exists a', on_slots_life f (log, a) = ((log', a'), e) /\ array_rep ks a' m'.
  Proof.
    intros H E. unfold on_slots_life. unfold array_rep in H. rewrite H, E.
    destruct (@try_arr_ok (option V) S (map m' ks)) as (a' & Et & El).
    { rewrite map_length. rewrite <- (map_length m ks). rewrite <- H. apply arr_length. }
    rewrite Et. exists a'. auto.
  Qed.

  Lemma array_follows op : follows (array_life boom O (S := S)) (life_step boom eqd ks O) (array_rep ks (S := S)) op.
  Proof.
    intros log a m H. unfold life_step. destruct (key_panic_cases (map_key op)) as [(k & w & Ek & Ew & ->)|[Hs ->]].
    - destruct (array_caught H Ek Ew) as (a' & E & H').
      destruct op; cbn [map_key] in Ek; try discriminate Ek; injection Ek as ->; cbn [array_life no_key_step];
        try (plain E).
      + rewrite (owning_caught boom [v] (calm_is log E)). eexists.
        destruct (destroyed_all boom (Some w) log [v]) as [log' x]. cbn [fst snd]. split; [destruct x; reflexivity|auto].
      + destruct (@array_caught (OpEntryDrop k) k w a m H eq_refl Ew) as (a1 & E1 & H1).
        cbn [array_act] in E1. unfold abind in E1. destruct (OrdinalArrayMap_entry_act O k a) as [a2 e2] eqn:E2.
        exists a1. split; [|intros _; exact H1]. unfold abind at 1. rewrite (calm_is log E2).
        destruct e2; cbn in E1; try discriminate E1. injection E1 as -> ->. reflexivity.
    - rewrite (array_life_same (log, a) Hs). unfold key_step.
      destruct (array_ended op H) as (a' & E & H'). destruct op; cbn [array_life];
        try (destruct (spec_step eqd ks _ m) as [o m']; cbn [fst snd ends_as] in *; plain E).
      + destruct (spec_step eqd ks _ m) as [o m']; cbn [fst snd ends_as] in *. eexists. split; [|intros _; exact H'].
        apply owning_ended. now apply calm_is.
      + (* clear *)
        cbn [spec_step]. pose proof (drain_life_ok boom HO eqd m [] false log (ks_slots HO He)) as D. cbn zeta in D. cbn [deque_run] in D.
        destruct D as (rest' & log' & e & E1 & D).
        assert (Ec : clear_life boom O0 (log, map m ks) =
          ((log', map (pm_restrict eqd m (map fst rest')) ks), match e with Ended _ => Ended OutUnit | Unwinds w => Unwinds w | Aborts => Aborts | Stuck => Stuck end)).
        { unfold clear_life, abind. rewrite E1. destruct e; reflexivity. }
        destruct (slots_life H Ec) as (a1 & Ea & Ra). rewrite Ea. exists a1.
        destruct (destroyed_until boom log (pm_entries ks m)) as [[log1 rest1] p]. cbn [fst snd].
        destruct D as [-> D]. destruct p as [w|]; cbn in D; destruct D as [-> ->]; split; auto.
      + (* drain *)
        cbn [spec_step]. pose proof (drain_life_ok boom HO eqd m sched leak log (ks_slots HO He)) as D. cbn zeta in D.
        destruct (deque_run sched (pm_entries ks m)) as [got rest]. destruct D as (rest' & log' & e & E1 & D).
        destruct (slots_life H E1) as (a1 & Ea & Ra). rewrite Ea. exists a1. destruct leak.
        * destruct D as (-> & -> & ->). split; auto.
        * destruct (destroyed_until boom log rest) as [[log1 rest1] p]. destruct D as [-> D]. destruct p as [w|].
          -- destruct (destroyed_all boom (Some w) log1 (map snd (somes got))) as [log2 x]. destruct D as [-> ->]. cbn [fst snd].
             split; [destruct x; reflexivity|auto].
          -- destruct D as [-> ->]. split; auto.
      + (* or_insert *)
        destruct (@array_ended (OpEntryDrop k) a m H) as (a1 & E1 & H1). cbn [spec_step snd fst] in H1, E1.
        cbn [array_act] in E, E1. unfold abind in E1, E. destruct (OrdinalArrayMap_entry_act O0 k a) as [a2 e2] eqn:E2.
        destruct e2 as [e2| | |]; cbn in E1; try discriminate E1. injection E1 as -> E1.
        unfold abind at 1. rewrite (calm_is log E2). unfold on_slots in E.
        unfold on_slots_life, or_insert_life.
        unfold replaces, abind, look, entry_or_insert in E. unfold owning, calm, abind, look, replaces.
        destruct (Entry_or_insert (arr_list a1) e2 v) as [[i st3]| | | |] eqn:E3; cbn in E |- *;
          try (destruct (try_arr S (arr_list a1)); discriminate E).
        destruct e2 as [oe|ve]; rewrite <- E1.
        * assert (st3 = arr_list a1) as ->.
          { revert E3. cbn [Entry_or_insert]. destruct (deref (arr_list a1) _) as [o| | | |]; cbn; try discriminate.
            destruct o; cbn; try discriminate. now intros [= _ <-]. }
          unfold destroy, destructor. destruct (boom log v) as [w1|]; cbn.
          -- destruct (@try_arr_ok (option V) S (arr_list a1) (arr_length a1)) as (a3 & Et & El). rewrite Et.
             exists a3. split; [reflexivity|]. intros _. unfold array_rep. rewrite El. exact H1.
          -- destruct (deref (arr_list a1) i) as [cur| | | |]; cbn in E |- *; try (destruct (try_arr S (arr_list a1)); discriminate E).
             destruct (write_some (arr_list a1) i w) as [st4| | | |]; cbn in E |- *; try (destruct (try_arr S (arr_list a1)); discriminate E).
             destruct (try_arr S st4) as [a4|]; [|discriminate E]. injection E as -> ->. exists a'. split; [reflexivity|auto].
        * cbn. destruct (deref st3 i) as [cur| | | |]; cbn in E |- *; try (destruct (try_arr S (arr_list a1)); discriminate E).
          destruct (write_some st3 i w) as [st4| | | |]; cbn in E |- *; try (destruct (try_arr S (arr_list a1)); discriminate E).
          destruct (try_arr S st4) as [a4|]; [|discriminate E]. injection E as -> ->. exists a'. split; [reflexivity|auto].
      + (* retain *)
        cbn [spec_step]. unfold retain_life, OrdinalArrayMap_retain_with, OrdinalTotalArrayMap_iter_mut. pose proof H as Ea.
        unfold array_rep in Ea. rewrite Ea, map_length. unfold TIterMut_new, enumerate_new.
        rewrite (@retain_loop_life _ _ _ boom O0 n HO eqd ks He f ks [] m _ log (Datatypes.S (length ks)) eq_refl
          (pending_slots (ks_slots HO He))) by lia.
        destruct (retain_until boom eqd f log (pm_entries ks m) m) as [[log' m'] p].
        destruct (@try_arr_ok (option V) S (map m' ks)) as (a1 & Et & El).
        { rewrite map_length. rewrite <- (map_length m ks). rewrite <- Ea. apply arr_length. }
        rewrite Et. exists a1. split; [destruct p; reflexivity|]. intros _. exact El.
      + (* clone *)
        cbn [spec_step] in *. unfold assign_life. unfold calm, abind, look, put, ret. cbn [array_step ending_of].
        cbn [array_act] in E. unfold replaces, abind, look, put, ret in E. cbn in E. injection E as E.
        rewrite glue_is. unfold array_rep in H. rewrite H, stored_entries.
        destruct (destroyed_all boom None log (map snd (pm_entries ks m))) as [log' x]. cbn [fst snd] in *.
        eexists. split; [destruct x as [[]|]; reflexivity|]. intros _. rewrite E. exact H'.
  Qed.
  End Arrays.

  (** *** Total maps *)
  Lemma htotal_life_same op s : (forall k, total_key op = Some k -> ordinal O k = ordinal O0 k) ->
    htotal_life boom O op s = htotal_life (V := V) boom O0 op s.
  Proof.
    intros H. destruct s as [log m].
    destruct op; cbn [total_key] in H; try specialize (H _ eq_refl); cbn [htotal_life];
      unfold calm, owning, assign_life, htotal_act, OrdinalTotalMap_insert_act, replaces, htotal_step,
        OrdinalTotalMap_insert, OrdinalTotalMap_index, OrdinalTotalMap_index_mut, OrdinalTotalMap_get, OrdinalTotalMap_get_mut, calm, abind, look;
      rewrite ?H; try reflexivity; clear H;
      destruct HP as (Hs & Hf & _); clear HP HO He; destruct O as [s1 o1 f1], O0 as [s2 o2 f2]; cbn in *; subst; reflexivity.
  Qed.
  Lemma htotal_follows op : follows (htotal_life boom O) (total_life_step boom eqd ks O) (fun (l : @OrdinalTotalMap V) m => l = map m ks) op.
  Proof.
    intros log l m ->. unfold total_life_step. destruct (key_panic_cases (total_key op)) as [(k & w & Ek & Ew & ->)|[Hs ->]].
    - destruct (htotal_good (V := V) O op) as (_ & P & L).
      destruct (proj1 (P (map m ks) w) (htotal_panics _ Ek Ew)) as (st' & E). pose proof (L _ _ _ E) as R. symmetry in R. clear P L.
      destruct op; cbn [total_key] in Ek; try discriminate Ek; injection Ek as ->; cbn [htotal_life]; try (plain E).
      rewrite (owning_caught boom [v] (calm_is log E)). eexists.
      destruct (destroyed_all boom (Some w) log [v]) as [log' x]. cbn [fst snd]. split; [destruct x; reflexivity|auto].
    - erewrite htotal_life_same by exact Hs.
      pose proof (proj1 (proj1 (htotal_good (V := V) O0 op) _ _ _) (htotal_step_ok HO He eqd op m)) as E.
      destruct op; cbn [htotal_life];
        try (destruct (total_step eqd ks _ m) as [o m']; cbn [fst snd ends_as] in *;
          eexists; split; [first [apply calm_is; exact E|apply owning_ended, calm_is; exact E]|reflexivity]).
      cbn [total_step] in *. unfold assign_life. unfold calm, abind, look, put, ret. cbn [htotal_step ending_of].
      cbn [htotal_act] in E. unfold replaces, abind, look, put, ret in E. cbn in E. injection E as E.
      rewrite glue_is. destruct (destroyed_all boom None log (map m ks)) as [log' x]. cbn [fst snd] in *.
      eexists. split; [destruct x as [[]|]; reflexivity|]. intros _. exact E.
  Qed.
  Section TArrays.
  Context (S : nat).
  Lemma atotal_life_same op (s : list V * OrdinalTotalArrayMap S V) : (forall k, total_key op = Some k -> ordinal O k = ordinal O0 k) ->
    atotal_life boom O op s = atotal_life (V := V) boom O0 op s.
  Proof.
    intros H. destruct s as [log m].
    destruct op; cbn [total_key] in H; try specialize (H _ eq_refl); cbn [atotal_life];
      unfold calm, owning, assign_life, atotal_act, OrdinalTotalArrayMap_insert_act, replaces, atotal_step,
        OrdinalTotalArrayMap_insert, OrdinalTotalArrayMap_index, OrdinalTotalArrayMap_index_mut, OrdinalTotalArrayMap_get, OrdinalTotalArrayMap_get_mut, calm, abind, look;
      rewrite ?H; try reflexivity; clear H;
      destruct HP as (Hs & Hf & _); clear HP HO He; destruct O as [s1 o1 f1], O0 as [s2 o2 f2]; cbn in *; subst; reflexivity.
  Qed.
  Lemma atotal_follows op : follows (atotal_life boom O (S := S)) (total_life_step boom eqd ks O) (fun a m => arr_list a = map m ks) op.
  Proof.
    intros log a m H. unfold total_life_step. destruct (key_panic_cases (total_key op)) as [(k & w & Ek & Ew & ->)|[Hs ->]].
    - destruct (atotal_good (V := V) O S op) as (_ & P & L).
      destruct (proj1 (P a w) (atotal_panics a Ek Ew)) as (st' & E). pose proof (L _ _ _ E) as R. subst st'. clear P L.
      destruct op; cbn [total_key] in Ek; try discriminate Ek; injection Ek as ->; cbn [atotal_life]; try (plain E).
      rewrite (owning_caught boom [v] (calm_is log E)). eexists.
      destruct (destroyed_all boom (Some w) log [v]) as [log' x]. cbn [fst snd]. split; [destruct x; reflexivity|auto].
    - rewrite (atotal_life_same (log, a) Hs). destruct (atotal_step_ok HO He eqd op H) as (a' & E & H').
      apply (proj1 (atotal_good (V := V) O0 S op)) in E.
      destruct op; cbn [atotal_life];
        try (destruct (total_step eqd ks _ m) as [o m']; cbn [fst snd ends_as] in *;
          eexists; split; [first [apply calm_is; exact E|apply owning_ended, calm_is; exact E]|intros _; exact H']).
      cbn [total_step] in *. unfold assign_life. unfold calm, abind, look, put, ret. cbn [atotal_step ending_of].
      cbn [atotal_act] in E. unfold replaces, abind, look, put, ret in E. cbn in E. injection E as E.
      rewrite glue_is, H. destruct (destroyed_all boom None log (map m ks)) as [log' x]. cbn [fst snd] in *.
      eexists. split; [destruct x as [[]|]; reflexivity|]. intros _. rewrite E. exact H'.
  Qed.
  End TArrays.
End Versions.

(** ** Programs *)
Section Programs.
  Context {cfg : Config} {K V : Type} (boom : list V -> V -> option panic) (O : Ordinal K) (n : N) (HO : ordinal_bijection O n).
  Context (eqd : forall a b : K, {a = b} + {a <> b}) (ks : list K) (He : enumeration O ks).

  Lemma heap_exact (ops : list (Ordinal K * map_op K V)) :
    Forall (fun p => panicking_version (fst p) O /\ heap_op (snd p) = true) ops ->
    match life_run (fun p => life_step boom eqd ks (fst p) (snd p)) ops ([], pm_empty) with
    | Some (outs, (log, m)) => exists st,
        catch_run (fun p => heap_life boom (fst p) (snd p)) ops ([], OrdinalMap_new) = Some (outs, (log, st)) /\
        OrdinalMap_debug O st = Val (pm_entries ks m) /\ forall k, OrdinalMap_get O st k = Val (m k)
    | None => exists ops1 p ops2 outs s, ops = ops1 ++ p :: ops2 /\
        catch_run (fun p => heap_life boom (fst p) (snd p)) ops1 ([], OrdinalMap_new) = Some (outs, s) /\
        snd (heap_life boom (fst p) (snd p) s) = Aborts
    end.
  Proof.
    intros H. pose proof (@follows_run _ _ _ _ _ (fun p : Ordinal K * map_op K V => heap_life boom (fst p) (snd p))
      (fun p => life_step boom eqd ks (fst p) (snd p)) (heap_rep O n ks) (fun p => panicking_version (fst p) O /\ heap_op (snd p) = true)) as F.
    specialize (F ltac:(intros [O1 op] [H1 H2]; exact (heap_follows boom H1 HO eqd He H2)) ops H [] OrdinalMap_new pm_empty (heap_new_rep O n ks)).
    destruct (life_run _ ops _) as [[outs [log m]]|]; [|exact F]. destruct F as (st & E & R). exists st. split; [exact E|].
    split; [exact (heap_rep_iter (same_version O) HO eqd He R)|]. intros k. exact (heap_get_ok HO He k R).
  Qed.
  Lemma array_exact S (ops : list (Ordinal K * map_op K V)) : N.of_nat S = n ->
    Forall (fun p => panicking_version (fst p) O) ops ->
    exists a0 : @OrdinalArrayMap V S, OrdinalArrayMap_new O S = Val a0 /\
    match life_run (fun p => life_step boom eqd ks (fst p) (snd p)) ops ([], pm_empty) with
    | Some (outs, (log, m)) => exists a,
        catch_run (fun p => array_life boom (fst p) (S := S) (snd p)) ops ([], a0) = Some (outs, (log, a)) /\
        OrdinalArrayMap_debug O a = Val (pm_entries ks m) /\ forall k, OrdinalArrayMap_get O a k = Val (m k)
    | None => exists ops1 p ops2 outs s, ops = ops1 ++ p :: ops2 /\
        catch_run (fun p => array_life boom (fst p) (S := S) (snd p)) ops1 ([], a0) = Some (outs, s) /\
        snd (array_life boom (fst p) (S := S) (snd p) s) = Aborts
    end.
  Proof.
    intros HS H. destruct (array_new_rep (V := V) HO He HS) as (a0 & E0 & H0). exists a0. split; [exact E0|].
    pose proof (@follows_run _ _ _ _ _ (fun p : Ordinal K * map_op K V => array_life boom (fst p) (S := S) (snd p))
      (fun p => life_step boom eqd ks (fst p) (snd p)) (array_rep ks (S := S)) (fun p => panicking_version (fst p) O)) as F.
    specialize (F ltac:(intros [O1 op] H1; exact (array_follows boom H1 HO eqd He (S := S) op)) ops H [] a0 pm_empty H0).
    destruct (life_run _ ops _) as [[outs [log m]]|]; [|exact F]. destruct F as (a & E & R). exists a. split; [exact E|].
    split; [|intros k; exact (array_get_ok HO He k R)].
    pose proof (array_step_ok HO eqd He OpDebug R) as (a' & E' & _). cbn [array_step spec_step fst snd] in E'.
    destruct (OrdinalArrayMap_debug O a); cbn in E'; congruence.
  Qed.
  Lemma htotal_exact (ops : list (Ordinal K * total_op K V)) (m0 : K -> V) : Forall (fun p => panicking_version (fst p) O) ops ->
    match life_run (fun p => total_life_step boom eqd ks (fst p) (snd p)) ops ([], m0) with
    | Some (outs, (log, m)) =>
        catch_run (fun p => htotal_life boom (fst p) (snd p)) ops ([], map m0 ks) = Some (outs, (log, map m ks))
    | None => exists ops1 p ops2 outs s, ops = ops1 ++ p :: ops2 /\
        catch_run (fun p => htotal_life boom (fst p) (snd p)) ops1 ([], map m0 ks) = Some (outs, s) /\
        snd (htotal_life boom (fst p) (snd p) s) = Aborts
    end.
  Proof.
    intros H. pose proof (@follows_run _ _ _ _ _ (fun p : Ordinal K * total_op K V => htotal_life boom (fst p) (snd p))
      (fun p => total_life_step boom eqd ks (fst p) (snd p)) (fun l m => l = map m ks) (fun p => panicking_version (fst p) O)) as F.
    specialize (F ltac:(intros [O1 op] H1; exact (htotal_follows boom H1 HO eqd He op)) ops H [] (map m0 ks) m0 eq_refl).
    destruct (life_run _ ops _) as [[outs [log m]]|]; [|exact F]. now destruct F as (st & E & ->).
  Qed.
  Lemma atotal_exact S (ops : list (Ordinal K * total_op K V)) (m0 : K -> V) (a0 : OrdinalTotalArrayMap S V) : arr_list a0 = map m0 ks ->
    Forall (fun p => panicking_version (fst p) O) ops ->
    match life_run (fun p => total_life_step boom eqd ks (fst p) (snd p)) ops ([], m0) with
    | Some (outs, (log, m)) => exists a,
        catch_run (fun p => atotal_life boom (fst p) (S := S) (snd p)) ops ([], a0) = Some (outs, (log, a)) /\ arr_list a = map m ks
    | None => exists ops1 p ops2 outs s, ops = ops1 ++ p :: ops2 /\
        catch_run (fun p => atotal_life boom (fst p) (S := S) (snd p)) ops1 ([], a0) = Some (outs, s) /\
        snd (atotal_life boom (fst p) (S := S) (snd p) s) = Aborts
    end.
  Proof.
    intros H0 H. pose proof (@follows_run _ _ _ _ _ (fun p : Ordinal K * total_op K V => atotal_life boom (fst p) (S := S) (snd p))
      (fun p => total_life_step boom eqd ks (fst p) (snd p)) (fun a m => arr_list a = map m ks) (fun p => panicking_version (fst p) O)) as F.
    specialize (F ltac:(intros [O1 op] H1; exact (atotal_follows boom H1 HO eqd He op)) ops H [] a0 m0 H0).
    destruct (life_run _ ops _) as [[outs [log m]]|]; [|exact F]. exact F.
  Qed.
End Programs.
