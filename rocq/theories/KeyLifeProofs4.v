(** * KeyLifeProofs4: lemmas for C111, single operations and programs. *)
From Verif Require Import Base Spec SpecIter SpecMap SpecCatch SpecResume SpecLifeRun SpecKeyLife ModelOrdinal ModelValues ModelArrayBuilder
  ModelIter ModelTotal ModelMap ModelResume MapMachine ModelCatch ModelLife ModelKeyLife
  OrdinalProofs BaseProofs IterLib IterProofs MapIterProofs MapLib ArrayProofs MapMutProofs MapProofs MapProofs2 MapProofs5 ResumeProofs
  CatchProofs CatchProofs2 LifeProofs5 KeyLifeProofs KeyLifeProofs2 KeyLifeProofs3.
From Coq Require Import List. Import ListNotations.
Set Implicit Arguments. Unset Strict Implicit.

Section Glue.
  Context {K V M : Type} (boom : list (K + V) -> K + V -> option panic).
  Lemma destroy_then Y vs t (g : unit -> act (list (K + V) * M) Y) log st :
    abind (owning boom vs (destroy boom t)) g (log, st) =
    match boom log t with
    | None => g tt (log ++ [t], st)
    | Some w => let '(log', e) := all_lost (A := Y) boom w (log ++ [t]) vs in ((log', st), ends_as e)
    end.
  Proof.
    unfold abind. destruct (boom log t) as [w|] eqn:E.
    - rewrite (@owning_caught _ _ boom _ vs w (destroy boom t) log st (log ++ [t]) st) by (rewrite destroy_is, E; reflexivity).
      unfold all_lost. destruct (destroyed_all boom (Some w) (log ++ [t]) vs) as [log' [p|]]; reflexivity.
    - rewrite (@owning_ended _ _ boom _ vs (destroy boom t) (log, st) (log ++ [t], st) tt) by (rewrite destroy_is, E; reflexivity). reflexivity.
  Qed.
  Lemma caught_then X Y vs (x : act M X) (g : X -> act (list (K + V) * M) Y) log st st' w : x st = (st', Unwinds w) ->
    abind (owning boom vs (calm x)) g (log, st) = let '(log', e) := all_lost (A := Y) boom w log vs in ((log', st'), ends_as e).
  Proof.
    intros E. unfold abind. rewrite (owning_caught boom vs (calm_is log E)). unfold all_lost.
    destruct (destroyed_all boom (Some w) log vs) as [log' [p|]]; reflexivity.
  Qed.
  Lemma ended_then X Y vs (x : act M X) (g : X -> act (list (K + V) * M) Y) log st st' a : x st = (st', Ended a) ->
    abind (owning boom vs (calm x)) g (log, st) = g a (log, st').
  Proof. intros E. unfold abind. rewrite (owning_ended boom vs (calm_is log E)). reflexivity. Qed.
End Glue.

Section Lawful.
  Context {cfg : Config} {K V : Type} (boom : list (K + V) -> K + V -> option panic) (drops_result : bool) (O : Ordinal K).
  Context (n : N) (HO : ordinal_bijection O n).
  Context (eqd : forall a b : K, {a = b} + {a <> b}).
  Context (ks : list K) (He : enumeration O ks).
  Implicit Types (m : pmap K V) (log : list (K + V)).
  Notation has_ordinal := (has_ordinal boom drops_result eqd ks).
  Notation covers := (covers O n).

  Definition slot_case (x : act (list (K + V) * list (option V)) (map_out K V)) (op : map_op K V) : Prop :=
    forall log ks' m, covers ks' m -> ks' = ks \/ ks' = [] ->
    exists log' m' e, x (log, map m ks') = ((log', map m' ks'), ends_as e) /\
      has_ordinal op (log, (ks', m)) = ((log', (ks', m')), e) /\ (forall k, m' k <> None -> m k <> None).

  Lemma restricts m l k : pm_restrict eqd m l k <> None -> m k <> None.
  Proof. unfold pm_restrict. destruct (mem eqd k l); congruence. Qed.
  Lemma updates m l f k : pm_update eqd m l f k <> None -> m k <> None.
  Proof. unfold pm_update. destruct (mem eqd k l), (m k); cbn; congruence. Qed.

  Ltac fin := cbn [fst snd]; first
    [ (eexists _, _, _); split; [reflexivity|split; [reflexivity|auto]]
    | (eexists _, _, (Some (Seen _))); split; [reflexivity|split; [reflexivity|auto]] ].

  Lemma len_case : slot_case (len_keys boom O) OpLen.
  Proof.
    intros log ks' m Hc H3. rewrite (len_ok boom HO eqd (proj1 Hc) log m), (rep_entries Hc H3). cbn [SpecKeyLife.has_ordinal spec_step]. unfold keys_end.
    destruct (stops_at boom log (map inl ks')) as [log' p]. fin.
  Qed.
  Lemma debug_case : slot_case (debug_keys boom O) OpDebug.
  Proof.
    intros log ks' m Hc H3. rewrite (debug_ok boom HO (proj1 Hc) log m), (rep_entries Hc H3). cbn [SpecKeyLife.has_ordinal spec_step]. unfold keys_end.
    destruct (stops_at boom log (map inl ks')) as [log' p]. fin.
  Qed.
  Lemma is_empty_case : slot_case (is_empty_keys boom O) OpIsEmpty.
  Proof.
    intros log ks' m Hc H3. rewrite (is_empty_ok boom HO (proj1 Hc) log m), (rep_entries Hc H3). cbn [SpecKeyLife.has_ordinal spec_step].
    destruct (next_value boom Front log (slots_of ks' m)) as [[log' l] x]. fin.
  Qed.
  Lemma iter_case sched : slot_case (iter_keys boom O sched) (OpIter sched).
  Proof.
    intros log ks' m Hc H3. rewrite (iter_ok boom HO (proj1 Hc) log m), (rep_entries Hc H3). cbn [SpecKeyLife.has_ordinal spec_step]. unfold run_end, ends.
    destruct (made_calls (next_entry boom) sched log (slots_of ks' m)) as [[got [log' l]] [w|]]; [|fin].
    destruct (all_lost boom w log' (keys_got got)) as [log2 e]. fin.
  Qed.
  Lemma keys_case sched : slot_case (keys_keys boom O sched) (OpKeys sched).
  Proof.
    intros log ks' m Hc H3. rewrite (keys_ok boom HO (proj1 Hc) log m), (rep_entries Hc H3). cbn [SpecKeyLife.has_ordinal spec_step]. unfold run_end, ends.
    destruct (made_calls (next_entry boom) sched log (slots_of ks' m)) as [[got [log' l]] [w|]]; [|fin].
    destruct (all_lost boom w log' (keys_got got)) as [log2 e]. fin.
  Qed.
  Lemma values_case sched : slot_case (values_keys boom O sched) (OpValues sched).
  Proof.
    intros log ks' m Hc H3. rewrite (values_ok boom HO (proj1 Hc) log m), (rep_entries Hc H3). cbn [SpecKeyLife.has_ordinal spec_step]. unfold run_end.
    destruct (made_calls (next_value boom) sched log (slots_of ks' m)) as [[got [log' l]] [w|]]; [|fin].
    cbn. exists log', m, (Some (Caught w)). auto.
  Qed.
  Lemma iter_mut_case sched f : slot_case (iter_mut_keys boom O sched f) (OpIterMut sched f).
  Proof.
    intros log ks' m Hc H3. rewrite (iter_mut_ok boom HO eqd (proj1 Hc) log sched f (proj2 Hc)), (rep_entries Hc H3). cbn [SpecKeyLife.has_ordinal spec_step]. unfold ends.
    destruct (made_calls (next_entry boom) sched log (slots_of ks' m)) as [[got [log' l]] [w|]].
    - destruct (all_lost boom w log' (keys_got got)) as [log2 e]. fin.
    - eexists _, _, (Some (Seen _)). split; [reflexivity|]. split; [reflexivity|]. apply updates.
  Qed.
  Lemma values_mut_case sched f : slot_case (values_mut_keys boom O sched f) (OpValuesMut _ sched f).
  Proof.
    intros log ks' m Hc H3. rewrite (values_mut_ok boom HO eqd (proj1 Hc) log sched f (proj2 Hc)), (rep_entries Hc H3). cbn [SpecKeyLife.has_ordinal spec_step].
    destruct (made_calls (next_value boom) sched log (slots_of ks' m)) as [[got [log' l]] [w|]].
    - exists log', m, (Some (Caught w)). auto.
    - eexists _, _, (Some (Seen _)). split; [reflexivity|]. split; [reflexivity|]. apply updates.
  Qed.
  Lemma drain_case sched leak : slot_case (drain_keys boom O sched leak) (OpDrain sched leak).
  Proof.
    intros log ks' m Hc H3. destruct (drain_ok boom HO eqd (proj1 Hc) log m sched leak) as (kmid & E1 & E2). rewrite E2.
    cbn [SpecKeyLife.has_ordinal spec_step]. destruct (deque_run sched (pm_entries ks m)) as [g r].
    destruct (drain_end boom eqd sched leak log ks' m) as [[log' s] e]. cbn [fst snd] in *. subst s.
    eexists _, _, e. split; [reflexivity|]. split; [reflexivity|]. apply restricts.
  Qed.
  Lemma clear_case : slot_case (clear_keys boom O) OpClear.
  Proof.
    intros log ks' m Hc H3. destruct (drain_ok boom HO eqd (proj1 Hc) log m [] false) as (kmid & E1 & E2). unfold clear_keys, abind. rewrite E2.
    cbn [SpecKeyLife.has_ordinal spec_step]. destruct (drain_end boom eqd [] false log ks' m) as [[log' s] e]. cbn [fst snd] in *. subst s.
    exists log', (pm_restrict eqd m kmid), (opt_map (fun y => match y with Seen _ => Seen OutUnit | Caught w => Caught w end) e).
    split; [destruct e as [[|]|]; reflexivity|]. split; [reflexivity|]. apply restricts.
  Qed.

  (** Entries *)
  Lemma match_case k v w i log m ks' : ordinal O k = Val i -> i < llen ks ->
    exists log' m' e, entry_match_keys boom k v w (the_entry m k i) (log, map m ks) = ((log', map m' ks), ends_as e) /\
      has_ordinal (OpEntryMatch k v w) (log, (ks', m)) = ((log', (ks, m')), e).
  Proof.
    intros Hk Hi. unfold entry_match_keys.
    rewrite (@ended_then _ _ _ boom _ _ [inl k] (replaces (fun st => entry_match st (the_entry m k i) v w)) _ log (map m ks)
      (map (pm_set eqd m k (Some (if present m k then w else v))) ks) (OutEntry k (m k)))
      by (unfold replaces, abind, look; rewrite (entry_match_ok HO eqd (ks_slots HO He) m Hk Hi); reflexivity).
    rewrite destroy_then. cbn [SpecKeyLife.has_ordinal spec_step taken]. unfold ends. change (olds (m k)) with (values_in (K := K) (m k)).
    destruct (boom log (inl k)) as [p|].
    - destruct (all_lost boom p (log ++ [inl k]) (values_in (m k))) as [log' e]. cbn [fst snd]. eauto 6.
    - cbn. eexists _, _, (Some (Seen _)). split; reflexivity.
  Qed.
  Lemma or_insert_case k v w i log m ks' : ordinal O k = Val i -> i < llen ks ->
    exists log' m' e, or_insert_keys boom k v w (the_entry m k i) (log, map m ks) = ((log', map m' ks), ends_as e) /\
      has_ordinal (OpEntryOrInsert k v w) (log, (ks', m)) = ((log', (ks, m')), e).
  Proof.
    intros Hk Hi. pose proof (ks_slots HO He) as Hks. unfold or_insert_keys. cbn [SpecKeyLife.has_ordinal spec_step].
    pose (m1 := match m k with Some _ => m | None => pm_set eqd m k (Some v) end).
    assert (E1 : Entry_or_insert (map m ks) (the_entry m k i) v = Val (i, map m1 ks)).
    { unfold Entry_or_insert, the_entry, m1. destruct (m k) as [old|] eqn:Em; cbn [o_entry v_entry]; rewrite (at_deref HO Hks m Hk Hi).
      - rewrite Em. reflexivity.
      - cbn [bind]. rewrite (at_store HO eqd Hks m Hk Hi). reflexivity. }
    rewrite (@ended_then _ _ _ boom _ _ [inl k; inr v] (look (fun st => Entry_or_insert st (the_entry m k i) v)) _ log (map m ks)
      (map m ks) (i, map m1 ks)) by (unfold look; rewrite E1; reflexivity).
    assert (Ew : forall log, calm (replaces (fun st => cur <- deref st i ;; m' <- write_some st i w ;; Val (OutValue cur, m'))) (log, map m1 ks) =
      ((log, map (pm_set eqd m k (Some w)) ks), Ended (OutValue (K := K) (Some (match m k with Some old => old | None => v end))))).
    { intros l. unfold calm, replaces, abind, look. rewrite (at_deref HO Hks m1 Hk Hi). cbn [bind].
      assert (Hm1 : m1 k = Some (match m k with Some old => old | None => v end)).
      { unfold m1. destruct (m k) as [old|] eqn:Em; [exact Em|]. apply pm_set_same. }
      rewrite (at_write HO eqd Hks Hk Hi) by congruence. cbn [bind ending_of]. unfold put, ret. rewrite Hm1. do 2 f_equal.
      apply map_ext. intros x. unfold m1, pm_set. destruct (m k); destruct (eqd k x); reflexivity. }
    unfold abind at 1, calm at 1, put. unfold present.
    assert (Ee : the_entry m k i = match m k with Some _ => Occupied {| o_key := k; o_entry := i |} | None => Vacant {| v_key := k; v_entry := i |} end) by reflexivity.
    destruct (m k) as [old|] eqn:Em; rewrite Ee.
    - unfold abind at 1. rewrite glue_is. unfold is_some. destruct (destroyed_all boom None log [inl k; inr v]) as [log' [[p|]|]]; cbn [fst snd].
      + exists log', m, (Some (Caught p)). split; reflexivity.
      + rewrite Ew. eexists _, _, (Some (Seen _)). split; reflexivity.
      + exists log', m, None. split; reflexivity.
    - unfold abind at 1. rewrite destroy_is. unfold is_some. destruct (boom log (inl k)) as [p|].
      + exists (log ++ [inl k]), m1, (Some (Caught p)). split; [reflexivity|]. unfold m1. reflexivity.
      + rewrite Ew. eexists _, _, (Some (Seen _)). split; reflexivity.
  Qed.
  Lemma drop_case k i log m ks' : 
    exists log' e, (destroy boom (inl k) ;;! ret (entry_drop (V := V) (the_entry m k i))) (log, map m ks) = ((log', map m ks), ends_as e) /\
      has_ordinal (OpEntryDrop k) (log, (ks', m)) = ((log', (ks, m)), e).
  Proof.
    unfold abind. rewrite destroy_is. cbn [SpecKeyLife.has_ordinal spec_step]. unfold keys_end. cbn [map stops_at]. rewrite entry_drop_ok.
    destruct (boom log (inl k)) as [p|]; [eexists _, (Some (Caught p))|eexists _, (Some (Seen _))]; split; reflexivity.
  Qed.
End Lawful.
