(** * KeyLifeProofs3: lemmas for C111, Drain and retain. *)
From Verif Require Import Base Spec SpecIter SpecMap SpecCatch SpecResume SpecLifeRun SpecKeyLife ModelOrdinal ModelValues ModelArrayBuilder
  ModelIter ModelTotal ModelMap ModelResume MapMachine ModelCatch ModelLife ModelKeyLife
  OrdinalProofs BaseProofs IterLib IterProofs MapIterProofs MapLib ArrayProofs MapMutProofs MapProofs ResumeProofs LifeProofs5 KeyLifeProofs KeyLifeProofs2 MapProofs2.
From Coq Require Import List. Import ListNotations.
Set Implicit Arguments. Unset Strict Implicit.

Section Slots.
  Context {cfg : Config} {K V : Type} (boom : list (K + V) -> K + V -> option panic) (O : Ordinal K).
  Context (n : N) (HO : ordinal_bijection O n).
  Context (eqd : forall a b : K, {a = b} + {a <> b}).
  Context (ks : list K) (Hks : key_slots O n ks).
  Implicit Types (m : pmap K V) (log : list (K + V)).

  Lemma slots_fst l m : map fst (slots_of l m) = l.
  Proof. unfold slots_of. rewrite map_map. apply map_id. Qed.

  Lemma owning_lost_now (got : list (K + V)) w log (st : list (option V)) :
    owning boom got (fun s => (s, Unwinds w)) (log, st) =
      let '(log', e) := all_lost (A := map_out K V) boom w log got in ((log', st), ends_as e).
  Proof.
    rewrite (@owning_caught _ _ boom _ got w (fun s => (s, Unwinds w)) log st log st) by reflexivity.
    unfold all_lost. destruct (destroyed_all boom (Some w) log got) as [log' [p|]]; reflexivity.
  Qed.

  Lemma drain_ok log m sched leak : exists kmid,
    snd (fst (drain_end boom eqd sched leak log ks m)) = (ks, pm_restrict eqd m kmid) /\
    drain_keys boom O sched leak (log, map m ks) =
      ((fst (fst (drain_end boom eqd sched leak log ks m)), map (pm_restrict eqd m kmid) ks),
       ends_as (snd (drain_end boom eqd sched leak log ks m))).
  Proof.
    unfold drain_keys, drain_end, Drain_new. pose proof (drain_calls_ok boom HO eqd sched log (drain_start Hks m)) as G.
    destruct (made_calls (next_entry boom) sched log (slots_of ks m)) as [[got [log1 ss]] p].
    destruct G as ([st it] & kmid & E & H & ->). unfold TIterMut in *. rewrite E. cbn [fst snd].
    pose proof (@drain_drop_ok _ _ _ boom O n HO eqd ks m (S (length (e_items it))) log1 (st, it) kmid H) as D.
    specialize (D ltac:(pose proof (drain_len H) as L; cbn [snd] in L; rewrite L; lia)).
    assert (Es : st = map (pm_restrict eqd m kmid) ks) by exact (drain_storage eqd Hks H).
    unfold left_in. rewrite slots_fst.
    destruct (emptied boom log1 (slots_of kmid m)) as [[log2 ss2] e]. destruct D as (s2 & kmid2 & E2 & H2 & ->).
    assert (Es2 : fst s2 = map (pm_restrict eqd m kmid2) ks) by exact (drain_storage eqd Hks H2). rewrite slots_fst.
    destruct p as [w|]; cbn [calls_end].
    - exists kmid2. unfold TIterMut in *. rewrite E2, Es2. destruct e as [[[]|w2]|]; cbn [ends_as].
      + rewrite owning_lost_now. unfold ends.
        change (pairs_of got) with (pairs_got got). destruct (all_lost boom w log2 (pairs_got got)) as [log3 e3]. destruct leak; split; reflexivity.
      + destruct leak; split; reflexivity.
      + destruct leak; split; reflexivity.
    - destruct leak.
      + exists kmid. rewrite Es. split; reflexivity.
      + exists kmid2. unfold TIterMut in *. rewrite E2, Es2. destruct e as [[[]|w2]|]; cbn [ends_as].
        * split; reflexivity.
        * rewrite owning_lost_now. unfold ends.
          change (pairs_of got) with (pairs_got got). destruct (all_lost boom w2 log2 (pairs_got got)) as [log3 e3]. split; reflexivity.
        * split; reflexivity.
  Qed.

  Lemma retain_ok log m f : retain_keys boom O f (log, map m ks) =
    let '(log', m', p) := retained boom eqd f log (slots_of ks m) m in ((log', map m' ks), ends_as (Some (shown OutUnit p))).
  Proof.
    assert (Hnd : NoDup ks) by (destruct Hks as [Hn _]; exact (numbered_NoDup Hn)).
    assert (G : forall kmid kpre m it log fuel, ks = kpre ++ kmid -> pending O n it (kslots (length kpre) kmid) -> (length kmid < fuel)%nat ->
      let '(log', m', p) := retained boom eqd f log (slots_of kmid m) m in
      exists it', retain_key_loop boom O f fuel (log, (map m ks, it)) = ((log', (map m' ks, it')), calls_end p)).
    { induction kmid as [|k kmid IH]; intros kpre m1 it log1 fuel E H Hfu; (destruct fuel as [|fuel]; [cbn in Hfu; lia|]);
        destruct (enumerate_act_ok HO Front H) as (it' & E1 & H'); cbn [retain_key_loop slots_of map retained]; unfold abind at 1, drain_item.
      - change (kslots (length kpre) []) with (@nil (K * N)) in E1. cbn [deque_step fst] in E1. rewrite E1. exists it'. reflexivity.
      - rewrite kslots_cons in E1, H'. cbn [deque_step fst snd] in E1, H'. rewrite E1. fold (slots_of kmid m1).
        assert (Hk : ordinal O k = Val (N.of_nat (length kpre))).
        { destruct Hks as [Hn _]. assert (Ek : nth_error ks (length kpre) = Some k) by (rewrite E; apply nth_error_app_at).
          rewrite (numbered_nth Hn Ek). f_equal. }
        assert (Hlt : N.of_nat (length kpre) < llen ks).
        { unfold llen. rewrite E, app_length. cbn [length]. lia. }
        unfold abind at 1, calm, look. cbn [fst]. rewrite (at_deref HO Hks m1 Hk Hlt). cbn [ending_of].
        assert (E' : ks = (kpre ++ [k]) ++ kmid) by (rewrite E, <- app_assoc; reflexivity).
        assert (H2 : pending O n it' (kslots (length (kpre ++ [k])) kmid)).
        { rewrite app_length. cbn [length]. rewrite Nat.add_1_r. exact H'. }
        assert (Hk' : forall x, In x kmid -> k <> x).
        { intros x Hx ->. rewrite E in Hnd. apply nodup_app_r in Hnd. inversion Hnd; contradiction. }
        assert (Hsl : forall o, slots_of kmid (pm_set eqd m1 k o) = slots_of kmid m1).
        { intros o. unfold slots_of. apply map_ext_in. intros x Hx. f_equal. apply pm_set_other. now apply Hk'. }
        assert (Hfu' : (length kmid < fuel)%nat) by (cbn in Hfu; lia).
        destruct (m1 k) as [v|] eqn:Em.
        + destruct (f k v) as [v' keep]. unfold abind at 1. cbn [fst snd]. rewrite (at_store HO eqd Hks m1 Hk Hlt).
          unfold abind at 1. rewrite destroy_is. destruct (boom log1 (inl k)) as [w|]; [exists it'; reflexivity|]. destruct keep.
          * rewrite <- (Hsl (Some v')). apply (IH (kpre ++ [k])); assumption.
          * unfold abind at 1. cbn [fst snd]. rewrite (at_store HO eqd Hks _ Hk Hlt).
            assert (Eq : map (pm_set eqd (pm_set eqd m1 k (Some v')) k None) ks = map (pm_set eqd m1 k None) ks).
            { apply map_ext. intros x. unfold pm_set. destruct (eqd k x); reflexivity. }
            rewrite Eq. unfold abind at 1. rewrite destroy_is. destruct (boom (log1 ++ [inl k]) (inr v')) as [w|]; [exists it'; reflexivity|].
            rewrite <- (Hsl None). apply (IH (kpre ++ [k])); assumption.
        + unfold abind at 1. rewrite destroy_is. destruct (boom log1 (inl k)) as [w|]; [exists it'; reflexivity|].
          apply (IH (kpre ++ [k])); assumption. }
    unfold retain_keys. rewrite map_length.
    specialize (G ks [] m (TIterMut_new (slots (length ks))) log (S (length ks)) eq_refl (pending_slots Hks) ltac:(lia)).
    destruct (retained boom eqd f log (slots_of ks m) m) as [[log' m'] p]. destruct G as (it' & E). unfold Drain, TIterMut in *. rewrite E. destruct p; reflexivity.
  Qed.
End Slots.
