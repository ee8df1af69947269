(** * MapMutProofs: mutable iteration and draining. *)
From Verif Require Import Base Spec SpecMap ModelOrdinal ModelValues ModelArrayBuilder ModelIter ModelTotal
  ModelMap MapMachine BaseProofs IterLib ValuesProofs IterProofs MapLib MapIterProofs.
From Coq Require Import List. Import ListNotations.
Unset Strict Implicit.

Lemma app_inj_len {A} (a b a' b' : list A) : a ++ b = a' ++ b' -> length a = length a' -> a = a' /\ b = b'.
Proof.
  revert a'. induction a as [|x a IH]; intros [|y a'] E L; try discriminate L; [auto|].
  cbn [app] in E. injection E as -> E. injection L as L. destruct (IH _ E L) as [-> ->]. auto.
Qed.

Lemma nodup_app_r {A} (a b : list A) : NoDup (a ++ b) -> NoDup b.
Proof. induction a as [|x a IH]; [auto|]. cbn. intros H. inversion H; auto. Qed.

Section Mut.
  Context {cfg : Config} {K : Type} (O : Ordinal K) (n : N) (HO : ordinal_bijection O n).
  Context (ks : list K) (Hks : key_slots O n ks).

  (** An infix of the key/slot pairs is again a list of key/slot pairs. *)
  Lemma kslots_infix a (l : list K) pre l' post : kslots a l = pre ++ l' ++ post ->
    exists kpre kmid kpost, l = kpre ++ kmid ++ kpost /\ l' = kslots (a + length kpre) kmid.
  Proof.
    intros E. exists (map fst pre), (map fst l'), (map fst post).
    assert (El : l = map fst pre ++ map fst l' ++ map fst post).
    { rewrite <- (kslots_fst a l), E, !map_app. reflexivity. }
    split; [exact El|]. rewrite El in E at 1. rewrite !kslots_app in E.
    apply app_inj_len in E; [|now rewrite kslots_length, map_length]. destruct E as [_ E].
    apply app_inj_len in E; [|now rewrite kslots_length, map_length]. destruct E as [E _]. now symmetry.
  Qed.

  (** The iterator [s] still has the slots of the keys [kmid]. *)
  Definition at_slots (s : enumerate N) (kmid : list K) : Prop :=
    exists kpre kpost, ks = kpre ++ kmid ++ kpost /\ pending O n s (kslots (length kpre) kmid).

  Lemma at_slots_init : at_slots {| e_next := 0; e_items := slots (length ks) |} ks.
  Proof.
    exists [], []. rewrite app_nil_r. split; [reflexivity|]. now apply pending_slots.
  Qed.

  (** *** Total mutable iteration *)
  Lemma tmut_step d s kmid : at_slots s kmid ->
    exists s' o, TIterMut_step O d s = Val (o, s') /\ at_slots s' (snd (deque_step d kmid)) /\
      opt_rel (fun ki k => fst ki = k /\ ordinal O k = Val (snd ki)) o (fst (deque_step d kmid)).
  Proof.
    intros (kpre & kpost & E & H). destruct (enumerate_refines HO d H) as (s' & Es & H').
    exists s', (fst (deque_step d (kslots (length kpre) kmid))). split; [exact Es|].
    assert (Hn : numbered O (N.of_nat (length kpre)) kmid).
    { destruct Hks as [Hn _]. rewrite E in Hn. apply numbered_app in Hn. destruct Hn as [_ Hn].
      apply numbered_app in Hn. exact (proj1 Hn). }
    destruct d.
    - destruct kmid as [|k kmid]; cbn [deque_step fst snd] in *.
      + split; [exists kpre, kpost; split; [exact E|exact H']|exact I].
      + rewrite kslots_cons in *. cbn [deque_step fst snd] in *. split.
        * exists (kpre ++ [k]), kpost. split; [rewrite E, <- !app_assoc; reflexivity|].
          rewrite app_length. cbn [length]. rewrite Nat.add_1_r. exact H'.
        * cbn [opt_rel]. split; [reflexivity|]. now inversion Hn.
    - destruct kmid as [|k kmid _] using rev_ind.
      + cbn [deque_step fst snd rev] in *. split; [exists kpre, kpost; split; [exact E|exact H']|exact I].
      + rewrite kslots_app in *. change (kslots (length kpre + length kmid) [k]) with
          [(k, N.of_nat (length kpre + length kmid))] in *. rewrite !deque_back in *. cbn [fst snd] in *. split.
        * exists kpre, ([k] ++ kpost). split; [rewrite E, <- !app_assoc; reflexivity|exact H'].
        * cbn [opt_rel fst snd]. split; [reflexivity|]. apply numbered_app in Hn. destruct Hn as [_ Hn].
          inversion Hn as [|? ? ? H1 H2 H3]; subst. rewrite H2. unfold llen. f_equal. lia.
  Qed.

  Lemma at_slots_len s kmid : at_slots s kmid -> enumerate_len s = llen kmid.
  Proof.
    intros (kpre & kpost & E & H). rewrite (pending_snoc_len H). unfold llen. now rewrite kslots_length.
  Qed.

  (** The [iter()] view of a mutable iterator. *)
  Lemma tmut_view {V} (m : tmap K V) s kmid : at_slots s kmid ->
    exists it, TIterMut_iter (map m ks) s = Val it /\ pending O n it (tm_entries kmid m).
  Proof.
    intros (kpre & kpost & E & H1 & H2 & H3). unfold TIterMut_iter. rewrite H2, kslots_snd, E.
    rewrite read_slots_ok. cbn [bind]. eexists. split; [reflexivity|].
    unfold TIter_new, enumerate_new, tm_entries. split; [|split]; cbn [e_next e_items].
    - rewrite map_map. cbn [fst]. rewrite map_id. rewrite kslots_fst in H1. exact H1.
    - now rewrite map_map.
    - unfold llen in *. rewrite map_length. rewrite kslots_length in H3. exact H3.
  Qed.

  Section Sparse.
    Context {V : Type}.

    (** *** Sparse mutable iteration *)
    Lemma kslots_points (m : pmap K V) kpre kmid kpost : ks = kpre ++ kmid ++ kpost ->
      Forall2 (points O m) (fm (occupied (map m ks)) (kslots (length kpre) kmid)) (pm_entries kmid m) /\
      (forall i, In i (map snd (kslots (length kpre) kmid)) ->
         occupied_rt (map m ks) i = Val (occupied (map m ks) i)).
    Proof.
      intros E. split.
      - destruct Hks as [Hn _]. revert kpre E. induction kmid as [|k l IH]; intros pre E; [constructor|].
        rewrite kslots_cons. cbn [fm flat_map fst snd pm_entries].
        fold (fm (occupied (map m ks)) (kslots (S (length pre)) l)).
        assert (Hk : nth_error ks (length pre) = Some k) by (rewrite E; apply nth_error_app_at).
        unfold occupied at 1. unfold slice_get. rewrite Nat2N.id, nth_error_map, Hk. cbn [option_map].
        assert (IH' : Forall2 (points O m) (fm (occupied (map m ks)) (kslots (S (length pre)) l)) (pm_entries l m)).
        { replace (S (length pre)) with (length (pre ++ [k])) by (rewrite app_length; cbn; lia).
          apply IH. rewrite <- app_assoc. exact E. }
        destruct (m k) as [v|] eqn:Ek; cbn [app]; [|exact IH'].
        constructor; [|exact IH']. split; [reflexivity|]. cbn [fst snd]. split; [|exact Ek].
        rewrite (numbered_nth Hn Hk). reflexivity.
      - intros i Hi. rewrite kslots_snd in Hi. unfold slots_from in Hi. apply in_map_iff in Hi.
        destruct Hi as (j & <- & Hj). apply in_seq in Hj. unfold occupied_rt, occupied, deref.
        destruct (slice_get (map m ks) (N.of_nat j)) as [o|] eqn:E'.
        + cbn [bind]. destruct o; reflexivity.
        + unfold slice_get in E'. apply nth_error_None in E'.
          rewrite map_length, E, !app_length, Nat2N.id in E'. lia.
    Qed.

    Lemma smut_step (m : pmap K V) d s kmid : at_slots s kmid ->
      exists s' o kmid', IterMut_step O (map m ks) d s = Val (o, s') /\ at_slots s' kmid' /\
        pm_entries kmid' m = snd (deque_step d (pm_entries kmid m)) /\
        (exists p q, kmid = p ++ kmid' ++ q) /\
        opt_rel (points O m) o (fst (deque_step d (pm_entries kmid m))).
    Proof.
      intros (kpre & kpost & E & H). destruct (kslots_points m E) as [Hp Ho].
      destruct (@sparse_step_inv _ _ _ _ HO _ _ _ _ d _ _ H Ho) as (s' & pre & l' & post & Es & H' & Hl & Hi).
      destruct (kslots_infix Hi) as (p & kmid' & q & Ek & El). subst l'.
      assert (E' : ks = (kpre ++ p) ++ kmid' ++ (q ++ kpost)).
      { rewrite E, Ek. rewrite <- !app_assoc. reflexivity. }
      rewrite <- app_length in *.
      exists s', (fst (deque_step d (fm (occupied (map m ks)) (kslots (length kpre) kmid)))), kmid'.
      split; [exact Es|]. split; [exists (kpre ++ p), (q ++ kpost); split; [exact E'|exact H']|].
      destruct (deque_step_rel d Hp) as [R1 R2]. split; [|split; [exists p, q; exact Ek|exact R1]].
      destruct (kslots_points m E') as [Hp' _]. rewrite Hl in Hp'.
      clear -R2 Hp' HO. revert R2 Hp'.
      generalize (snd (deque_step d (pm_entries kmid m))) as l2.
      generalize (snd (deque_step d (fm (occupied (map m ks)) (kslots (length kpre) kmid)))) as l.
      generalize (pm_entries kmid' m) as l1.
      intros l1 l l2 H2. revert l1. induction H2 as [|[k i] [k2 v2] l l2 (F1 & F2 & F3) _ IH]; intros l1 H1.
      - now inversion H1.
      - inversion H1 as [|? [k1 v1] ? ? (G1 & G2 & G3) H1' E1 E2]. subst. cbn [fst snd] in *. subst.
        f_equal; [congruence|]. now apply IH.
    Qed.

    (** The [iter()] view of a sparse mutable iterator. *)
    Lemma smut_view (m : pmap K V) s kmid : at_slots s kmid ->
      exists it, IterMut_iter (map m ks) s = Val it /\
        spending O n (fun o => Val o) (fun o => o) it (pm_entries kmid m).
    Proof.
      intros H. destruct (tmut_view (m : tmap K (option V)) H) as (it & E & Hp).
      unfold IterMut_iter. rewrite E. cbn [bind]. exists it. split; [reflexivity|].
      exists (tm_entries kmid m). split; [exact Hp|]. split; [unfold tm_entries; now rewrite fm_id|reflexivity].
    Qed.

    (** *** Drain *)
    (** [m] is the content when the drain was created; [kmid] are the keys whose slots
        were not visited yet. *)
    Definition drained (m : pmap K V) (s : @Drain V) (l : list (K * V)) : Prop :=
      exists kpre kmid kpost, ks = kpre ++ kmid ++ kpost /\
        pending O n (snd s) (kslots (length kpre) kmid) /\
        fst s = map (fun _ => None) kpre ++ map m kmid ++ map (fun _ => None) kpost /\
        l = pm_entries kmid m.

    Lemma drained_init m : drained m (map m ks, {| e_next := 0; e_items := slots (length ks) |}) (pm_entries ks m).
    Proof.
      exists [], ks, []. cbn [fst snd map app length]. rewrite !app_nil_r.
      split; [reflexivity|]. split; [now apply pending_slots|]. auto.
    Qed.

    Lemma drain_front m kmid : forall kpre kpost it fuel,
      ks = kpre ++ kmid ++ kpost -> pending O n it (kslots (length kpre) kmid) -> (length kmid < fuel)%nat ->
      exists s', Drain_loop O Front fuel
          (map (fun _ => None) kpre ++ map m kmid ++ map (fun _ => None) kpost, it) =
          Val (fst (deque_step Front (pm_entries kmid m)), s') /\
        drained m s' (snd (deque_step Front (pm_entries kmid m))).
    Proof.
      induction kmid as [|k kmid IH]; intros kpre kpost it fuel E H Hf;
        (destruct fuel as [|fuel]; [cbn in Hf; lia|]); cbn [Drain_loop]; unfold TIterMut_step;
        destruct (enumerate_refines HO Front H) as (it' & E1 & H'); rewrite E1; cbn [bind].
      - cbn [kslots slots_from length seq map combine deque_step fst snd] in *.
        eexists. split; [reflexivity|]. exists kpre, [], kpost. auto.
      - rewrite kslots_cons in *. cbn [deque_step fst snd] in *. cbn [map app].
        rewrite deref_slot by (unfold llen; now rewrite map_length). cbn [bind].
        rewrite store_slot by (unfold llen; now rewrite map_length).
        assert (E' : ks = (kpre ++ [k]) ++ kmid ++ kpost) by (rewrite E, <- !app_assoc; reflexivity).
        assert (H2 : pending O n it' (kslots (length (kpre ++ [k])) kmid)).
        { rewrite app_length. cbn [length]. rewrite Nat.add_1_r. exact H'. }
        assert (ES : map (fun _ : K => @None V) kpre ++ None :: map m kmid ++ map (fun _ => None) kpost =
                     map (fun _ => None) (kpre ++ [k]) ++ map m kmid ++ map (fun _ => None) kpost).
        { rewrite map_app, <- app_assoc. reflexivity. }
        rewrite ES. cbn [pm_entries]. destruct (m k) as [v|] eqn:Ek.
        + cbn [deque_step fst snd]. eexists. split; [reflexivity|].
          exists (kpre ++ [k]), kmid, kpost. cbn [fst snd]. auto.
        + apply IH; [exact E'|exact H2|]. cbn [length] in Hf. lia.
    Qed.

    Lemma drain_back m kmid : forall kpre kpost it fuel,
      ks = kpre ++ kmid ++ kpost -> pending O n it (kslots (length kpre) kmid) -> (length kmid < fuel)%nat ->
      exists s', Drain_loop O Back fuel
          (map (fun _ => None) kpre ++ map m kmid ++ map (fun _ => None) kpost, it) =
          Val (fst (deque_step Back (pm_entries kmid m)), s') /\
        drained m s' (snd (deque_step Back (pm_entries kmid m))).
    Proof.
      induction kmid as [|k kmid IH] using rev_ind; intros kpre kpost it fuel E H Hf;
        (destruct fuel as [|fuel]; [cbn in Hf; lia|]); cbn [Drain_loop]; unfold TIterMut_step;
        destruct (enumerate_refines HO Back H) as (it' & E1 & H'); rewrite E1; cbn [bind].
      - cbn [kslots slots_from length seq map combine deque_step fst snd rev] in *.
        eexists. split; [reflexivity|]. exists kpre, [], kpost. auto.
      - rewrite kslots_app in *. change (kslots (length kpre + length kmid) [k]) with
          [(k, N.of_nat (length kpre + length kmid))] in *. rewrite !deque_back in *. cbn [fst snd] in *.
        assert (EA : map (fun _ : K => @None V) kpre ++ map m (kmid ++ [k]) ++ map (fun _ => None) kpost =
                (map (fun _ => None) kpre ++ map m kmid) ++ m k :: map (fun _ => None) kpost).
        { rewrite map_app, <- !app_assoc. reflexivity. }
        rewrite EA.
        rewrite deref_slot by (unfold llen; rewrite app_length, !map_length; reflexivity). cbn [bind].
        rewrite store_slot by (unfold llen; rewrite app_length, !map_length; reflexivity).
        assert (E' : ks = kpre ++ kmid ++ ([k] ++ kpost)) by (rewrite E, <- !app_assoc; reflexivity).
        assert (ES : (map (fun _ : K => @None V) kpre ++ map m kmid) ++ None :: map (fun _ => None) kpost =
                     map (fun _ => None) kpre ++ map m kmid ++ map (fun _ => None) ([k] ++ kpost)).
        { rewrite <- app_assoc. reflexivity. }
        rewrite ES. rewrite pm_entries_app. cbn [pm_entries].
        destruct (m k) as [v|] eqn:Ek.
        + rewrite deque_back. cbn [fst snd]. eexists. split; [reflexivity|].
          exists kpre, kmid, ([k] ++ kpost). cbn [fst snd]. auto.
        + rewrite app_nil_r. apply IH; [exact E'|exact H'|]. rewrite app_length in Hf. cbn [length] in Hf. lia.
    Qed.

    Lemma drain_refines m : refines (Drain_step O) (drained m).
    Proof.
      intros d [st it] l (kpre & kmid & kpost & E & H & Es & ->). cbn [fst snd] in *. subst st.
      unfold Drain_step. cbn [snd].
      assert (Hf : (length kmid < S (length (e_items it)))%nat).
      { rewrite (pending_len H), kslots_length. lia. }
      destruct d; [now apply drain_front|now apply drain_back].
    Qed.

    (** What is in the storage when the drain is leaked. *)
    Lemma drained_storage eqd m s l : drained m s l ->
      fst s = map (pm_restrict eqd m (map fst l)) ks.
    Proof.
      intros (kpre & kmid & kpost & E & _ & Es & ->). rewrite Es, E, !map_app.
      assert (Hnd : NoDup ks) by (destruct Hks as [Hn _]; exact (numbered_NoDup Hn)).
      rewrite E in Hnd.
      assert (Hout : forall k, In k kpre \/ In k kpost -> ~ In k kmid).
      { intros k Hk Hm. pose proof (nodup_app_r Hnd) as Hnd'. destruct Hk as [Hk|Hk].
        - apply in_split in Hk. destruct Hk as (a & b & ->). rewrite <- app_assoc in Hnd. cbn [app] in Hnd.
          apply NoDup_remove_2 in Hnd. apply Hnd. rewrite !in_app_iff. auto.
        - apply in_split in Hk. destruct Hk as (a & b & ->). rewrite app_assoc in Hnd'.
          apply NoDup_remove_2 in Hnd'. apply Hnd'. rewrite !in_app_iff. auto. }
      f_equal; [|f_equal].
      - apply map_ext_in. intros k Hk. unfold pm_restrict, mem.
        destruct (in_dec eqd k (map fst (pm_entries kmid m))) as [Hi|_]; [|reflexivity].
        apply pm_entries_fst_In in Hi. exfalso. eapply Hout; [left; exact Hk|tauto].
      - apply map_ext_in. intros k Hk. unfold pm_restrict, mem.
        destruct (in_dec eqd k (map fst (pm_entries kmid m))) as [Hi|Hi]; [reflexivity|].
        destruct (m k) as [v|] eqn:Ek; [|reflexivity]. exfalso. apply Hi. apply pm_entries_fst_In.
        split; [exact Hk|congruence].
      - apply map_ext_in. intros k Hk. unfold pm_restrict, mem.
        destruct (in_dec eqd k (map fst (pm_entries kmid m))) as [Hi|_]; [|reflexivity].
        apply pm_entries_fst_In in Hi. exfalso. eapply Hout; [right; exact Hk|tauto].
    Qed.

    Lemma drained_len m s l : drained m s l -> llen l <= TIterMut_len (snd s).
    Proof.
      intros (kpre & kmid & kpost & E & H & Es & ->). unfold TIterMut_len. rewrite (pending_snoc_len H).
      unfold llen. rewrite kslots_length. clear. induction kmid as [|k l IH]; [reflexivity|].
      cbn [pm_entries]. destruct (m k); cbn [length]; lia.
    Qed.

    Lemma drain_drop_ok m s l : drained m s l ->
      Drain_drop O s = Val (map (fun _ => None) ks, l).
    Proof.
      intros H. unfold Drain_drop.
      destruct (@collect_refines _ _ _ _ (@drain_refines m) (S (length (e_items (snd s)))) s l H) as (s' & E & H').
      - pose proof (drained_len H) as Hl. unfold TIterMut_len, enumerate_len, llen in Hl. lia.
      - rewrite E. cbn [bind]. destruct H' as (kpre & kmid & kpost & Ek & _ & Es & En).
        rewrite Es, Ek, !map_app. do 3 f_equal. f_equal. apply map_ext_in. intros k Hk.
        destruct (m k) as [v|] eqn:E2; [|reflexivity]. exfalso.
        assert (G : In (k, v) (pm_entries kmid m)) by (apply pm_entries_In; auto). rewrite <- En in G. exact G.
    Qed.
  End Sparse.
End Mut.
