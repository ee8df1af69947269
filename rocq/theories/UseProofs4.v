(** * UseProofs4: whole programs over OrdinalTotalArrayMap::from_array whose key type has too
    many values. *)
From Verif Require Import Base Spec SpecMap SpecTotal SpecMem SpecIter ModelOrdinal ModelValues
  ModelArrayBuilder ModelIter ModelTotal SpecUniverse ModelUniverse ModelMono TotalMachine ModelUse SpecUse
  BaseProofs IterLib ValuesProofs IterProofs MapLib MapIterProofs MapProofs ArrayProofs TotalProofs SafetyProofs
  UniverseProofs2 UniverseProofs4 MonoProofs UseProofs UseProofs2.
From Coq Require Import List Lia Sorted.
Import ListNotations.
Set Implicit Arguments.
Unset Strict Implicit.

Section Slots.
  Context {cfg : Config} (t : ty) (C : overflow_checks = true) (A : inst_ordinal t = Val tt).
  Notation O := (impl_of t).
  Notation K := (type_of t).
  Context (ks : list K) (Hn : numbered O 0 ks) (Hu : llen ks <= usize_max).

  Lemma first_at k i : ordinal O k = Val i -> i < llen ks -> nth_error ks (N.to_nat i) = Some k.
  Proof.
    intros Hk Hi. apply (@UseProofs2.numbered_nth cfg t C A 0%nat 0 ks k (N.to_nat i) Hn).
    split; [|unfold llen in Hi; lia]. rewrite Hk. f_equal. lia.
  Qed.

  Lemma first_In k i : ordinal O k = Val i -> (In k ks <-> i < llen ks).
  Proof.
    intros Hk. split.
    - intros H. apply In_nth_error in H. destruct H as [j Hj].
      assert (L : (j < length ks)%nat) by (apply nth_error_Some; rewrite Hj; discriminate).
      apply (MapLib.numbered_nth Hn) in Hj. rewrite Hk in Hj. injection Hj as ->. unfold llen. lia.
    - intros H. exact (nth_error_In _ _ (first_at Hk H)).
  Qed.

  Lemma first_NoDup : NoDup ks.
  Proof. exact (numbered_NoDup Hn). Qed.

  Lemma first_split k i : ordinal O k = Val i -> i < llen ks ->
    exists l1 l2, ks = l1 ++ k :: l2 /\ i = llen l1 /\ ~ In k l1 /\ ~ In k l2.
  Proof.
    intros Hk Hi. pose proof (first_at Hk Hi) as E. apply nth_error_split in E.
    destruct E as (l1 & l2 & E & Hlen). exists l1, l2. split; [exact E|]. split; [unfold llen; lia|].
    pose proof first_NoDup as H. rewrite E in H. apply NoDup_remove_2 in H. rewrite in_app_iff in H. tauto.
  Qed.

  Section Ops.
    Context {V : Type} (eqd : forall a b : K, {a = b} + {a <> b}).
    Implicit Types m : tmap K V.

    Lemma first_get m k i : ordinal O k = Val i -> i < llen ks -> slice_get (map m ks) i = Some (m k).
    Proof. intros Hk Hi. unfold slice_get. rewrite nth_error_map, (first_at Hk Hi). reflexivity. Qed.
    Lemma first_index m k i : ordinal O k = Val i -> i < llen ks -> index (map m ks) i = Val (m k).
    Proof. intros Hk Hi. unfold index. fold (slice_get (map m ks) i). rewrite (first_get m Hk Hi). reflexivity. Qed.
    Lemma first_deref m k i : ordinal O k = Val i -> i < llen ks -> deref (map m ks) i = Val (m k).
    Proof. intros Hk Hi. unfold deref. rewrite (first_get m Hk Hi). reflexivity. Qed.
    Lemma first_store m k i v : ordinal O k = Val i -> i < llen ks ->
      store_at (map m ks) i v = map (tm_set eqd m k v) ks.
    Proof.
      intros Hk Hi. destruct (first_split Hk Hi) as (l1 & l2 & E & Ei & H1 & H2).
      rewrite (map_set eqd m v E H1 H2), E, map_app. cbn [map].
      apply store_slot. unfold llen in *. rewrite map_length. exact Ei.
    Qed.

    Lemma first_pend m : pend (TIter_new (map m ks) 0) (tm_entries ks m).
    Proof.
      unfold tm_entries. split; [|split]; cbn [TIter_new enumerate_new e_next e_items].
      - rewrite map_map. cbn [fst]. rewrite map_id. exact Hn.
      - rewrite map_map. reflexivity.
      - unfold llen in *. rewrite map_length. lia.
    Qed.

    Lemma first_slots : pend (TIterMut_new (slots (length ks))) (kslots 0 ks).
    Proof.
      split; [|split]; cbn [TIterMut_new enumerate_new e_next e_items].
      - rewrite kslots_fst. exact Hn.
      - rewrite kslots_snd. reflexivity.
      - unfold llen in *. rewrite kslots_length. lia.
    Qed.

    Definition points m (ki : K * N) (kv : K * V) : Prop :=
      fst ki = fst kv /\ ordinal O (fst ki) = Val (snd ki) /\ m (fst ki) = snd kv.

    Lemma first_points m : Forall2 (points m) (kslots 0 ks) (tm_entries ks m).
    Proof.
      assert (G : forall a l, numbered O (N.of_nat a) l -> Forall2 (points m) (kslots a l) (tm_entries l m)).
      { intros a l. revert a. induction l as [|k l IH]; intros a H; [constructor|]. rewrite kslots_cons.
        inversion H as [|? ? ? H1 H2 H3]; subst. constructor.
        - split; [reflexivity|]. split; [exact H2|reflexivity].
        - apply IH. replace (N.of_nat (Datatypes.S a)) with (N.of_nat a + 1) by lia. exact H3. }
      exact (G 0%nat ks Hn).
    Qed.

    Lemma got_NoDup m sched : NoDup (map fst (somes (fst (deque_run sched (tm_entries ks m))))).
    Proof.
      rewrite <- somes_map.
      assert (E : map (opt_map fst) (fst (deque_run sched (tm_entries ks m))) = fst (deque_run sched ks)).
      { assert (E' : map fst (tm_entries ks m) = ks) by (unfold tm_entries; rewrite map_map; apply map_id).
        rewrite <- E' at 2. rewrite deque_run_map. reflexivity. }
      rewrite E. destruct (deque_run_parts sched ks) as (a & b & _ & _ & G). apply G, first_NoDup.
    Qed.

    Lemma write_ok f got : forall got' m,
      Forall2 (opt_rel (points m)) got got' -> NoDup (map fst (somes got')) ->
      (forall k, In k (map fst (somes got')) -> In k ks) ->
      twrite_entries f got (map m ks) = Val (got', map (tm_update eqd m (map fst (somes got')) f) ks).
    Proof.
      induction got as [|g got IH]; intros got' m HF Hnd Hin; inversion HF as [|? g' ? r' Hg HF' E1 E2]; subst.
      - cbn [twrite_entries somes flat_map map]. do 2 f_equal.
      - destruct g as [[k i]|], g' as [[k' v]|]; cbn [opt_rel] in Hg; try contradiction.
        + destruct Hg as (Gk & Go & Gm). cbn [fst snd] in *. subst k'.
          cbn [twrite_entries].
          cbn [somes flat_map app map fst] in Hnd, Hin. fold (somes r') in Hnd, Hin.
          assert (Hi : i < llen ks) by (apply (first_In Go), Hin; left; reflexivity).
          rewrite (first_deref m Go Hi), Gm. cbn [bind].
          rewrite (first_store m (f k v) Go Hi).
          inversion Hnd as [|? ? Hk Hnd']; subst.
          rewrite (IH r' (tm_set eqd m k (f k (m k)))).
          * cbn [bind]. do 2 f_equal. apply map_ext. intros x. cbn [somes flat_map app map fst].
            fold (somes r'). unfold tm_update.
            destruct (in_dec eqd x (map fst (somes r'))) as [Hx|Hx].
            -- destruct (in_dec eqd x (k :: map fst (somes r'))) as [_|Hx']; [|exfalso; apply Hx'; now right].
               unfold tm_set. destruct (eqd k x); [congruence|reflexivity].
            -- unfold tm_set. destruct (in_dec eqd x (k :: map fst (somes r'))) as [[<-|Hx']|Hx'].
               ++ destruct (eqd k k); [reflexivity|congruence].
               ++ contradiction.
               ++ destruct (eqd k x) as [->|_]; [exfalso; apply Hx'; now left|reflexivity].
          * revert HF'. apply Forall2_impl_in. intros a b Ha Hb Hab.
            destruct a as [[ka ia]|], b as [[kb vb]|]; cbn [opt_rel] in *; auto.
            destruct Hab as (A1 & A2 & A3). cbn [fst snd] in *. subst kb. split; [reflexivity|]. split; [exact A2|].
            cbn [fst snd]. unfold tm_set. destruct (eqd k ka) as [->|_]; [|exact A3].
            exfalso. apply Hk. apply in_map_iff. exists (ka, vb). split; [reflexivity|].
            unfold somes. apply in_flat_map. exists (Some (ka, vb)). split; [exact Hb|left; reflexivity].
          * exact Hnd'.
          * intros x Hx. apply Hin. right. exact Hx.
        + cbn [twrite_entries]. cbn [somes flat_map app] in *. fold (somes r') in *.
          rewrite (IH r' m HF' Hnd Hin). reflexivity.
    Qed.

    Lemma got_In m sched k : In k (map fst (somes (fst (deque_run sched (tm_entries ks m))))) -> In k ks.
    Proof.
      rewrite <- somes_map.
      assert (E : map (opt_map fst) (fst (deque_run sched (tm_entries ks m))) = fst (deque_run sched ks)).
      { assert (E' : map fst (tm_entries ks m) = ks) by (unfold tm_entries; rewrite map_map; apply map_id).
        rewrite <- E' at 2. rewrite deque_run_map. reflexivity. }
      rewrite E. destruct (deque_run_parts sched ks) as (a & b & Ep & Hr & _).
      intros H. apply Hr in H. rewrite Ep, !in_app_iff, <- in_rev. tauto.
    Qed.

    Lemma iter_mut_write m sched f : exists s' got,
      drive (TIterMut_step O) sched (TIterMut_new (slots (length (map m ks)))) = Val (got, s') /\
      twrite_entries f got (map m ks) =
        Val (fst (deque_run sched (tm_entries ks m)),
             map (tm_update eqd m (map fst (somes (fst (deque_run sched (tm_entries ks m))))) f) ks).
    Proof.
      rewrite map_length.
      destruct (@drive_refines _ _ _ _ (@pend_refines cfg t C _) sched _ _ first_slots) as (s' & E & _).
      eexists s', _. split; [exact E|].
      apply write_ok; [|apply got_NoDup|intros k; apply got_In]. apply deque_run_rel, first_points.
    Qed.

    Lemma values_mut_write m sched f :
      exists got, drive slice_step sched (slots (length (map m ks))) = Val (got, snd (deque_run sched (slots (length ks)))) /\
      twrite_values f got (map m ks) =
        Val (map (opt_map snd) (fst (deque_run sched (tm_entries ks m))),
             map (tm_update eqd m (map fst (somes (fst (deque_run sched (tm_entries ks m))))) (fun _ => f)) ks).
    Proof.
      rewrite map_length, slice_drive.
      exists (fst (deque_run sched (slots (length ks)))). split; [f_equal; apply surjective_pairing|].
      assert (E : slots (length ks) = map snd (kslots 0 ks)) by (rewrite kslots_snd; reflexivity).
      rewrite E, deque_run_map. cbn [fst]. apply twrite_values_entries.
      apply (write_ok (fun _ => f)); [|apply got_NoDup|intros k; apply got_In]. apply deque_run_rel, first_points.
    Qed.

    Context (S : nat).

    (** One operation on keys that have a slot. *)
    Lemma first_step_ok op m (a : OrdinalTotalArrayMap S V) : arr_list a = map m ks ->
      (forall k, In k (keys_given op) -> In k ks) -> lists_all_keys op = false ->
      exists a', atotal_step O op a = Val (fst (total_step eqd ks op m), a') /\
        arr_list a' = map (snd (total_step eqd ks op m)) ks.
    Proof.
      intros Ea Hg Hl.
      assert (Hlen : N.of_nat S = llen ks) by (unfold llen; rewrite <- (map_length m ks), <- Ea, arr_length; reflexivity).
      assert (T : forall k, In k ks -> exists i, ordinal O k = Val i /\ i < llen ks).
      { intros k H. destruct (@numbered_In _ _ _ _ _ Hn H) as (i & Hi & Hr). exists i. split; [exact Hi|lia]. }
      destruct op; cbn [atotal_step total_step fst snd keys_given] in *.
      - destruct (T k (Hg _ (or_introl eq_refl))) as (i & Hi & Hlt). unfold OrdinalTotalArrayMap_get. rewrite Hi. cbn [bind].
        rewrite Ea, (first_index m Hi Hlt). cbn [bind]. eauto.
      - destruct (T k (Hg _ (or_introl eq_refl))) as (i & Hi & Hlt). unfold OrdinalTotalArrayMap_index. rewrite Hi. cbn [bind].
        rewrite Ea, (first_index m Hi Hlt). cbn [bind]. eauto.
      - destruct (T k (Hg _ (or_introl eq_refl))) as (i & Hi & Hlt). unfold OrdinalTotalArrayMap_get_mut, index_slot. rewrite Hi. cbn [bind].
        rewrite Ea, (first_index m Hi Hlt). cbn [bind]. rewrite (first_deref m Hi Hlt). cbn [bind].
        eexists. split; [reflexivity|]. cbn [arr_list arr_store]. rewrite Ea.
        exact (first_store m v Hi Hlt).
      - destruct (T k (Hg _ (or_introl eq_refl))) as (i & Hi & Hlt). unfold OrdinalTotalArrayMap_index_mut, index_slot. rewrite Hi. cbn [bind].
        rewrite Ea, (first_index m Hi Hlt). cbn [bind]. rewrite (first_deref m Hi Hlt). cbn [bind].
        eexists. split; [reflexivity|]. cbn [arr_list arr_store]. rewrite Ea.
        exact (first_store m v Hi Hlt).
      - destruct (T k (Hg _ (or_introl eq_refl))) as (i & Hi & Hlt). unfold OrdinalTotalArrayMap_insert. rewrite Hi. cbn [bind].
        rewrite Ea, (first_index m Hi Hlt). cbn [bind].
        eexists. split; [reflexivity|]. cbn [arr_list arr_store]. rewrite Ea.
        exact (first_store m v Hi Hlt).
      - unfold OrdinalTotalArrayMap_len. rewrite Hlen. eauto.
      - unfold OrdinalTotalArrayMap_is_empty, OrdinalTotalArrayMap_len. rewrite Hlen. exists a. split; [|exact Ea].
        do 2 f_equal. destruct ks; reflexivity.
      - unfold OrdinalTotalArrayMap_iter. rewrite Ea.
        destruct (@drive_refines _ _ _ _ (@pend_refines cfg t C _) sched _ _ (first_pend m)) as (s' & E & _).
        assert (E' : drive (TIter_step O) sched (TIter_new (map m ks) 0) =
          Val (fst (deque_run sched (tm_entries ks m)), s')) by exact E. rewrite E'. cbn [bind]. eauto.
      - unfold OrdinalTotalArrayMap_iter_mut. rewrite Ea. destruct (iter_mut_write m sched f) as (s' & got & E & W).
        rewrite E. cbn [bind]. rewrite W. cbn [bind]. exact (tback_ok _ _ Ea).
      - unfold OrdinalTotalArrayMap_values_mut. rewrite Ea. destruct (values_mut_write m sched f) as (got & E & W).
        rewrite E. cbn [bind]. rewrite W. cbn [bind]. exact (tback_ok _ _ Ea).
      - discriminate Hl.
      - unfold OrdinalTotalArrayMap_values. rewrite slice_drive, Ea. destruct (deque_run sched (map m ks)).
        cbn [bind]. eauto.
      - eexists. split; [reflexivity|]. cbn [OrdinalTotalArrayMap_clone arr_clone arr_list].
        rewrite Ea, map_map. reflexivity.
      - unfold OrdinalTotalArrayMap_debug, OrdinalTotalArrayMap_iter. rewrite Ea.
        destruct (@collect_refines _ _ _ _ (@pend_refines cfg t C _) (Datatypes.S (length (map m ks))) _ _ (first_pend m)) as (s' & E & _).
        { unfold tm_entries. rewrite !map_length. lia. }
        assert (E' : collect (TIter_step O Front) (Datatypes.S (length (map m ks))) (TIter_new (map m ks) 0) =
          Val (tm_entries ks m, s')) by exact E. rewrite E'. cbn [bind]. eauto.
    Qed.

    (** An operation on a key that has none. *)
    Lemma index_beyond (l : list V) i : llen l <= i -> index l i = Panic PIndex.
    Proof.
      intros H. unfold index. assert (E : nth_error l (N.to_nat i) = None) by (apply nth_error_None; unfold llen in H; lia).
      rewrite E. reflexivity.
    Qed.

    Lemma first_step_panics op m (a : OrdinalTotalArrayMap S V) k : arr_list a = map m ks ->
      In k (keys_given op) -> ~ In k ks -> exists w, atotal_step O op a = Panic w.
    Proof.
      intros Ea Hg Hk. pose proof (inst_safe A k) as Sf.
      assert (P : (exists w, ordinal O k = Panic w) \/ exists i, ordinal O k = Val i /\ index (arr_list a) i = Panic PIndex).
      { destruct (ordinal O k) as [i|w| | |] eqn:E; try contradiction Sf; [|left; eauto].
        right. exists i. split; [reflexivity|]. apply index_beyond. rewrite Ea. unfold llen. rewrite map_length.
        fold (llen ks). destruct (N.le_gt_cases (llen ks) i) as [L|L]; [exact L|].
        exfalso. apply Hk, (first_In E), L. }
      destruct op; cbn [keys_given] in Hg; try contradiction Hg; destruct Hg as [->|[]]; cbn [atotal_step];
        unfold OrdinalTotalArrayMap_get, OrdinalTotalArrayMap_index, OrdinalTotalArrayMap_get_mut,
          OrdinalTotalArrayMap_index_mut, OrdinalTotalArrayMap_insert, index_slot;
        destruct P as [[w ->]|(i & -> & E)]; cbn [bind]; try rewrite E; cbn [bind]; eauto.
    Qed.

    Lemma first_run ops : forall m (a : OrdinalTotalArrayMap S V), arr_list a = map m ks ->
      Forall (fun op => lists_all_keys op = false) ops ->
      ((forall k, In k (flat_map keys_given ops) -> In k ks) ->
        exists a', atotal_run O ops a = Val (fst (total_run eqd ks ops m), a') /\
          arr_list a' = map (snd (total_run eqd ks ops m)) ks) /\
      ((exists k, In k (flat_map keys_given ops) /\ ~ In k ks) -> exists w, atotal_run O ops a = Panic w).
    Proof.
      induction ops as [|op ops IH]; intros m a Ea Hl.
      - split; [intros _; cbn; eauto|]. intros (k & [] & _).
      - inversion Hl as [|? ? Hl1 Hl2]; subst. cbn [atotal_run total_run flat_map].
        assert (D : (forall k, In k (keys_given op) -> In k ks) \/ exists k, In k (keys_given op) /\ ~ In k ks).
        { destruct op; cbn [keys_given]; try (left; intros ? []; fail);
            (destruct (in_dec eqd k ks) as [Y|Y]; [left; intros ? [<-|[]]; exact Y|right; exists k; split; [left; reflexivity|exact Y]]). }
        destruct D as [D|D].
        + destruct (first_step_ok Ea D Hl1) as (a1 & E1 & H1). rewrite E1. cbn [bind].
          destruct (total_step eqd ks op m) as [o m']. cbn [fst snd] in *.
          destruct (IH m' a1 H1 Hl2) as [P Q]. split.
          * intros H. destruct P as (a2 & E2 & H2); [intros k Hk; apply H, in_or_app; right; exact Hk|].
            rewrite E2. cbn [bind]. destruct (total_run eqd ks ops m'). cbn [fst snd] in *. eauto.
          * intros (k & Hk & Hno). apply in_app_or in Hk. destruct Hk as [Hk|Hk]; [contradiction (Hno (D k Hk))|].
            destruct Q as [w E2]; [eauto|]. rewrite E2. cbn [bind]. eauto.
        + destruct D as (k & Hk & Hno). split.
          * intros H. contradiction (Hno (H k (in_or_app _ _ _ (or_introl Hk)))).
          * intros _. destruct (first_step_panics Ea Hk Hno) as [w E]. rewrite E. cbn [bind]. eauto.
    Qed.
  End Ops.
End Slots.

Section Programs.
  Context {cfg : Config} (t : ty).
  Notation O := (impl_of t).

  Lemma ordinal_then_from : inst_ordinal t = Val tt -> inst_from t = Val tt.
  Proof.
    induction t as [p|u IH|u IH|a b IHa IHb|a b IHa IHb|u len IH|ts IH|d IH|vs IH] using ty_ind'; intros H.
    - apply sized_from, prim_inst_sized, H.
    - exact (IH H).
    - exact (IH H).
    - destruct (inst_result H) as [Ha Hb]. cbn [inst_from]. rewrite !seq_val, mentions_val.
      split; [exact Ha|]. split; [apply sized_from, Ha|exact (IHb Hb)].
    - change (inst_ordinal (TResult a b) = Val tt) in H. destruct (inst_result H) as [Ha Hb]. cbn [inst_from].
      rewrite !seq_val, mentions_val. split; [exact Ha|]. split; [apply sized_from, Ha|exact (IHb Hb)].
    - pose proof (inst_array H) as Ha. cbn [inst_from]. rewrite !seq_val, mentions_val. split; [exact Ha|apply sized_from, Ha].
    - apply sized_from, inst_tuple, H.
    - apply sized_from, inst_struct, H.
    - apply sized_from, inst_enum, H.
  Qed.

  Lemma no_listing V (ops : list (total_op (type_of t) V)) : existsb lists_all_keys ops = false ->
    Forall (fun op => lists_all_keys op = false) ops.
  Proof.
    intros H. apply Forall_forall. intros op Hin. destruct (lists_all_keys op) eqn:E; [|reflexivity].
    rewrite <- H. symmetry. apply existsb_exists. eauto.
  Qed.

  Lemma from_array_needs V (ops : list (total_op (type_of t) V)) : inst_ordinal t = Val tt ->
    existsb lists_all_keys ops = false -> inst_needs t (needs_from_array ++ flat_map needs_total_array ops) = Val tt.
  Proof.
    intros A H. apply no_listing in H. cbn [needs_from_array app]. apply needs_val, Forall_forall.
    intros x Hx. apply in_flat_map in Hx. destruct Hx as (op & Hin & Hx).
    rewrite Forall_forall in H. specialize (H op Hin).
    destruct op; cbn in Hx; try discriminate H; try contradiction Hx; destruct Hx as [<-|[]];
      first [exact A|exact (ordinal_then_from A)].
  Qed.

  (** *** Operations on slots: any key type *)
  Section SlotsOnly.
    Context {V : Type} (S : nat).

    Lemma values_written (f : V -> V) sched : forall l got r, drive slice_step sched (slots l) = Val (got, r) ->
      forall st, length st = l -> exists l' st', twrite_values f got st = Val (l', st') /\ length st' = l.
    Proof.
      intros l got r E. rewrite slice_drive in E. injection E as E.
      assert (G : Forall (fun o => match o with Some i => i < N.of_nat l | None => True end) got).
      { apply Forall_forall. intros [i|] Hi; [|exact I].
        destruct (deque_run_parts sched (slots l)) as (x & y & Ep & Hr & _). rewrite E in Hr, Ep. cbn [fst snd] in *.
        assert (Hin : In i (somes got)) by (unfold somes; apply in_flat_map; exists (Some i); split; [exact Hi|left; reflexivity]).
        apply Hr in Hin. assert (Hs : In i (slots l)) by (rewrite Ep, !in_app_iff, <- in_rev; tauto).
        unfold slots in Hs. apply in_map_iff in Hs. destruct Hs as (j & <- & Hj). apply in_seq in Hj. lia. }
      clear E r. induction G as [|o got Ho G IH]; intros st L; [cbn; eauto|].
      destruct o as [i|]; cbn [twrite_values].
      - unfold deref, slice_get. destruct (nth_error st (N.to_nat i)) as [old|] eqn:E.
        + cbn [bind]. destruct (IH (store_at st i (f old))) as (l' & st' & E' & L').
          { unfold store_at. rewrite list_set_length. exact L. }
          rewrite E'. cbn [bind]. eauto.
        + exfalso. apply nth_error_None in E. lia.
      - destruct (IH st L) as (l' & st' & E' & L'). rewrite E'. cbn [bind]. eauto.
    Qed.

    Lemma slots_step op (a : OrdinalTotalArrayMap S V) : slots_only op ->
      exists o a', atotal_step O op a = Val (o, a') /\ slots_answer S op o.
    Proof.
      intros H. destruct op; try contradiction H; cbn [atotal_step slots_answer].
      - eexists _, _. split; reflexivity.
      - eexists _, _. split; [reflexivity|]. unfold OrdinalTotalArrayMap_is_empty, OrdinalTotalArrayMap_len.
        destruct S; reflexivity.
      - unfold OrdinalTotalArrayMap_values_mut.
        destruct (drive slice_step sched (slots (length (arr_list a)))) as [[got r]| | | |] eqn:E;
          try (rewrite slice_drive in E; discriminate E).
        cbn [bind]. destruct (values_written f E eq_refl) as (l' & st' & E' & L').
        rewrite E'. cbn [bind]. unfold tback. cbn [fst snd].
        destruct (@try_arr_ok V S st') as (a' & E1 & _); [rewrite L'; apply arr_length|]. rewrite E1. eauto.
      - rewrite slice_drive. destruct (deque_run sched _). cbn [bind]. eauto.
      - eauto.
    Qed.

    Lemma slots_run ops : Forall slots_only ops -> forall a : OrdinalTotalArrayMap S V,
      exists outs a', atotal_run O ops a = Val (outs, a') /\ Forall2 (slots_answer S) ops outs.
    Proof.
      induction 1 as [|op ops Hop Hops IH]; intros a; [cbn; eauto|]. cbn [atotal_run].
      destruct (slots_step a Hop) as (o & a1 & E & Ho). rewrite E. cbn [bind].
      destruct (IH a1) as (outs & a2 & E2 & H2). rewrite E2. cbn [bind]. eauto.
    Qed.

    Lemma from_array_slots (a : arr V S) (ops : list (total_op (type_of t) V)) : Forall slots_only ops ->
      exists outs m, compiled_from_array t a ops = Val (outs, m) /\ Forall2 (slots_answer S) ops outs.
    Proof.
      intros H. unfold compiled_from_array.
      assert (I : inst_needs t (needs_from_array ++ flat_map needs_total_array ops) = Val tt).
      { cbn [needs_from_array app]. apply needs_val, Forall_forall. intros x Hx. apply in_flat_map in Hx.
        destruct Hx as (op & Hin & Hx). rewrite Forall_forall in H. specialize (H op Hin).
        destruct op; cbn in Hx, H; tauto. }
      rewrite I. cbn [bind OrdinalTotalArrayMap_from_array]. exact (slots_run H a).
    Qed.
  End SlotsOnly.

  Lemma total_len_needs : ORDINAL_SIZE O = NoCompile ->
    forall V, inst_needs t (needs_total (TLen : total_op (type_of t) V)) = NoCompile /\
      inst_needs t (needs_total (TIsEmpty : total_op (type_of t) V)) = NoCompile.
  Proof. intros U V. split; apply (@unsized_fail cfg t U _ NSize); cbn; auto. Qed.

  Lemma from_array_run (C : overflow_checks = true) (A : inst_ordinal t = Val tt)
      (U : ORDINAL_SIZE O = NoCompile) n V S (a : arr V S)
      (eqd : forall x y : type_of t, {x = y} + {x <> y}) :
    has_values (type_of t) n -> N.of_nat S <= n -> N.of_nat S <= usize_max ->
    exists ks, length ks = S /\
      (forall k i, nth_error ks i = Some k <-> (i < S)%nat /\ ordinal O k = Val (N.of_nat i)) /\
      (V -> exists m, arr_list a = map m ks) /\
      forall m, arr_list a = map m ks -> forall ops,
        (existsb lists_all_keys ops = true -> compiled_from_array t a ops = NoCompile) /\
        (existsb lists_all_keys ops = false -> (forall k, In k (flat_map keys_given ops) -> In k ks) ->
          exists a', compiled_from_array t a ops = Val (fst (total_run eqd ks ops m), a') /\
            arr_list a' = map (snd (total_run eqd ks ops m)) ks) /\
        (existsb lists_all_keys ops = false -> (exists k, In k (flat_map keys_given ops) /\ ~ In k ks) ->
          exists w, compiled_from_array t a ops = Panic w).
  Proof.
    intros Hv H1 H2. destruct (@first_keys cfg t C A n S 0 Hv) as (ks & Hn & Lk); [lia|lia|].
    assert (Hu : llen ks <= usize_max) by (unfold llen; rewrite Lk; lia).
    exists ks. split; [exact Lk|]. split; [|split].
    - intros k i. rewrite <- (@UseProofs2.numbered_nth cfg t C A 0%nat 0 ks k i Hn), Lk, N.add_0_l. tauto.
    - intros v0. exists (fun k => match assoc eqd ks (arr_list a) k with Some v => v | None => v0 end).
      assert (L : length (arr_list a) = length ks) by (rewrite arr_length; symmetry; exact Lk).
      pose proof (assoc_map eqd (numbered_NoDup Hn) L) as E.
      rewrite <- (map_map (assoc eqd ks (arr_list a)) (fun o => match o with Some v => v | None => v0 end)), E, map_map, map_id.
      reflexivity.
    - intros m Ea ops. split; [|split].
      + intros Hex. apply existsb_exists in Hex. destruct Hex as (op & Hin & Hop).
        unfold compiled_from_array. rewrite (@unsized_fail cfg t U (needs_from_array ++ flat_map needs_total_array ops) NSize); [reflexivity| |exact I].
        apply in_or_app. right. apply in_flat_map. exists op. split; [exact Hin|].
        destruct op; try discriminate Hop. left. reflexivity.
      + intros Hno Hk. unfold compiled_from_array.
        rewrite (from_array_needs A Hno). cbn [bind OrdinalTotalArrayMap_from_array].
        destruct (first_run C A Hn Hu eqd Ea (no_listing Hno)) as [P _]. exact (P Hk).
      + intros Hno Hk. unfold compiled_from_array.
        rewrite (from_array_needs A Hno). cbn [bind OrdinalTotalArrayMap_from_array].
        destruct (first_run C A Hn Hu eqd Ea (no_listing Hno)) as [_ P]. exact (P Hk).
  Qed.
End Programs.
