(** * MapProofs: the sparse maps refine mathematical partial maps. *)
From Verif Require Import Base Spec SpecMap ModelOrdinal ModelValues ModelArrayBuilder ModelIter ModelTotal
  ModelMap MapMachine BaseProofs IterLib ValuesProofs IterProofs MapLib MapIterProofs MapMutProofs ArrayProofs.
From Coq Require Import List. Import ListNotations.
Unset Strict Implicit.

Lemma Forall2_impl_in {A B} (P Q : A -> B -> Prop) l l' :
  (forall a b, In a l -> In b l' -> P a b -> Q a b) -> Forall2 P l l' -> Forall2 Q l l'.
Proof.
  intros H HF. induction HF as [|a b l l' Hab HF IH]; constructor.
  - apply H; [left; reflexivity|left; reflexivity|exact Hab].
  - apply IH. intros x y Hx Hy. apply H; right; assumption.
Qed.

Section MapRefine.
  Context {cfg : Config} {K V : Type} (O : Ordinal K) (n : N) (HO : ordinal_bijection O n).
  Context (eqd : forall a b : K, {a = b} + {a <> b}).
  Context (ks : list K) (He : enumeration O ks).
  Implicit Types m : pmap K V.

  Lemma ks_slots : key_slots O n ks.
  Proof. destruct (enumeration_numbered HO He) as [H1 H2]. split; [exact H1|]. rewrite H2. lia. Qed.
  Lemma nil_slots : key_slots O n [].
  Proof. split; [constructor|]. unfold llen. cbn. lia. Qed.

  (** Storage over the keys [ks'] holds all of [m]. *)
  Definition covers (ks' : list K) m : Prop := key_slots O n ks' /\ forall k, m k <> None -> In k ks'.

  Lemma covers_full m : covers ks m.
  Proof. split; [apply ks_slots|]. intros k _. apply He. Qed.

  (** *** Operations on storage *)
  Section Storage.
    Context (ks' : list K) (Hks : key_slots O n ks').

    Lemma storage_iter m sched :
      exists s', drive (Iter_step O) sched (Iter_new (TIter_new (map m ks') 0)) =
        Val (fst (deque_run sched (pm_entries ks' m)), s') /\
        spending O n (fun o => Val o) (fun o => o) s' (snd (deque_run sched (pm_entries ks' m))).
    Proof.
      apply (@drive_refines _ _ _ _ (Iter_refines HO)). now apply iter_init.
    Qed.

    Lemma storage_into_iter m sched :
      exists s', drive (IntoIter_step O) sched (IntoIter_new (TIntoIter_new (map m ks'))) =
        Val (fst (deque_run sched (pm_entries ks' m)), s') /\
        spending O n (fun o => Val o) (fun o => o) s' (snd (deque_run sched (pm_entries ks' m))).
    Proof.
      apply (@drive_refines _ _ _ _ (IntoIter_refines HO)). now apply iter_init.
    Qed.

    Lemma storage_into_iter_array m sched :
      exists s', drive (IntoIterArray_step O) sched (IntoIterArray_new (TIntoIterArray_new (map m ks'))) =
        Val (fst (deque_run sched (pm_entries ks' m)), s') /\
        spending O n (fun o => Val o) (fun o => o) s' (snd (deque_run sched (pm_entries ks' m))).
    Proof.
      apply (@drive_refines _ _ _ _ (IntoIterArray_refines HO)). now apply iter_init.
    Qed.

    Lemma storage_keys m sched :
      exists s', drive (Keys_step O) sched (Keys_new (Iter_new (TIter_new (map m ks') 0))) =
        Val (fst (deque_run sched (map fst (pm_entries ks' m))), s') /\
        spending O n (fun o => Val o) (fun o => o) s' (snd (deque_run sched (pm_entries ks' m))).
    Proof.
      destruct (storage_iter m sched) as (s' & E & H). exists s'. rewrite deque_run_map. cbn [fst].
      split; [|exact H]. exact (drive_map (@keys_step_map _ _ O V) E).
    Qed.

    Lemma storage_values m sched :
      exists s', drive (Values_step O) sched (Values_new (Iter_new (TIter_new (map m ks') 0))) =
        Val (fst (deque_run sched (map snd (pm_entries ks' m))), s') /\
        spending O n (fun o => Val o) (fun o => o) s' (snd (deque_run sched (pm_entries ks' m))).
    Proof.
      destruct (storage_iter m sched) as (s' & E & H). exists s'. rewrite deque_run_map. cbn [fst].
      split; [|exact H]. exact (drive_map (@values_step_map _ _ O V) E).
    Qed.

    Lemma storage_debug m :
      exists s', collect (Iter_step O Front) (S (length (map m ks'))) (Iter_new (TIter_new (map m ks') 0)) =
        Val (pm_entries ks' m, s').
    Proof. apply (Iter_collect HO). now apply iter_init. Qed.

    Lemma storage_count m : Iter_count O (Iter_new (TIter_new (map m ks') 0)) = Val (llen (pm_entries ks' m)).
    Proof. apply (Iter_count_ok HO). now apply iter_init. Qed.

    Lemma storage_is_empty m : exists s',
      Iter_step O Front (Iter_new (TIter_new (map m ks') 0)) = Val (fst (deque_step Front (pm_entries ks' m)), s').
    Proof.
      destruct (Iter_refines HO Front (iter_init m Hks)) as (s' & E & _). exists s'. exact E.
    Qed.

    Lemma storage_drain m sched :
      exists d, drive (Drain_step O) sched (Drain_new (map m ks') (TIterMut_new (slots (length (map m ks'))))) =
        Val (fst (deque_run sched (pm_entries ks' m)), d) /\
        drained O n ks' m d (snd (deque_run sched (pm_entries ks' m))).
    Proof.
      apply (@drive_refines _ _ _ _ (@drain_refines _ _ _ _ HO ks' V m)).
      rewrite map_length. now apply drained_init.
    Qed.

    Lemma storage_clear m :
      Drain_drop O (Drain_new (map m ks') (TIterMut_new (slots (length (map m ks'))))) =
      Val (map (fun _ => None) ks', pm_entries ks' m).
    Proof. rewrite map_length. exact (drain_drop_ok HO (drained_init Hks m)). Qed.

    (** Mutable iteration: slots of the entries. *)
    Lemma storage_iter_mut m sched :
      exists got s', drive (IterMut_step O (map m ks')) sched
          (IterMut_new (TIterMut_new (slots (length (map m ks'))))) = Val (got, s') /\
        Forall2 (opt_rel (points O m)) got (fst (deque_run sched (pm_entries ks' m))).
    Proof.
      rewrite map_length.
      destruct (@drive_refines _ _ _ _ (@IterMut_refines _ _ O n HO V (map m ks')) sched _ _ (iter_mut_init m Hks))
        as (s' & E & H).
      eexists _, s'. split; [exact E|]. apply deque_run_rel. exact (iter_mut_points m Hks).
    Qed.

    Lemma entries_got_NoDup m sched : NoDup (map fst (somes (fst (deque_run sched (pm_entries ks' m))))).
    Proof.
      rewrite <- somes_map.
      assert (E : map (opt_map fst) (fst (deque_run sched (pm_entries ks' m))) =
                  fst (deque_run sched (map fst (pm_entries ks' m)))) by now rewrite deque_run_map.
      rewrite E. destruct (deque_run_parts sched (map fst (pm_entries ks' m))) as (a & b & _ & _ & G).
      apply G, pm_entries_NoDup. destruct Hks as [Hn _]. exact (numbered_NoDup Hn).
    Qed.

    Lemma tm_set_same m k v : tm_set eqd m k v k = v.
    Proof. unfold tm_set. destruct (eqd k k); congruence. Qed.
    Lemma tm_set_other m k v k' : k <> k' -> tm_set eqd m k v k' = m k'.
    Proof. unfold tm_set. destruct (eqd k k'); congruence. Qed.

    Lemma slot_lt m k i : (forall k, m k <> None -> In k ks') -> ordinal O k = Val i -> m k <> None -> i < llen ks'.
    Proof.
      intros Hd Hk Hm. destruct Hks as [Hn _].
      destruct (@numbered_In _ O _ _ _ Hn (Hd k Hm)) as (j & Hj & Hr). assert (i = j) by congruence. lia.
    Qed.

    Lemma write_entries_ok f got : forall got' m, (forall k, m k <> None -> In k ks') ->
      Forall2 (opt_rel (points O m)) got got' -> NoDup (map fst (somes got')) ->
      write_entries f got (map m ks') = Val (got', map (pm_update eqd m (map fst (somes got')) f) ks').
    Proof.
      induction got as [|g got IH]; intros got' m Hd HF Hnd; inversion HF as [|? g' ? r' Hg HF' E1 E2]; subst.
      - cbn [write_entries somes flat_map map]. do 2 f_equal.
      - destruct g as [[k i]|], g' as [[k' v]|]; cbn [opt_rel] in Hg; try contradiction.
        + destruct Hg as (Gk & Go & Gm). cbn [fst snd] in *. subst k'.
          cbn [write_entries]. destruct Hks as [Hn _].
          assert (Hi : i < llen ks') by (eapply slot_lt; [exact Hd|exact Go|congruence]).
          rewrite (slot_deref HO m Hn Go Hi), Gm. cbn [bind]. unfold write_some.
          rewrite (slot_deref HO m Hn Go Hi), Gm. cbn [bind].
          rewrite (slot_store HO eqd m (Some (f k v)) Hn Go Hi).
          cbn [somes flat_map app map fst] in Hnd. fold (somes r') in Hnd.
          inversion Hnd as [|? ? Hk Hnd']; subst.
          rewrite (IH r' (tm_set eqd m k (Some (f k v)))).
          * cbn [bind]. do 2 f_equal. apply map_ext. intros x. cbn [somes flat_map app map fst].
            fold (somes r'). unfold pm_update, mem.
            destruct (in_dec eqd x (map fst (somes r'))) as [Hx|Hx].
            -- assert (k <> x) by congruence. rewrite tm_set_other by assumption.
               destruct (in_dec eqd x (k :: map fst (somes r'))) as [_|Hx']; [reflexivity|].
               exfalso. apply Hx'. now right.
            -- destruct (in_dec eqd x (k :: map fst (somes r'))) as [[->|Hx']|Hx'].
               ++ rewrite tm_set_same, Gm. reflexivity.
               ++ contradiction.
               ++ apply tm_set_other. intros ->. apply Hx'. now left.
          * intros x Hx. destruct (eqd k x) as [<-|Hne]; [apply Hd; congruence|].
            apply Hd. rewrite tm_set_other in Hx; assumption.
          * revert HF'. apply Forall2_impl_in. intros a b Ha Hb Hab.
            destruct a as [[ka ia]|], b as [[kb vb]|]; cbn [opt_rel] in *; auto.
            destruct Hab as (A1 & A2 & A3). cbn [fst snd] in *. subst kb. split; [reflexivity|]. split; [exact A2|].
            cbn [fst snd]. rewrite tm_set_other; [exact A3|]. intros ->. apply Hk.
            apply in_map_iff. exists (ka, vb). split; [reflexivity|]. unfold somes. apply in_flat_map.
            exists (Some (ka, vb)). split; [exact Hb|left; reflexivity].
          * exact Hnd'.
        + cbn [write_entries]. cbn [somes flat_map app] in *. fold (somes r') in *.
          rewrite (IH r' m Hd HF' Hnd). reflexivity.
    Qed.

    Lemma write_values_entries (f : V -> V) (got : list (option (K * N))) : forall st l st',
      write_entries (fun _ : K => f) got st = Val (l, st') ->
      write_values f (map (opt_map snd) got) st = Val (map (opt_map snd) l, st').
    Proof.
      induction got as [|g got IH]; intros st l st' E.
      - cbn [write_entries] in E. injection E as <- <-. reflexivity.
      - destruct g as [[k i]|]; cbn [write_entries write_values map opt_map snd] in *.
        + apply bind_inv in E. destruct E as (o & Eo & E). rewrite Eo. cbn [bind].
          destruct o as [old|]; [|discriminate E]. apply bind_inv in E. destruct E as (st1 & E1 & E).
          rewrite E1. cbn [bind]. apply bind_inv in E. destruct E as ([l2 st2] & E2 & E).
          injection E as <- <-. rewrite (IH _ _ _ E2). reflexivity.
        + apply bind_inv in E. destruct E as ([l2 st2] & E2 & E). injection E as <- <-.
          rewrite (IH _ _ _ E2). reflexivity.
    Qed.

    (** Slots of a key that has one. *)
    Section Slot.
      Context (m : pmap K V) (k : K) (i : N) (Hk : ordinal O k = Val i) (Hi : i < llen ks').

      Lemma at_get : slice_get (map m ks') i = Some (m k).
      Proof. exact (slot_get HO m (proj1 Hks) Hk Hi). Qed.
      Lemma at_deref : deref (map m ks') i = Val (m k).
      Proof. exact (slot_deref HO m (proj1 Hks) Hk Hi). Qed.
      Lemma at_index : index (map m ks') i = Val (m k).
      Proof. exact (slot_index HO m (proj1 Hks) Hk Hi). Qed.
      Lemma at_store o : store_at (map m ks') i o = map (pm_set eqd m k o) ks'.
      Proof. exact (slot_store HO eqd m o (proj1 Hks) Hk Hi). Qed.
      Lemma at_write v : m k <> None -> write_some (map m ks') i v = Val (map (pm_set eqd m k (Some v)) ks').
      Proof.
        intros Hm. unfold write_some. rewrite at_deref. cbn [bind].
        destruct (m k); [now rewrite at_store|congruence].
      Qed.
    End Slot.

    Lemma pm_set_same m k o : pm_set eqd m k o k = o.
    Proof. unfold pm_set. destruct (eqd k k); congruence. Qed.

    Section Entry.
      Context (m : pmap K V) (k : K) (i : N) (Hk : ordinal O k = Val i) (Hi : i < llen ks').

      Definition the_entry : Entry K :=
        match m k with
        | Some _ => Occupied {| o_key := k; o_entry := i |}
        | None => Vacant {| v_key := k; v_entry := i |}
        end.

      Lemma entry_new_ok : Entry_new (map m ks') k i = Val the_entry.
      Proof.
        unfold Entry_new, the_entry. rewrite (at_deref m Hk Hi). cbn [bind]. destruct (m k); reflexivity.
      Qed.

      Lemma entry_match_ok v w : entry_match (map m ks') the_entry v w =
        Val (OutEntry k (m k), map (pm_set eqd m k (Some (if present m k then w else v))) ks').
      Proof.
        unfold entry_match, the_entry, present. destruct (m k) as [old|] eqn:Em.
        - unfold OccupiedEntry_get, OccupiedEntry_get_mut, OccupiedEntry_key. cbn [o_entry o_key].
          rewrite (at_deref m Hk Hi), Em. cbn [bind unwrap]. rewrite (at_write Hk Hi) by congruence.
          reflexivity.
        - unfold VacantEntry_insert, VacantEntry_key. cbn [v_entry v_key]. rewrite (at_deref m Hk Hi).
          cbn [bind]. rewrite (at_store m Hk Hi). reflexivity.
      Qed.

      Lemma entry_or_insert_ok v w : entry_or_insert (map m ks') the_entry v w =
        Val (OutValue (Some (match m k with Some old => old | None => v end)),
             map (pm_set eqd m k (Some w)) ks').
      Proof.
        unfold entry_or_insert, the_entry, Entry_or_insert. destruct (m k) as [old|] eqn:Em; cbn [o_entry v_entry].
        - rewrite (at_deref m Hk Hi), Em. cbn [bind unwrap]. rewrite (at_deref m Hk Hi), Em. cbn [bind].
          rewrite (at_write Hk Hi) by congruence. reflexivity.
        - rewrite (at_deref m Hk Hi). cbn [bind]. rewrite (at_store m Hk Hi).
          rewrite (at_deref _ Hk Hi), pm_set_same. cbn [bind].
          rewrite (at_write Hk Hi) by (rewrite pm_set_same; congruence). cbn [bind]. do 2 f_equal.
          apply map_ext. intros x. unfold pm_set. destruct (eqd k x); reflexivity.
      Qed.

      Lemma entry_drop_ok : entry_drop the_entry = OutBool (present m k) :> map_out K V.
      Proof. unfold entry_drop, the_entry, present. destruct (m k); reflexivity. Qed.
    End Entry.
  End Storage.

  (** *** OrdinalMap *)
  Definition heap_rep (st : list (option V)) m : Prop :=
    exists ks', st = map m ks' /\ covers ks' m /\ (ks' = ks \/ ks' = []).

  Lemma heap_new_rep : heap_rep OrdinalMap_new pm_empty.
  Proof.
    exists []. split; [reflexivity|]. split; [|auto]. split; [apply nil_slots|]. intros k H. now destruct H.
  Qed.

  Lemma full_rep m : heap_rep (map m ks) m.
  Proof. exists ks. split; [reflexivity|]. split; [apply covers_full|auto]. Qed.

  Lemma rep_ext st m m' : heap_rep st m -> (forall k, m k = m' k) -> heap_rep st m'.
  Proof.
    intros (ks' & -> & [H1 H2] & H3) E. exists ks'. split; [now apply map_ext|].
    split; [|exact H3]. split; [exact H1|]. intros k Hk. apply H2. congruence.
  Qed.

  Lemma rep_entries ks' m : covers ks' m -> ks' = ks \/ ks' = [] -> pm_entries ks' m = pm_entries ks m.
  Proof.
    intros [_ H] [->| ->]; [reflexivity|]. symmetry. apply pm_entries_none. intros k _.
    destruct (m k) eqn:E; [|reflexivity]. exfalso. apply (H k). congruence.
  Qed.

  Lemma key_lt k : exists i, ordinal O k = Val i /\ i < llen ks.
  Proof.
    destruct (bij_to HO k) as (i & Hi & Hlt & _). exists i. split; [exact Hi|].
    exact (enumeration_lt HO He Hi).
  Qed.

  Lemma init_ok st m : heap_rep st m -> OrdinalMap_init_full_map O st = Val (map m ks).
  Proof.
    intros (ks' & -> & [H1 H2] & H3). unfold OrdinalMap_init_full_map. rewrite (bij_size HO). cbn [bind].
    destruct (enumeration_numbered HO He) as [_ Hlen].
    assert (G : ks' = [] -> repeat None (N.to_nat n) = map m ks).
    { intros ->. rewrite <- Hlen. unfold llen. rewrite Nat2N.id.
      assert (Hm : forall k, m k = None).
      { intros k. destruct (m k) eqn:E; [|reflexivity]. exfalso. apply (H2 k). congruence. }
      clear -Hm. induction ks as [|k l IH]; [reflexivity|]. cbn. now rewrite Hm, IH. }
    unfold llen. rewrite map_length. destruct ks' as [|k0 ks'].
    - cbn [length]. cbn. now rewrite G.
    - destruct H3 as [<-|E]; [reflexivity|discriminate E].
  Qed.

  (** Reading the slot of any key. *)
  Lemma rep_read st m k i : heap_rep st m -> ordinal O k = Val i ->
    match slice_get st i with None => m k = None | Some o => o = m k end.
  Proof.
    intros (ks' & -> & [H1 H2] & H3) Hk. destruct H3 as [->| ->].
    - rewrite (at_get H1 m Hk); [reflexivity|]. exact (enumeration_lt HO He Hk).
    - unfold slice_get. cbn [map]. destruct (N.to_nat i); cbn; destruct (m k) eqn:E; auto;
        exfalso; apply (H2 k); congruence.
  Qed.

  Lemma heap_get_ok st m k : heap_rep st m -> OrdinalMap_get O st k = Val (m k).
  Proof.
    intros H. destruct (key_lt k) as (i & Hi & _). unfold OrdinalMap_get. rewrite Hi. cbn [bind].
    pose proof (rep_read H Hi) as G. destruct (slice_get st i); congruence.
  Qed.

  Lemma rep_map st m (m' : pmap K V) (f : list (option V) -> list (option V)) :
    (forall ks', key_slots O n ks' -> st = map m ks' -> f st = map m' ks') ->
    (forall k, m' k <> None -> m k <> None) -> heap_rep st m -> heap_rep (f st) m'.
  Proof.
    intros Hf Hm (ks' & E & [H1 H2] & H3). exists ks'. split; [now apply Hf|].
    split; [|exact H3]. split; [exact H1|]. intros k Hk. apply H2. now apply Hm.
  Qed.

  Lemma heap_step_ok op st m : has_heap op = true -> not_contains_key op = true -> heap_rep st m ->
    exists st', heap_step O op st = Val (fst (spec_step eqd ks op m), st') /\
      heap_rep st' (snd (spec_step eqd ks op m)).
  Proof.
    intros Hop Hnc H. destruct op; cbn [heap_step spec_step fst snd]; try discriminate.
    - (* insert *)
      destruct (key_lt k) as (i & Hi & Hlt). unfold OrdinalMap_insert. rewrite (init_ok H). cbn [bind].
      rewrite Hi. cbn [bind]. rewrite (at_index ks_slots m Hi Hlt). cbn [bind].
      rewrite (at_store ks_slots m Hi Hlt). eexists. split; [reflexivity|]. apply full_rep.
    - (* get *)
      rewrite (heap_get_ok k H). exists st. split; [reflexivity|exact H].
    - (* get_mut *)
      destruct (key_lt k) as (i & Hi & Hlt). unfold OrdinalMap_get_mut. rewrite Hi. cbn [bind].
      pose proof (rep_read H Hi) as G. unfold present.
      destruct (slice_get st i) as [o|] eqn:Eg; [subst o|rewrite G]; cbn [bind].
      + destruct (m k) as [old|] eqn:Em; cbn [bind]; [|exists st; split; [reflexivity|exact H]].
        destruct H as (ks' & -> & [H1 H2] & H3).
        assert (Hlt' : i < llen ks').
        { eapply slot_lt; [exact H1|exact H2|exact Hi|congruence]. }
        rewrite (at_deref H1 m Hi Hlt'), Em. cbn [bind]. rewrite (at_write H1 Hi Hlt') by congruence.
        cbn [bind]. eexists. split; [reflexivity|]. exists ks'. split; [reflexivity|]. split; [|exact H3].
        split; [exact H1|]. intros x Hx. apply H2. unfold pm_set in Hx. destruct (eqd k x); congruence.
      + exists st. split; [reflexivity|exact H].
    - (* remove *)
      destruct (key_lt k) as (i & Hi & Hlt). unfold OrdinalMap_remove. rewrite Hi. cbn [bind].
      pose proof (rep_read H Hi) as G.
      destruct (slice_get st i) as [o|] eqn:Eg; cbn [bind].
      + subst o. eexists. split; [reflexivity|]. destruct H as (ks' & -> & [H1 H2] & H3).
        assert (Hlt' : i < llen ks').
        { unfold slice_get in Eg. assert (G : nth_error (map m ks') (N.to_nat i) <> None) by congruence.
          apply nth_error_Some in G. rewrite map_length in G. unfold llen. lia. }
        exists ks'. split; [exact (at_store H1 m Hi Hlt' None)|]. split; [|exact H3].
        split; [exact H1|]. intros x Hx. apply H2. unfold pm_set in Hx. destruct (eqd k x); congruence.
      + exists st. split; [now rewrite G|]. eapply rep_ext; [exact H|]. intros x. unfold pm_set.
        destruct (eqd k x) as [->|_]; [congruence|reflexivity].
    - (* len *)
      destruct H as (ks' & -> & [H1 H2] & H3). unfold OrdinalMap_len, OrdinalMap_iter.
      rewrite (storage_count H1 m), (rep_entries (conj H1 H2) H3). cbn [bind].
      eexists. split; [reflexivity|]. exists ks'. split; [reflexivity|]. split; [split; assumption|exact H3].
    - (* is_empty *)
      destruct H as (ks' & -> & [H1 H2] & H3). unfold OrdinalMap_is_empty, OrdinalMap_iter.
      destruct (storage_is_empty H1 m) as (s' & E). rewrite E. cbn [bind].
      rewrite (rep_entries (conj H1 H2) H3).
      eexists. split; [|exists ks'; split; [reflexivity|split; [split; assumption|exact H3]]].
      f_equal. f_equal. destruct (pm_entries ks m); reflexivity.
    - (* clear *)
      destruct H as (ks' & -> & [H1 H2] & H3). unfold OrdinalMap_clear, OrdinalMap_drain.
      rewrite (storage_clear H1 m). cbn [bind].
      eexists. split; [reflexivity|]. exists ks'. split; [reflexivity|]. split; [|exact H3].
      split; [exact H1|]. intros x Hx. now destruct Hx.
    - (* drain *)
      destruct H as (ks' & -> & [H1 H2] & H3). unfold OrdinalMap_drain.
      destruct (storage_drain H1 m sched) as (d & E & Hd). rewrite E. cbn [bind].
      rewrite (rep_entries (conj H1 H2) H3) in *. destruct (deque_run sched (pm_entries ks m)) as [got rest].
      cbn [fst snd] in *. destruct leak.
      + eexists. split; [reflexivity|]. rewrite (drained_storage H1 eqd Hd). exists ks'.
        split; [reflexivity|]. split; [|exact H3]. split; [exact H1|]. intros x Hx. apply H2.
        unfold pm_restrict in Hx. destruct (mem eqd x (map fst rest)); congruence.
      + rewrite (drain_drop_ok HO Hd). cbn [bind]. eexists. split; [reflexivity|]. exists ks'.
        split; [reflexivity|]. split; [|exact H3]. split; [exact H1|]. intros x Hx. now destruct Hx.
    - (* iter *)
      destruct H as (ks' & -> & [H1 H2] & H3). unfold OrdinalMap_iter.
      destruct (storage_iter H1 m sched) as (s' & E & _). rewrite E. cbn [bind].
      rewrite (rep_entries (conj H1 H2) H3). eexists. split; [reflexivity|].
      exists ks'. split; [reflexivity|]. split; [split; assumption|exact H3].
    - (* keys *)
      destruct H as (ks' & -> & [H1 H2] & H3). unfold OrdinalMap_keys, OrdinalMap_iter.
      destruct (storage_keys H1 m sched) as (s' & E & _). rewrite E. cbn [bind].
      rewrite (rep_entries (conj H1 H2) H3). eexists. split; [reflexivity|].
      exists ks'. split; [reflexivity|]. split; [split; assumption|exact H3].
    - (* values *)
      destruct H as (ks' & -> & [H1 H2] & H3). unfold OrdinalMap_values, OrdinalMap_iter.
      destruct (storage_values H1 m sched) as (s' & E & _). rewrite E. cbn [bind].
      rewrite (rep_entries (conj H1 H2) H3). eexists. split; [reflexivity|].
      exists ks'. split; [reflexivity|]. split; [split; assumption|exact H3].
    - (* iter_mut *)
      destruct H as (ks' & -> & [H1 H2] & H3). unfold OrdinalMap_iter_mut.
      destruct (storage_iter_mut H1 m sched) as (got & s' & E & HF). rewrite E. cbn [bind].
      rewrite (write_entries_ok H1 f H2 HF (entries_got_NoDup H1 m sched)). cbn [bind].
      rewrite (rep_entries (conj H1 H2) H3). eexists. split; [reflexivity|].
      exists ks'. split; [reflexivity|]. split; [|exact H3]. split; [exact H1|]. intros x Hx. apply H2.
      unfold pm_update in Hx. destruct (mem eqd x _); [|exact Hx]. destruct (m x); [congruence|exact Hx].
    - (* values_mut *)
      destruct H as (ks' & -> & [H1 H2] & H3). unfold OrdinalMap_values_mut, OrdinalMap_iter_mut.
      destruct (storage_iter_mut H1 m sched) as (got & s' & E & HF).
      apply (drive_map (@valuesmut_step_map _ _ O V (map m ks'))) in E.
      unfold ValuesMut, ValuesMut_new in *. rewrite E. cbn [bind].
      pose proof (write_entries_ok H1 (fun _ => f) H2 HF (entries_got_NoDup H1 m sched)) as W.
      apply write_values_entries in W. rewrite W. cbn [bind].
      rewrite (rep_entries (conj H1 H2) H3). eexists. split; [reflexivity|].
      exists ks'. split; [reflexivity|]. split; [|exact H3]. split; [exact H1|]. intros x Hx. apply H2.
      unfold pm_update in Hx. destruct (mem eqd x _); [|exact Hx]. destruct (m x); [congruence|exact Hx].
    - (* entry *)
      destruct (key_lt k) as (i & Hi & Hlt). unfold OrdinalMap_entry. rewrite (init_ok H). cbn [bind].
      rewrite Hi. cbn [bind]. unfold index_slot. rewrite (at_index ks_slots m Hi Hlt). cbn [bind].
      rewrite (entry_new_ok ks_slots m Hi Hlt). cbn [bind]. rewrite entry_drop_ok.
      eexists. split; [reflexivity|]. apply full_rep.
    - destruct (key_lt k) as (i & Hi & Hlt). unfold OrdinalMap_entry. rewrite (init_ok H). cbn [bind].
      rewrite Hi. cbn [bind]. unfold index_slot. rewrite (at_index ks_slots m Hi Hlt). cbn [bind].
      rewrite (entry_new_ok ks_slots m Hi Hlt). cbn [bind]. rewrite (entry_match_ok ks_slots m Hi Hlt).
      eexists. split; [reflexivity|]. apply full_rep.
    - destruct (key_lt k) as (i & Hi & Hlt). unfold OrdinalMap_entry. rewrite (init_ok H). cbn [bind].
      rewrite Hi. cbn [bind]. unfold index_slot. rewrite (at_index ks_slots m Hi Hlt). cbn [bind].
      rewrite (entry_new_ok ks_slots m Hi Hlt). cbn [bind]. rewrite (entry_or_insert_ok ks_slots m Hi Hlt).
      eexists. split; [reflexivity|]. apply full_rep.
    - (* clone *)
      eexists. split; [reflexivity|]. destruct H as (ks' & -> & [H1 H2] & H3). unfold OrdinalMap_clone.
      rewrite map_map. exists ks'. split; [reflexivity|]. split; [|exact H3]. split; [exact H1|].
      intros x Hx. apply H2. destruct (m x); [congruence|exact Hx].
    - (* debug *)
      destruct H as (ks' & -> & [H1 H2] & H3). unfold OrdinalMap_debug, OrdinalMap_iter.
      destruct (storage_debug H1 m) as (s' & E). rewrite E. cbn [bind].
      rewrite (rep_entries (conj H1 H2) H3). eexists. split; [reflexivity|].
      exists ks'. split; [reflexivity|]. split; [split; assumption|exact H3].
  Qed.
End MapRefine.
