(** * KeyLifeProofs5: lemmas for C111, single calls and programs. *)
From Verif Require Import Base Spec SpecIter SpecMap SpecCatch SpecResume SpecLifeRun SpecKeyLife ModelOrdinal ModelValues ModelArrayBuilder
  ModelIter ModelTotal ModelMap ModelResume MapMachine ModelCatch ModelLife ModelKeyLife
  OrdinalProofs BaseProofs IterLib IterProofs MapIterProofs MapLib ArrayProofs MapMutProofs MapProofs MapProofs2 MapProofs5 ResumeProofs
  CatchProofs CatchProofs2 LifeProofs5 KeyLifeProofs KeyLifeProofs2 KeyLifeProofs3 KeyLifeProofs4.
From Coq Require Import List. Import ListNotations.
Set Implicit Arguments. Unset Strict Implicit.

Section Versions.
  Context {cfg : Config} {K V : Type} (boom : list (K + V) -> K + V -> option panic) (drops_result : bool).
  Context (O O0 : Ordinal K) (HP : panicking_version O O0).
  Context (n : N) (HO : ordinal_bijection O0 n).
  Context (eqd : forall a b : K, {a = b} + {a <> b}).
  Context (ks : list K) (He : enumeration O0 ks).
  Implicit Types (m : pmap K V) (log : list (K + V)).
  Notation has_ordinal := (has_ordinal boom drops_result eqd ks).
  Let Hks : key_slots O0 n ks := ks_slots HO He.

  Definition slots_rep (st : list (option V)) (s : list K * pmap K V) : Prop :=
    st = map (snd s) (fst s) /\ covers O0 n (fst s) (snd s) /\ (fst s = ks \/ fst s = []).

  (** *** OrdinalMap *)
  Lemma heap_keys_same op s : (forall k, map_key op = Some k -> ordinal O k = ordinal O0 k) ->
    heap_keys boom drops_result O op s = heap_keys (V := V) boom drops_result O0 op s.
  Proof.
    intros H. pose proof (version_init (V := V) HP) as Hi. destruct s as [log m].
    destruct op; cbn [map_key] in H; try specialize (H _ eq_refl); cbn [heap_keys];
      unfold insert_keys, entry_drop_keys, entry_keys, calm, owning, assign_life, heap_act, OrdinalMap_insert_act, OrdinalMap_entry_act,
        OrdinalMap_remove_act, OrdinalMap_init_full_map_act,
        replaces, heap_step, OrdinalMap_insert, OrdinalMap_get, OrdinalMap_get_mut, OrdinalMap_contains_key, OrdinalMap_remove, OrdinalMap_entry,
        calm, abind, look;
      rewrite ?Hi, ?H; try reflexivity; clear H Hi;
      destruct HP as (Hs & Hf & _); clear HP Hks HO He; destruct O as [s1 o1 f1], O0 as [s2 o2 f2]; cbn in *; subst; reflexivity.
  Qed.
  Lemma init_act_ok st m : heap_rep O0 n ks st m -> OrdinalMap_init_full_map_act O st = (map m ks, Ended tt).
  Proof.
    intros H. pose proof (init_ok HO He H) as E. rewrite <- (version_init HP) in E. revert E.
    unfold OrdinalMap_init_full_map, OrdinalMap_init_full_map_act, abind, look, put, ret.
    destruct (ORDINAL_SIZE O); cbn; try discriminate. destruct (llen st =? 0); now intros [= ->].
  Qed.
  Lemma insert_caught st m k v w : heap_rep O0 n ks st m -> ordinal O k = Panic w -> OrdinalMap_insert_act O k v st = (map m ks, Unwinds w).
  Proof. intros H E. unfold OrdinalMap_insert_act, abind at 1. rewrite (init_act_ok H). unfold abind, look. now rewrite E. Qed.
  Lemma entry_caught st m k w : heap_rep O0 n ks st m -> ordinal O k = Panic w -> OrdinalMap_entry_act O k st = (map m ks, Unwinds w).
  Proof. intros H E. unfold OrdinalMap_entry_act, abind at 1. rewrite (init_act_ok H). unfold abind, look. now rewrite E. Qed.
  Lemma insert_ended st m k v : heap_rep O0 n ks st m -> ordinal O k = ordinal O0 k ->
    OrdinalMap_insert_act O k v st = (map (pm_set eqd m k (Some v)) ks, Ended (m k)).
  Proof.
    intros H E. destruct (key_lt HO He k) as (i & Hi & Hlt). unfold OrdinalMap_insert_act, abind at 1. rewrite (init_act_ok H). unfold abind, look, put, ret.
    rewrite E, Hi. cbn [ending_of]. rewrite (at_index HO Hks m Hi Hlt). cbn [ending_of]. now rewrite (at_store HO eqd Hks m Hi Hlt).
  Qed.
  Lemma entry_ended st m k i : heap_rep O0 n ks st m -> ordinal O k = Val i -> ordinal O0 k = Val i -> i < llen ks ->
    OrdinalMap_entry_act O k st = (map m ks, Ended (the_entry m k i)).
  Proof.
    intros H E Hi Hlt. unfold OrdinalMap_entry_act, abind at 1. rewrite (init_act_ok H). unfold abind, look, put, ret, index_slot.
    rewrite E. cbn [ending_of]. rewrite (at_index HO Hks m Hi Hlt). cbn [ending_of bind]. now rewrite (entry_new_ok HO Hks m Hi Hlt).
  Qed.

  Lemma full_slots m : slots_rep (map m ks) (ks, m).
  Proof. split; [reflexivity|]. split; [apply (covers_full HO He)|auto]. Qed.
  Lemma rep_same st ks' m : heap_rep O0 n ks st m -> length st = length ks' -> ks' = ks \/ ks' = [] -> slots_rep st (ks', m).
  Proof.
    intros (ks2 & -> & Hc & H2) Hl H. rewrite map_length in Hl.
    assert (ks2 = ks') as <-.
    { destruct H2 as [->| ->], H as [->| ->]; auto; [now destruct ks|symmetry in Hl; now destruct ks]. }
    split; [reflexivity|]. auto.
  Qed.

  Lemma lent_case op st ks' m : slots_rep st (ks', m) -> match op with OpGet _ | OpGetMut _ _ | OpRemove _ => True | _ => False end ->
    exists st', heap_act O0 op st = (st', Ended (fst (spec_step eqd ks op m))) /\ slots_rep st' (ks', snd (spec_step eqd ks op m)).
  Proof.
    intros (-> & Hc & H3) Hop. cbn [fst snd] in *. 
    assert (H : heap_rep O0 n ks (map m ks') m) by (exists ks'; auto).
    assert (Ho : heap_op op = true) by (destruct op; try contradiction; reflexivity).
    destruct (heap_ended HO eqd He Ho H) as (st' & E & H'). exists st'. split; [exact E|].
    apply (rep_same H'); [|exact H3]. rewrite <- (map_length m ks'). revert E. clear -Hop. generalize (map m ks') as st. intros st.
    destruct op; try contradiction; cbn [heap_act]; unfold replaces, OrdinalMap_remove_act, abind, look, put, ret; cbn [heap_step].
    - destruct (OrdinalMap_get O0 st k); cbn; try discriminate. intros [= ->]. reflexivity.
    - destruct (OrdinalMap_get_mut O0 st k) as [[i|]| | | |]; cbn; try discriminate; [|intros [= ->]; reflexivity].
      unfold write_some. destruct (deref st i) as [[cur|]| | | |]; cbn; try discriminate. intros [= <-]. apply MapProofs5.store_at_length.
    - destruct (ordinal O0 k); cbn; try discriminate. destruct (slice_get st _); cbn; intros [= <-]; [apply MapProofs5.store_at_length|reflexivity].
  Qed.

  Notation step := (key_life_step boom drops_result eqd ks O).
  Lemma heap_keys_follows op : heap_op op = true -> follows (heap_keys boom drops_result O) step slots_rep op.
  Proof.
    intros Hop log st [ks' m] H. assert (Hr : heap_rep O0 n ks st m) by (destruct H as (-> & H); exists ks'; auto).
    unfold key_life_step. destruct (key_panic_cases HP HO (map_key op)) as [(k & w & Ek & Ew & ->)|[Hs ->]].
    - destruct op; cbn [map_key] in Ek; try discriminate Ek; injection Ek as ->; cbn [heap_keys no_ordinal]; try discriminate Hop; unfold ends.
      + unfold insert_keys. rewrite (caught_then boom _ _ log (insert_caught v Hr Ew)).
        destruct (all_lost boom w log [inr v; inl k]) as [log' e]. exists (map m ks). split; [reflexivity|intros _; apply full_slots].
      + exists st. split; [|auto]. apply calm_is. cbn [heap_act]. unfold replaces, abind, look. cbn [heap_step]. unfold OrdinalMap_get. now rewrite Ew.
      + exists st. split; [|auto]. apply calm_is. cbn [heap_act]. unfold replaces, abind, look. cbn [heap_step]. unfold OrdinalMap_get_mut. now rewrite Ew.
      + exists st. split; [|auto]. apply calm_is. cbn [heap_act]. unfold OrdinalMap_remove_act, abind, look. now rewrite Ew.
      + unfold entry_drop_keys, entry_keys. rewrite (caught_then boom _ _ log (entry_caught Hr Ew)).
        destruct (all_lost boom w log [inl k]) as [log' e]. exists (map m ks). split; [reflexivity|intros _; apply full_slots].
      + unfold entry_keys. rewrite (caught_then boom _ _ log (entry_caught Hr Ew)).
        destruct (all_lost boom w log [inl k]) as [log' e]. exists (map m ks). split; [reflexivity|intros _; apply full_slots].
      + unfold entry_keys. rewrite (caught_then boom _ _ log (entry_caught Hr Ew)).
        destruct (all_lost boom w log [inl k]) as [log' e]. exists (map m ks). split; [reflexivity|intros _; apply full_slots].
    - assert (Hc : forall x, slot_case boom drops_result O0 n eqd ks x op -> exists st',
        x (log, st) = ((fst (fst (has_ordinal op (log, (ks', m)))), st'), ends_as (snd (has_ordinal op (log, (ks', m))))) /\
        (snd (has_ordinal op (log, (ks', m))) <> None -> slots_rep st' (snd (fst (has_ordinal op (log, (ks', m))))))).
      { intros x Hx. destruct H as (-> & Hc & H3). cbn [fst snd] in *. destruct (Hx log ks' m Hc H3) as (log' & m' & e & E1 & E2 & Hm).
        unfold OrdinalMap in *. rewrite E1, E2. exists (map m' ks'). split; [reflexivity|]. intros _. split; [reflexivity|]. split; [|exact H3].
        split; [exact (proj1 Hc)|]. intros k Hk. apply (proj2 Hc). now apply Hm. }
      assert (Hl : match op with OpGet _ | OpGetMut _ _ | OpRemove _ => True | _ => False end -> exists st',
        calm (heap_act O0 op) (log, st) = ((log, st'), Ended (fst (spec_step eqd ks op m))) /\ slots_rep st' (ks', snd (spec_step eqd ks op m))).
      { intros Hx. destruct (lent_case H Hx) as (st' & E & H'). exists st'. split; [now apply calm_is|exact H']. }
      assert (He2 : forall k, map_key op = Some k -> exists i, ordinal O0 k = Val i /\ i < llen ks /\ OrdinalMap_entry_act O k st = (map m ks, Ended (the_entry m k i))).
      { intros k Ek. destruct (key_lt HO He k) as (i & Hi & Hlt). exists i. split; [exact Hi|]. split; [exact Hlt|].
        apply (entry_ended Hr); [rewrite (Hs k Ek); exact Hi|exact Hi|exact Hlt]. }
      pose proof (heap_keys_same (log, st) Hs) as Hsame.
      destruct op; cbn [heap_keys] in Hsame |- *; try discriminate Hop;
        try (rewrite Hsame; apply Hc; first [apply (len_case boom drops_result HO eqd)|apply (is_empty_case boom drops_result HO eqd)|apply (debug_case boom drops_result HO eqd)
          |apply (iter_case boom drops_result HO eqd)|apply (keys_case boom drops_result HO eqd)|apply (values_case boom drops_result HO eqd)
          |apply (iter_mut_case boom drops_result HO eqd)|apply (values_mut_case boom drops_result HO eqd)
          |apply (drain_case boom drops_result HO eqd)|apply (clear_case boom drops_result HO eqd)]);
        try (rewrite Hsame; destruct (Hl I) as (st' & E & H'); exists st'; rewrite E; cbn [SpecKeyLife.has_ordinal];
             destruct (spec_step eqd ks _ m) as [o m']; cbn [fst snd] in *; split; [reflexivity|intros _; exact H']).
      + (* insert *)
        unfold insert_keys. rewrite (ended_then boom _ _ log (insert_ended v Hr (Hs _ eq_refl))), destroy_then.
        cbn [SpecKeyLife.has_ordinal spec_step]. unfold ends. change (olds (m k)) with (values_in (K := K) (m k)).
        exists (map (pm_set eqd m k (Some v)) ks). destruct (boom log (inl k)) as [p|].
        * destruct (all_lost boom p (log ++ [inl k]) _) as [log' e]. cbn [fst snd]. split; [reflexivity|intros _; apply full_slots].
        * split; [reflexivity|intros _; apply full_slots].
      + (* entry *)
        destruct (He2 k eq_refl) as (i & Hi & Hlt & E). unfold entry_drop_keys, entry_keys. rewrite (ended_then boom _ _ log E).
        destruct (drop_case boom drops_result eqd ks k i log m ks') as (log' & e & E1 & E2). unfold OrdinalMap in *. rewrite E1, E2. exists (map m ks).
        split; [reflexivity|intros _; apply full_slots].
      + destruct (He2 k eq_refl) as (i & Hi & Hlt & E). unfold entry_keys. rewrite (ended_then boom _ _ log E).
        destruct (match_case boom drops_result HO eqd He v w log m ks' Hi Hlt) as (log' & m' & e & E1 & E2). unfold OrdinalMap in *. rewrite E1, E2. exists (map m' ks).
        split; [reflexivity|intros _; apply full_slots].
      + destruct (He2 k eq_refl) as (i & Hi & Hlt & E). unfold entry_keys. rewrite (ended_then boom _ _ log E).
        destruct (or_insert_case boom drops_result HO eqd He v w log m ks' Hi Hlt) as (log' & m' & e & E1 & E2). unfold OrdinalMap in *. rewrite E1, E2. exists (map m' ks).
        split; [reflexivity|intros _; apply full_slots].
      + (* clone *)
        rewrite Hsame. destruct H as (-> & Hcv & H3). cbn [fst snd] in *. cbn [SpecKeyLife.has_ordinal spec_step].
        unfold assign_life. unfold calm, abind, look, put, ret. cbn [heap_step ending_of]. rewrite glue_is.
        unfold stored_values. rewrite stored_entries, (rep_entries Hcv H3).
        destruct (destroyed_all boom None log _) as [log' x]. cbn [fst snd]. eexists.
        split; [destruct x as [[]|]; reflexivity|]. intros _. split; [|split; [|exact H3]]; cbn [fst snd].
        * unfold OrdinalMap_clone, OrdinalTotalMap_clone. now rewrite map_map.
        * split; [exact (proj1 Hcv)|]. intros k Hk. apply (proj2 Hcv). destruct (m k); [discriminate|now cbn in Hk].
  Qed.

  (** *** OrdinalArrayMap *)
  Section Arrays.
  Context (S : nat).
  Local Notation amap := (@OrdinalArrayMap V S).
  Lemma array_keys_same op (s : list (K + V) * amap) : (forall k, map_key op = Some k -> ordinal O k = ordinal O0 k) ->
    array_keys boom drops_result O op s = array_keys (V := V) boom drops_result O0 op s.
  Proof.
    intros H. destruct s as [log m].
    destruct op; cbn [map_key] in H; try specialize (H _ eq_refl); cbn [array_keys];
      unfold insert_keys, entry_drop_keys, entry_keys, calm, owning, assign_life, array_act, OrdinalArrayMap_insert_act, OrdinalArrayMap_entry_act,
        OrdinalArrayMap_remove_act,
        replaces, array_step, OrdinalArrayMap_insert, OrdinalArrayMap_contains_key, OrdinalArrayMap_remove, OrdinalArrayMap_entry,
        OrdinalArrayMap_get, OrdinalArrayMap_get_mut,
        OrdinalTotalArrayMap_get, OrdinalTotalArrayMap_index_mut, OrdinalTotalArrayMap_get_mut, calm, abind, look;
      rewrite ?H; try reflexivity; clear H;
      destruct HP as (Hs & Hf & _); clear HP Hks HO He; destruct O as [s1 o1 f1], O0 as [s2 o2 f2]; cbn in *; subst; reflexivity.
  Qed.
  Definition cells_rep (a : amap) (s : list K * pmap K V) : Prop := arr_list a = map (snd s) ks /\ fst s = ks.
  Lemma slots_keys {A} (f : act (list (K + V) * list (option V)) A) log (a : amap) m log' m' e : arr_list a = map m ks ->
    f (log, map m ks) = ((log', map m' ks), e) -> exists a', on_slots_keys f (log, a) = ((log', a'), e) /\ arr_list a' = map m' ks.
  Proof.
    intros H E. unfold on_slots_keys. rewrite H, E.
    destruct (@try_arr_ok (option V) S (map m' ks)) as (a' & Et & El).
    { rewrite map_length. rewrite <- (map_length m ks). rewrite <- H. apply arr_length. }
    rewrite Et. exists a'. auto.
  Qed.
  Lemma array_insert_ended (a : amap) m k v : arr_list a = map m ks -> ordinal O k = ordinal O0 k ->
    exists a', OrdinalArrayMap_insert_act O k v a = (a', Ended (m k)) /\ arr_list a' = map (pm_set eqd m k (Some v)) ks.
  Proof.
    intros Ea E. destruct (key_lt HO He k) as (i & Hi & Hlt).
    unfold OrdinalArrayMap_insert_act, OrdinalTotalArrayMap_get_mut, index_slot, abind, look, put, ret.
    rewrite E, Hi, Ea. cbn [bind]. rewrite (at_index HO Hks m Hi Hlt). cbn [bind ending_of]. rewrite ?Ea, (at_deref HO Hks m Hi Hlt). cbn [ending_of].
    eexists. split; [reflexivity|]. cbn [arr_list arr_store]. rewrite ?Ea. exact (at_store HO eqd Hks m Hi Hlt _).
  Qed.
  Lemma array_entry_ended (a : amap) m k i : arr_list a = map m ks -> ordinal O k = Val i -> ordinal O0 k = Val i -> i < llen ks ->
    OrdinalArrayMap_entry_act O k a = (a, Ended (the_entry m k i)).
  Proof.
    intros Ea E Hi Hlt. unfold OrdinalArrayMap_entry_act, OrdinalTotalArrayMap_index_mut, index_slot, abind, look.
    rewrite E, Ea. cbn [bind]. rewrite (at_index HO Hks m Hi Hlt). cbn [bind ending_of]. rewrite ?Ea. now rewrite (entry_new_ok HO Hks m Hi Hlt).
  Qed.

  Lemma retain_case f : slot_case boom drops_result O0 n eqd ks (retain_keys boom O0 f) (OpRetain f).
  Proof.
    intros log ks' m Hc H3. rewrite (retain_ok boom HO eqd (proj1 Hc) log m f). cbn [SpecKeyLife.has_ordinal spec_step].
    assert (Hr : forall l log m0, (forall k v, In (k, Some v) l -> m k <> None) -> (forall k, m0 k <> None -> m k <> None) ->
      forall k, snd (fst (retained boom eqd f log l m0)) k <> None -> m k <> None).
    { clear. induction l as [|[k [v|]] l IH]; intros log m0 Hl H0 x; cbn [retained fst snd]; [apply H0| |].
      - assert (Hk : m k <> None) by (apply (Hl k v); now left).
        assert (Hl' : forall k v, In (k, Some v) l -> m k <> None) by (intros; eapply Hl; right; eassumption).
        assert (Hset : forall o, forall y, pm_set eqd m0 k o y <> None -> m y <> None).
        { intros o y. unfold pm_set. destruct (eqd k y) as [<-|]; auto. }
        destruct (f k v) as [v' keep]. destruct (boom log (inl k)); cbn [fst snd]; [apply Hset|]. destruct keep; [apply IH; eauto|].
        destruct (boom (log ++ [inl k]) (inr v')); cbn [fst snd]; [apply Hset|apply IH; eauto].
      - assert (Hl' : forall k v, In (k, Some v) l -> m k <> None) by (intros; eapply Hl; right; eassumption).
        destruct (boom log (inl k)); cbn [fst snd]; [apply H0|apply IH; eauto]. }
    specialize (Hr (slots_of ks' m) log m). destruct (retained boom eqd f log (slots_of ks' m) m) as [[log' m''] p].
    exists log', m'', (Some (shown OutUnit p)). split; [reflexivity|]. split.
    - reflexivity.
    - cbn [fst snd] in Hr. apply Hr; [|auto]. intros k v Hk. unfold slots_of in Hk. apply in_map_iff in Hk as (y & [= -> Ev] & _). congruence.
  Qed.

  Lemma array_keys_follows op : follows (array_keys boom drops_result O (S := S)) step cells_rep op.
  Proof.
    intros log a [ks' m] [Ea Ek']. cbn [fst snd] in *. subst ks'.
    unfold key_life_step. destruct (key_panic_cases HP HO (map_key op)) as [(k & w & Ek & Ew & ->)|[Hs ->]].
    - assert (Ei : forall v, OrdinalArrayMap_insert_act O k v a = (a, Unwinds w)).
      { intros v. unfold OrdinalArrayMap_insert_act, OrdinalTotalArrayMap_get_mut, abind, look. now rewrite Ew. }
      assert (Ee : OrdinalArrayMap_entry_act O k a = (a, Unwinds w)).
      { unfold OrdinalArrayMap_entry_act, OrdinalTotalArrayMap_index_mut, abind, look. now rewrite Ew. }
      assert (R : cells_rep a (ks, m)) by (split; [exact Ea|reflexivity]). exists a.
      destruct op; cbn [map_key] in Ek; try discriminate Ek; injection Ek as ->; cbn [array_keys no_ordinal]; unfold ends, insert_keys, entry_drop_keys, entry_keys;
        try (rewrite (caught_then boom _ _ log (Ei v)); destruct (all_lost boom w log [inr v; inl k]) as [log' e]; split; [reflexivity|intros _; exact R]);
        try (rewrite (caught_then boom _ _ log Ee); destruct (all_lost boom w log [inl k]) as [log' e]; split; [reflexivity|intros _; exact R]);
        (split; [|intros _; exact R]); apply calm_is; cbn [array_act]; unfold replaces, OrdinalArrayMap_remove_act, abind, look; cbn [array_step];
        unfold OrdinalArrayMap_contains_key, OrdinalArrayMap_get, OrdinalArrayMap_get_mut, OrdinalTotalArrayMap_get, OrdinalTotalArrayMap_get_mut; now rewrite Ew.
    - assert (Hc : forall x, slot_case boom drops_result O0 n eqd ks x op -> exists a',
        on_slots_keys x (log, a) = ((fst (fst (has_ordinal op (log, (ks, m)))), a'), ends_as (snd (has_ordinal op (log, (ks, m))))) /\
        (snd (has_ordinal op (log, (ks, m))) <> None -> cells_rep a' (snd (fst (has_ordinal op (log, (ks, m))))))).
      { intros x Hx. destruct (Hx log ks m (covers_full HO He m) (or_introl eq_refl)) as (log' & m' & e & E1 & E2 & Hm).
        destruct (slots_keys Ea E1) as (a' & E & Ra). rewrite E2. exists a'. split; [exact E|]. intros _. split; [exact Ra|reflexivity]. }
      assert (Hl : exists a', calm (array_act O0 op) (log, a) = ((log, a'), Ended (fst (spec_step eqd ks op m))) /\
        cells_rep a' (ks, snd (spec_step eqd ks op m))).
      { destruct (array_ended HO eqd He op Ea) as (a' & E & H'). exists a'. split; [now apply calm_is|]. split; [exact H'|reflexivity]. }
      assert (He2 : forall k, map_key op = Some k -> exists i, ordinal O0 k = Val i /\ i < llen ks /\ OrdinalArrayMap_entry_act O k a = (a, Ended (the_entry m k i))).
      { intros k Ek. destruct (key_lt HO He k) as (i & Hi & Hlt). exists i. split; [exact Hi|]. split; [exact Hlt|].
        apply (array_entry_ended Ea); [rewrite (Hs k Ek); exact Hi|exact Hi|exact Hlt]. }
      pose proof (array_keys_same (log, a) Hs) as Hsame.
      destruct op; cbn [array_keys] in Hsame |- *;
        try (rewrite Hsame; apply Hc; first [apply (len_case boom drops_result HO eqd)|apply (is_empty_case boom drops_result HO eqd)|apply (debug_case boom drops_result HO eqd)
          |apply (iter_case boom drops_result HO eqd)|apply (keys_case boom drops_result HO eqd)|apply (values_case boom drops_result HO eqd)
          |apply (iter_mut_case boom drops_result HO eqd)|apply (values_mut_case boom drops_result HO eqd)
          |apply (drain_case boom drops_result HO eqd)|apply (clear_case boom drops_result HO eqd)|apply retain_case]);
        try (rewrite Hsame; destruct Hl as (st' & E & H'); exists st'; rewrite E; cbn [SpecKeyLife.has_ordinal];
             destruct (spec_step eqd ks _ m) as [o m']; cbn [fst snd] in *; split; [reflexivity|intros _; exact H']).
      + (* insert *)
        destruct (array_insert_ended v Ea (Hs _ eq_refl)) as (a' & Ei & Ra).
        unfold insert_keys. rewrite (ended_then boom _ _ log Ei), destroy_then.
        cbn [SpecKeyLife.has_ordinal spec_step]. unfold ends. change (olds (m k)) with (values_in (K := K) (m k)).
        assert (R : cells_rep a' (ks, pm_set eqd m k (Some v))) by (split; [exact Ra|reflexivity]).
        exists a'. destruct (boom log (inl k)) as [p|].
        * destruct (all_lost boom p (log ++ [inl k]) _) as [log' e]. cbn [fst snd]. split; [reflexivity|intros _; exact R].
        * split; [reflexivity|intros _; exact R].
      + (* entry *)
        destruct (He2 k eq_refl) as (i & Hi & Hlt & E). unfold entry_drop_keys, entry_keys. rewrite (ended_then boom _ _ log E).
        exists a. unfold abind. rewrite destroy_is. cbn [SpecKeyLife.has_ordinal spec_step]. unfold keys_end. cbn [map stops_at]. rewrite entry_drop_ok.
        assert (R : cells_rep a (ks, m)) by (split; [exact Ea|reflexivity]).
        destruct (boom log (inl k)) as [p|]; (split; [reflexivity|intros _; exact R]).
      + destruct (He2 k eq_refl) as (i & Hi & Hlt & E). unfold entry_keys. rewrite (ended_then boom _ _ log E).
        destruct (match_case boom drops_result HO eqd He v w log m ks Hi Hlt) as (log' & m' & e & E1 & E2).
        destruct (slots_keys Ea E1) as (a' & E3 & Ra). rewrite E2. exists a'. split; [exact E3|]. intros _. split; [exact Ra|reflexivity].
      + destruct (He2 k eq_refl) as (i & Hi & Hlt & E). unfold entry_keys. rewrite (ended_then boom _ _ log E).
        destruct (or_insert_case boom drops_result HO eqd He v w log m ks Hi Hlt) as (log' & m' & e & E1 & E2).
        destruct (slots_keys Ea E1) as (a' & E3 & Ra). rewrite E2. exists a'. split; [exact E3|]. intros _. split; [exact Ra|reflexivity].
      + (* clone *)
        rewrite Hsame. destruct Hl as (a' & E & Ra). cbn [SpecKeyLife.has_ordinal spec_step] in *.
        unfold calm in E. cbn [array_act] in E. unfold assign_life. unfold replaces, calm, abind, look, put, ret in *. cbn in E. injection E as E.
        cbn [array_step ending_of]. rewrite glue_is.
        unfold stored_values. rewrite Ea, stored_entries.
        destruct (destroyed_all boom None log _) as [log' x]. cbn [fst snd] in *. exists a'.
        split; [rewrite <- E; destruct x as [[]|]; reflexivity|]. intros _. exact Ra.
  Qed.
  End Arrays.
End Versions.

(** ** Programs *)
Section Programs.
  Context {cfg : Config} {K V : Type} (boom : list (K + V) -> K + V -> option panic) (drops_result : bool).
  Context (O : Ordinal K) (n : N) (HO : ordinal_bijection O n).
  Context (eqd : forall a b : K, {a = b} + {a <> b}) (ks : list K) (He : enumeration O ks).

  Lemma heap_keys_exact (ops : list (Ordinal K * map_op K V)) :
    Forall (fun p => panicking_version (fst p) O /\ heap_op (snd p) = true) ops ->
    match life_run (fun p => key_life_step boom drops_result eqd ks (fst p) (snd p)) ops ([], ([], pm_empty)) with
    | Some (outs, (log, (ks', m))) => exists st,
        catch_run (fun p => heap_keys boom drops_result (fst p) (snd p)) ops ([], OrdinalMap_new) = Some (outs, (log, st)) /\
        length st = length ks' /\
        OrdinalMap_debug O st = Val (pm_entries ks m) /\ forall k, OrdinalMap_get O st k = Val (m k)
    | None => exists ops1 p ops2 outs s, ops = ops1 ++ p :: ops2 /\
        catch_run (fun p => heap_keys boom drops_result (fst p) (snd p)) ops1 ([], OrdinalMap_new) = Some (outs, s) /\
        snd (heap_keys boom drops_result (fst p) (snd p) s) = Aborts
    end.
  Proof.
    intros H. pose proof (@follows_run _ _ _ _ _ (fun p : Ordinal K * map_op K V => heap_keys boom drops_result (fst p) (snd p))
      (fun p => key_life_step boom drops_result eqd ks (fst p) (snd p)) (slots_rep O n ks) (fun p => panicking_version (fst p) O /\ heap_op (snd p) = true)) as F.
    assert (H0 : slots_rep (V := V) O n ks OrdinalMap_new ([], pm_empty)).
    { apply (rep_same HO He); [exact (heap_new_rep O n ks)|reflexivity|auto]. }
    specialize (F ltac:(intros [O1 op] [H1 H2]; exact (heap_keys_follows boom drops_result H1 HO eqd He H2)) ops H [] OrdinalMap_new ([], pm_empty) H0).
    destruct (life_run _ ops _) as [[outs [log [ks' m]]]|]; [|exact F]. destruct F as (st & E & R). exists st. split; [exact E|].
    destruct R as (-> & R). cbn [fst snd] in *. assert (Hr : heap_rep O n ks (map m ks') m) by (exists ks'; auto).
    split; [apply map_length|].
    split; [exact (heap_rep_iter (same_version O) HO eqd He Hr)|]. intros k. exact (heap_get_ok HO He k Hr).
  Qed.
  Lemma array_keys_exact S (ops : list (Ordinal K * map_op K V)) : N.of_nat S = n ->
    Forall (fun p => panicking_version (fst p) O) ops ->
    exists a0 : @OrdinalArrayMap V S, OrdinalArrayMap_new O S = Val a0 /\
    match life_run (fun p => key_life_step boom drops_result eqd ks (fst p) (snd p)) ops ([], (ks, pm_empty)) with
    | Some (outs, (log, (ks', m))) => exists a,
        catch_run (fun p => array_keys boom drops_result (fst p) (S := S) (snd p)) ops ([], a0) = Some (outs, (log, a)) /\
        OrdinalArrayMap_debug O a = Val (pm_entries ks m) /\ forall k, OrdinalArrayMap_get O a k = Val (m k)
    | None => exists ops1 p ops2 outs s, ops = ops1 ++ p :: ops2 /\
        catch_run (fun p => array_keys boom drops_result (fst p) (S := S) (snd p)) ops1 ([], a0) = Some (outs, s) /\
        snd (array_keys boom drops_result (fst p) (S := S) (snd p) s) = Aborts
    end.
  Proof.
    intros HS H. destruct (array_new_rep (V := V) HO He HS) as (a0 & E0 & H0). exists a0. split; [exact E0|].
    pose proof (@follows_run _ _ _ _ _ (fun p : Ordinal K * map_op K V => array_keys boom drops_result (fst p) (S := S) (snd p))
      (fun p => key_life_step boom drops_result eqd ks (fst p) (snd p)) (cells_rep ks (S := S)) (fun p => panicking_version (fst p) O)) as F.
    specialize (F ltac:(intros [O1 op] H1; exact (array_keys_follows boom drops_result H1 HO eqd He (S := S) op)) ops H [] a0 (ks, pm_empty) (conj H0 eq_refl)).
    destruct (life_run _ ops _) as [[outs [log [ks' m]]]|]; [|exact F]. destruct F as (a & E & [R _]). exists a. split; [exact E|].
    cbn [fst snd] in R. split; [|intros k; exact (array_get_ok HO He k R)].
    pose proof (array_step_ok HO eqd He OpDebug R) as (a' & E' & _). cbn [array_step spec_step fst snd] in E'.
    destruct (OrdinalArrayMap_debug O a); cbn in E'; congruence.
  Qed.
End Programs.
