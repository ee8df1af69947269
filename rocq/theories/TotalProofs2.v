(** * TotalProofs2: the properties of the total maps. *)
From Verif Require Import Base Spec SpecMap SpecTotal SpecIter SpecApi ModelOrdinal ModelValues ModelArrayBuilder ModelIter
  ModelTotal ModelMap MapMachine TotalMachine BaseProofs IterLib ValuesProofs IterProofs MapLib MapIterProofs MapMutProofs
  MapProofs ArrayProofs TotalProofs MapProofs2 MapProofs3 MapProofs4 MapProofs5.
From Coq Require Import List. Import ListNotations.
Unset Strict Implicit.

Section Total.
  Context {cfg : Config} {K V : Type} (O : Ordinal K) (n : N) (HO : ordinal_bijection O n).
  Implicit Types f : tmap K V.

  Let eqd0 := key_eq_dec HO.

  Section Keys.
    Context (ks : list K) (He : enumeration O ks).
    Let Hks : key_slots O n ks := ks_slots HO He.

    Lemma tget f k : (i <- ordinal O k ;; index (map f ks) i) = Val (f k).
    Proof.
      destruct (tkey HO He k) as (i & Hi & Hlt). rewrite Hi. cbn [bind].
      exact (slot_index HO f (proj1 Hks) Hi Hlt).
    Qed.

    Lemma tlists (get : K -> res V) f : (forall k, get k = Val (f k)) -> lists_total O get (tm_entries ks f).
    Proof.
      intros Hg. unfold lists_total, tm_entries. rewrite map_map. cbn [fst]. rewrite map_id. split; [|split].
      - intros k v. rewrite Hg, in_map_iff. split.
        + intros (x & [= -> <-] & _). reflexivity.
        + intros [= <-]. exists k. split; [reflexivity|]. apply He.
      - apply He.
      - apply He.
    Qed.

    Lemma tlists_unique (get : K -> res V) l l' : lists_total O get l -> lists_total O get l' -> l = l'.
    Proof.
      intros (H1 & _ & H2) (H3 & _ & H4).
      apply (@sorted_unique _ (fun p q => ordinal_before O (fst p) (fst q))).
      - intros x y. apply before_anti.
      - now apply sorted_fst.
      - now apply sorted_fst.
      - intros [k v]. rewrite H1, H3. reflexivity.
    Qed.

    Lemma entries_fst f : map fst (tm_entries ks f) = ks.
    Proof. unfold tm_entries. rewrite map_map. apply map_id. Qed.
    Lemma entries_snd f : map snd (tm_entries ks f) = map f ks.
    Proof. unfold tm_entries. rewrite map_map. reflexivity. Qed.
    Lemma entries_llen f : llen (tm_entries ks f) = n.
    Proof. rewrite <- (ks_len HO He). unfold tm_entries. apply llen_map. Qed.

    Lemma as_fun (vs : list V) : length vs = length ks -> exists f, vs = map f ks.
    Proof. intros L. exact (list_fun eqd0 (proj1 He) (ks_NoDup HO He) L). Qed.

    Lemma htotal_reach m : htotal_reachable O m -> exists f, m = map f ks.
    Proof.
      intros (E & St & init & st & st' & m0 & ops & outs & E1 & E2).
      rewrite (try_new_calls HO He) in E1. destruct (as_fun (calls_length E1)) as (f & ->).
      rewrite (htotal_run_ok HO He eqd0) in E2. injection E2 as _ <-. eauto.
    Qed.

    Lemma atotal_built S (m0 : OrdinalTotalArrayMap S V) :
      ((exists (E St : Type) (init : St -> K -> St * res (result V E)) st,
          returned (snd (OrdinalTotalArrayMap_try_new O S init st)) = Val (ResOk m0)) \/
       (exists array, ORDINAL_SIZE O = Val (N.of_nat S) /\ OrdinalTotalArrayMap_from_array array = Val m0)) ->
      N.of_nat S = n.
    Proof.
      intros [(E & St & init & st & E1)|(a & E1 & _)].
      - destruct (N.eq_dec (N.of_nat S) n) as [Hn|Hn]; [exact Hn|].
        pose proof (@array_try_new_nocompile _ _ _ _ HO S V E St init st Hn) as E2. rewrite E2 in E1. discriminate E1.
      - rewrite (bij_size HO) in E1. congruence.
    Qed.

    Lemma atotal_reach S (m : OrdinalTotalArrayMap S V) : atotal_reachable O m ->
      N.of_nat S = n /\ exists f, arr_list m = map f ks.
    Proof.
      intros (m0 & ops & outs & Hb & E2). pose proof (atotal_built Hb) as Hn. split; [exact Hn|].
      destruct (@as_fun (arr_list m0)) as (f & Ef).
      { rewrite arr_length. pose proof (ks_len HO He) as L. unfold llen in L. lia. }
      destruct (atotal_run_ok HO He eqd0 ops Ef) as (m' & E3 & E4). rewrite E2 in E3. injection E3 as _ ->. eauto.
    Qed.

    (** *** Iterators over [map f ks] *)
    Lemma titer_dbg (s : enumerate V) l : pending O n s l -> TIter_debug O s = Val l.
    Proof.
      intros H. unfold TIter_debug, TIter_clone.
      pose proof (pending_clone (fun v => v) H) as Hc.
      assert (E : map (fun ka : K * V => (fst ka, snd ka)) l = l).
      { rewrite <- (map_id l) at 2. apply map_ext. now intros []. }
      cbn beta in Hc. rewrite E in Hc. destruct (tcollect HO Hc) as (s' & Es).
      cbn [e_items enumerate_clone] in Es. rewrite map_length in Es. rewrite Es. reflexivity.
    Qed.

    Definition titer_facts (s : @TIter V) (l : list (K * V)) : Prop :=
      TIter_len s = llen l /\ hint_exact (TIter_size_hint s) (llen l) /\ TIter_debug O s = Val l /\
      double_ended (TIter_step O) (TIter_clone s) l anything.
    Definition tinto_facts (s : @TIntoIter V) (l : list (K * V)) : Prop :=
      TIntoIter_len s = llen l /\ hint_exact (TIntoIter_size_hint s) (llen l) /\ TIntoIter_debug O s = Val l /\
      forall cl, double_ended (TIntoIter_step O) (TIntoIter_clone cl s) (map (fun kv => (fst kv, cl (snd kv))) l) anything.
    Definition tinto_array_facts (s : @TIntoIterArray V) (l : list (K * V)) : Prop :=
      TIntoIterArray_len s = llen l /\ hint_ok (TIntoIterArray_size_hint s) (llen l) /\ TIntoIterArray_debug O s = Val l /\
      forall cl, double_ended (TIntoIterArray_step O) (TIntoIterArray_clone cl s)
                   (map (fun kv => (fst kv, cl (snd kv))) l) anything.
    Definition titer_mut_facts (st : list V) (s : TIterMut) (l : list (K * V)) : Prop :=
      TIterMut_len s = llen l /\ hint_exact (TIterMut_size_hint s) (llen l) /\ TIterMut_debug O st s = Val l.

    Lemma enum_de (s : enumerate V) l (P : enumerate V -> list (K * V) -> Prop) : pending O n s l ->
      (forall s' l', pending O n s' l' -> P s' l') -> double_ended (enumerate_step O) s l P.
    Proof. intros H HP. exact (@double_ended_from _ _ _ _ _ _ _ (enumerate_refines HO) H HP). Qed.

    Lemma id_pairs (l : list (K * V)) : map (fun ka : K * V => (fst ka, snd ka)) l = l.
    Proof. rewrite <- (map_id l) at 2. apply map_ext. now intros []. Qed.

    Lemma any_ok {A B} (R : A -> B -> Prop) (a : A) (b : B) : R a b -> anything a b.
    Proof. intros _. exact I. Qed.

    Lemma titer_facts_ok s l : pending O n s l -> titer_facts s l.
    Proof.
      intros H. split; [exact (pending_snoc_len H)|]. split.
      { unfold hint_exact, TIter_size_hint, enumerate_size_hint. now rewrite <- (pending_snoc_len H). }
      split; [exact (titer_dbg H)|]. apply enum_de; [|intros s' l'; apply any_ok].
      pose proof (pending_clone (fun v => v) H) as Hc. cbn beta in Hc. rewrite id_pairs in Hc. exact Hc.
    Qed.
    Lemma tinto_facts_ok s l : pending O n s l -> tinto_facts s l.
    Proof.
      intros H. split; [exact (pending_snoc_len H)|]. split.
      { unfold hint_exact, TIntoIter_size_hint, enumerate_size_hint. now rewrite <- (pending_snoc_len H). }
      split; [exact (titer_dbg H)|]. intros cl. apply enum_de; [|intros s' l'; apply any_ok].
      exact (pending_clone cl H).
    Qed.
    Lemma tinto_array_facts_ok s l : pending O n s l -> tinto_array_facts s l.
    Proof.
      intros H. split; [exact (pending_snoc_len H)|]. split.
      { split; [cbn; lia|exact I]. }
      split; [exact (titer_dbg H)|]. intros cl. apply enum_de; [|intros s' l'; apply any_ok].
      exact (pending_clone cl H).
    Qed.

    (** Mutable iteration over [map f ks]. *)
    Section Mut.
      Context (f : tmap K V).

      Definition tmpending (s : TIterMut) (l : list (K * V)) : Prop :=
        exists kmid, at_slots O n ks s kmid /\ l = tm_entries kmid f.

      Lemma tm_deque d (l : list K) : deque_step d (tm_entries l f) =
        (opt_map (fun k => (k, f k)) (fst (deque_step d l)), tm_entries (snd (deque_step d l)) f).
      Proof. unfold tm_entries. rewrite deque_step_map. reflexivity. Qed.

      Lemma tmut_refines : refines_rel (tref_to O (map f ks)) (TIterMut_step O) tmpending.
      Proof.
        intros d s l (kmid & H & ->). destruct (tmut_step HO Hks d H) as (s' & o & E & H' & Ho).
        exists o, s'. split; [exact E|]. rewrite tm_deque. cbn [fst snd]. split.
        - destruct o as [[k i]|], (fst (deque_step d kmid)) as [k'|]; cbn in *; try contradiction; [|exact I].
          destruct Ho as [-> Hi]. split; [reflexivity|]. split; [exact Hi|]. cbn [fst snd].
          exact (slot_deref HO f (proj1 Hks) Hi (enumeration_lt HO He Hi)).
        - exists (snd (deque_step d kmid)). auto.
      Qed.

      Lemma tmt0_ok : tmpending (TIterMut_new (slots (length (map f ks)))) (tm_entries ks f).
      Proof. exists ks. split; [|reflexivity]. rewrite map_length. exact (at_slots_init Hks). Qed.

      Lemma titer_mut_facts_ok s l : tmpending s l -> titer_mut_facts (map f ks) s l.
      Proof.
        intros (kmid & H & ->).
        assert (L : TIterMut_len s = llen (tm_entries kmid f)).
        { unfold TIterMut_len. rewrite (at_slots_len H). unfold tm_entries. now rewrite llen_map. }
        split; [exact L|]. split.
        { unfold hint_exact, TIterMut_size_hint, enumerate_size_hint. rewrite <- L. reflexivity. }
        unfold TIterMut_debug. destruct (tmut_view f H) as (it & -> & Hp). cbn [bind]. exact (titer_dbg Hp).
      Qed.

      Lemma tde_iter_mut : double_ended_rel (tref_to O (map f ks)) (TIterMut_step O)
        (TIterMut_new (slots (length (map f ks)))) (tm_entries ks f) (titer_mut_facts (map f ks)).
      Proof. exact (@double_ended_rel_from _ _ _ _ _ _ _ _ _ tmut_refines tmt0_ok titer_mut_facts_ok). Qed.

      Lemma tde_iter : double_ended (TIter_step O) (TIter_new (map f ks) 0) (tm_entries ks f) titer_facts.
      Proof. exact (enum_de (pending_values f Hks) titer_facts_ok). Qed.
      Lemma tde_into : double_ended (TIntoIter_step O) (TIntoIter_new (map f ks)) (tm_entries ks f) tinto_facts.
      Proof. exact (enum_de (pending_values f Hks) tinto_facts_ok). Qed.
      Lemma tde_into_array : double_ended (TIntoIterArray_step O) (TIntoIterArray_new (map f ks)) (tm_entries ks f) tinto_array_facts.
      Proof. exact (enum_de (pending_values f Hks) tinto_array_facts_ok). Qed.

      Lemma slice_de {A} (l : list A) : double_ended slice_step l l (fun s r => s = r).
      Proof. intros sched. rewrite slice_drive. exists (snd (deque_run sched l)). split; [|reflexivity]. now destruct (deque_run sched l). Qed.

      Lemma tde_values : double_ended slice_step (map f ks) (map snd (tm_entries ks f)) (fun s r => s = r).
      Proof. rewrite entries_snd. apply slice_de. Qed.

      Lemma tde_values_mut : double_ended_rel (tvalue_ref O (map f ks)) slice_step (slots (length (map f ks)))
        (tm_entries ks f) (fun s r => llen s = llen r).
      Proof.
        intros sched. rewrite map_length, slice_drive.
        assert (E : slots (length ks) = map snd (kslots 0 ks)) by now rewrite kslots_snd.
        exists (fst (deque_run sched (slots (length ks)))), (snd (deque_run sched (slots (length ks)))).
        split; [f_equal; apply surjective_pairing|].
        pose proof (kslots_entries HO He eqd0 f) as HF.
        assert (HF2 : Forall2 (tvalue_ref O (map f ks)) (slots (length ks)) (tm_entries ks f)).
        { rewrite E. clear E. induction HF as [|[k i] [k' v] l l' (H1 & H2 & H3) HF IH]; [constructor|].
          cbn [map snd]. constructor; [|exact IH]. cbn [fst snd] in *. subst k'. split; [exact H2|]. cbn [snd].
          rewrite (slot_deref HO f (proj1 Hks) H2 (enumeration_lt HO He H2)). now rewrite H3. }
        destruct (deque_run_rel sched HF2) as [G1 G2]. split; [exact G1|].
        unfold llen. now rewrite (Forall2_length G2).
      Qed.

      Lemma tde_keys : exists it, values_new O = Val it /\
        double_ended (values_step O) it (map fst (tm_entries ks f))
          (fun s r => values_len s = llen r /\ hint_exact (values_size_hint s) (llen r)).
      Proof.
        destruct (values_start HO He) as (it & E & Hr & _). exists it. split; [exact E|]. rewrite entries_fst.
        apply (@double_ended_from _ _ _ (remaining O n)); [apply values_refines|exact Hr|].
        intros s l H. unfold values_len, hint_exact, values_size_hint. rewrite (remaining_len H). auto.
      Qed.

      Lemma tmut_run_ok eqd evs : forall f s kmid handed refs,
        at_slots O n ks s kmid -> Forall2 (fun i k => ordinal O k = Val i) refs handed ->
        exists got f', mut_run (fun _ => TIterMut_step O) snd write_slot evs (map f ks) s refs = Val (got, map f' ks) /\
          Forall2 (opt_rel (fun ki k => fst ki = k /\ ordinal O k = Val (snd ki))) got
            (fst (mut_spec eqd (fun v => v) evs kmid handed f)) /\
          (forall k, f' k = snd (mut_spec eqd (fun v => v) evs kmid handed f) k).
      Proof.
        induction evs as [|[d|j v] evs IH]; intros g s kmid handed refs Hs HF; cbn [mut_run mut_spec].
        - exists [], g. split; [reflexivity|]. split; [constructor|]. reflexivity.
        - destruct (tmut_step HO Hks d Hs) as (s' & o & E & Hs' & Ho). rewrite E. cbn [bind].
          destruct (deque_step d kmid) as [ok kmid'] eqn:Ed. cbn [fst snd] in *.
          destruct (IH g s' kmid' (handed ++ somes [ok]) (refs ++ map snd (somes [o])) Hs') as (got & f' & E2 & G1 & G2).
          { apply Forall2_app; [exact HF|]. destruct o as [[k i]|], ok as [k'|]; cbn in *; try contradiction; [|constructor].
            destruct Ho as [-> Ho]. constructor; [exact Ho|constructor]. }
          rewrite E2. cbn [bind]. destruct (mut_spec eqd (fun v => v) evs kmid' (handed ++ somes [ok]) g) as [os mf].
          cbn [fst snd] in *. exists (o :: got), f'. split; [reflexivity|]. split; [|exact G2].
          constructor; assumption.
        - destruct (nth_error refs j) as [i|] eqn:Ei.
          + destruct (Forall2_nth_error_l HF Ei) as (k & Ek & Hk). rewrite Ek.
            pose proof (enumeration_lt HO He Hk) as Hlt. unfold write_slot.
            rewrite (slot_deref HO g (proj1 Hks) Hk Hlt). cbn [bind].
            rewrite (slot_store HO eqd g v (proj1 Hks) Hk Hlt). cbn [bind]. apply IH; assumption.
          + rewrite (Forall2_nth_error_None HF Ei). cbn [bind]. apply IH; assumption.
      Qed.

      Lemma tvals_run_ok eqd evs : forall f sl kmid handed refs,
        Forall2 (fun i k => ordinal O k = Val i) sl kmid -> Forall2 (fun i k => ordinal O k = Val i) refs handed ->
        exists got f', mut_run (fun _ => slice_step) (fun i : N => i) write_slot evs (map f ks) sl refs = Val (got, map f' ks) /\
          Forall2 (opt_rel (fun i k => ordinal O k = Val i)) got
            (fst (mut_spec eqd (fun v => v) evs kmid handed f)) /\
          (forall k, f' k = snd (mut_spec eqd (fun v => v) evs kmid handed f) k).
      Proof.
        induction evs as [|[d|j v] evs IH]; intros g sl kmid handed refs Hs HF; cbn [mut_run mut_spec].
        - exists [], g. split; [reflexivity|]. split; [constructor|]. reflexivity.
        - rewrite slice_step_deque. cbn [bind].
          destruct (deque_step_rel d Hs) as [Ho Hs']. destruct (deque_step d sl) as [o sl'].
          destruct (deque_step d kmid) as [ok kmid']. cbn [fst snd] in *.
          destruct (IH g sl' kmid' (handed ++ somes [ok]) (refs ++ map (fun i : N => i) (somes [o])) Hs')
            as (got & f' & E2 & G1 & G2).
          { apply Forall2_app; [exact HF|]. destruct o as [i|], ok as [k'|]; cbn in *; try contradiction; [|constructor].
            constructor; [exact Ho|constructor]. }
          rewrite E2. cbn [bind]. destruct (mut_spec eqd (fun v => v) evs kmid' (handed ++ somes [ok]) g) as [os mf].
          cbn [fst snd] in *. exists (o :: got), f'. split; [reflexivity|]. split; [|exact G2].
          constructor; assumption.
        - destruct (nth_error refs j) as [i|] eqn:Ei.
          + destruct (Forall2_nth_error_l HF Ei) as (k & Ek & Hk). rewrite Ek.
            pose proof (enumeration_lt HO He Hk) as Hlt. unfold write_slot.
            rewrite (slot_deref HO g (proj1 Hks) Hk Hlt). cbn [bind].
            rewrite (slot_store HO eqd g v (proj1 Hks) Hk Hlt). cbn [bind]. apply IH; assumption.
          + rewrite (Forall2_nth_error_None HF Ei). cbn [bind]. apply IH; assumption.
      Qed.
    End Mut.
  End Keys.
End Total.
