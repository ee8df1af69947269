(** * MapProofs2: OrdinalArrayMap refines a partial map; runs of both sparse maps. *)
From Verif Require Import Base Spec SpecMap SpecTotal ModelOrdinal ModelValues ModelArrayBuilder ModelIter
  ModelTotal ModelMap MapMachine BaseProofs IterLib ValuesProofs IterProofs MapLib MapIterProofs MapMutProofs
  MapProofs ArrayProofs TotalProofs.
From Coq Require Import List. Import ListNotations.
Unset Strict Implicit.

Section ArrayRefine.
  Context {cfg : Config} {K V : Type} (O : Ordinal K) (n : N) (HO : ordinal_bijection O n).
  Context (eqd : forall a b : K, {a = b} + {a <> b}).
  Context (ks : list K) (He : enumeration O ks).
  Implicit Types m : pmap K V.

  Let Hks : key_slots O n ks := ks_slots HO He.

  Lemma pm_set_other m k o k' : k <> k' -> pm_set eqd m k o k' = m k'.
  Proof. unfold pm_set. destruct (eqd k k'); congruence. Qed.

  (** *** retain *)
  Lemma retain_loop_ok {St} (f : St -> K -> V -> St * V * res bool) kmid : forall kpre m it st fuel,
    ks = kpre ++ kmid -> pending O n it (kslots (length kpre) kmid) -> (length kmid < fuel)%nat ->
    exists m', OrdinalArrayMap_retain_loop O f fuel (map m ks) it st =
      (fst (fst (retain_calls eqd f (pm_entries kmid m) m st)), map m' ks,
       snd (retain_calls eqd f (pm_entries kmid m) m st)) /\
      (forall k, m' k = snd (fst (retain_calls eqd f (pm_entries kmid m) m st)) k).
  Proof.
    assert (Hnd : NoDup ks) by (destruct Hks as [Hn _]; exact (numbered_NoDup Hn)).
    induction kmid as [|k kmid IH]; intros kpre m it st fuel E H Hf;
      (destruct fuel as [|fuel]; [cbn in Hf; lia|]); cbn [OrdinalArrayMap_retain_loop]; unfold TIterMut_step;
      destruct (enumerate_refines HO Front H) as (it' & E1 & H'); rewrite E1.
    - cbn [kslots slots_from length seq map combine deque_step fst snd pm_entries retain_calls].
      exists m. auto.
    - rewrite kslots_cons in *. cbn [deque_step fst snd] in *.
      assert (Hk : ordinal O k = Val (N.of_nat (length kpre))).
      { destruct Hks as [Hn _]. assert (Ek : nth_error ks (length kpre) = Some k) by (rewrite E; apply nth_error_app_at).
        rewrite (numbered_nth Hn Ek). f_equal. }
      assert (Hlt : N.of_nat (length kpre) < llen ks).
      { unfold llen. rewrite E, app_length. cbn [length]. lia. }
      rewrite (at_deref HO Hks m Hk Hlt).
      assert (E' : ks = (kpre ++ [k]) ++ kmid) by (rewrite E, <- app_assoc; reflexivity).
      assert (H2 : pending O n it' (kslots (length (kpre ++ [k])) kmid)).
      { rewrite app_length. cbn [length]. rewrite Nat.add_1_r. exact H'. }
      assert (Hk' : forall x, In x kmid -> k <> x).
      { intros x Hx ->. rewrite E in Hnd. apply nodup_app_r in Hnd. inversion Hnd; contradiction. }
      assert (Hent : forall o, pm_entries kmid (pm_set eqd m k o) = pm_entries kmid m).
      { intros o. apply pm_entries_ext. intros x Hx. apply pm_set_other. now apply Hk'. }
      cbn [pm_entries]. destruct (m k) as [v|] eqn:Em.
      + cbn [retain_calls]. destruct (f st k v) as [[st' v'] r].
        rewrite (at_store HO eqd Hks m Hk Hlt). destruct r as [[|]|w| | |].
        * destruct (IH (kpre ++ [k]) (pm_set eqd m k (Some v')) it' st' fuel E' H2) as (m' & G1 & G2);
            [cbn in Hf; lia|]. rewrite Hent in *. exists m'. auto.
        * rewrite (at_store HO eqd Hks _ Hk Hlt).
          assert (Eq : map (pm_set eqd (pm_set eqd m k (Some v')) k None) ks = map (pm_set eqd m k None) ks).
          { apply map_ext. intros x. unfold pm_set. destruct (eqd k x); reflexivity. }
          rewrite Eq.
          destruct (IH (kpre ++ [k]) (pm_set eqd m k None) it' st' fuel E' H2) as (m' & G1 & G2);
            [cbn in Hf; lia|]. rewrite Hent in *. exists m'. auto.
        * cbn [fst snd]. eexists. split; [reflexivity|reflexivity].
        * cbn [fst snd]. eexists. split; [reflexivity|reflexivity].
        * cbn [fst snd]. eexists. split; [reflexivity|reflexivity].
        * cbn [fst snd]. eexists. split; [reflexivity|reflexivity].
      + apply (IH (kpre ++ [k])); [exact E'|exact H2|cbn in Hf; lia].
  Qed.

  Lemma retain_pure (f : K -> V -> V * bool) l : forall m, NoDup (map fst l) ->
    (forall k v, In (k, v) l -> m k = Some v) ->
    exists m', retain_calls eqd (pure_retain f) l m tt = (tt, m', Val tt) /\
      forall k, m' k = if in_dec eqd k (map fst l)
                       then match m k with
                            | Some v => let '(v', keep) := f k v in if keep then Some v' else None
                            | None => None
                            end
                       else m k.
  Proof.
    induction l as [|[k v] l IH]; intros m Hnd Hl.
    - exists m. split; [reflexivity|]. reflexivity.
    - cbn [map fst] in Hnd. inversion Hnd as [|? ? Hk Hnd']; subst.
      cbn [retain_calls]. unfold pure_retain at 1. destruct (f k v) as [v' keep] eqn:Ef.
      assert (G : forall o, exists m', retain_calls eqd (pure_retain f) l (pm_set eqd m k o) tt = (tt, m', Val tt) /\
        forall x, m' x = if in_dec eqd x (map fst l)
                       then match m x with
                            | Some v => let '(v', keep) := f x v in if keep then Some v' else None
                            | None => None
                            end
                       else pm_set eqd m k o x).
      { intros o. destruct (IH (pm_set eqd m k o) Hnd') as (m' & G1 & G2).
        - intros x w Hx. rewrite pm_set_other; [apply Hl; now right|]. intros ->. apply Hk.
          apply in_map_iff. exists (x, w). auto.
        - exists m'. split; [exact G1|]. intros x. rewrite G2. destruct (in_dec eqd x (map fst l)) as [Hx|Hx]; [|reflexivity].
          rewrite pm_set_other; [reflexivity|]. intros ->. contradiction. }
      assert (Em : m k = Some v) by (apply Hl; now left).
      assert (G' : exists m', retain_calls eqd (pure_retain f) l (pm_set eqd m k (if keep then Some v' else None)) tt = (tt, m', Val tt) /\
        forall x, m' x = if in_dec eqd x (map fst ((k, v) :: l))
                       then match m x with
                            | Some v => let '(v', keep) := f x v in if keep then Some v' else None
                            | None => None
                            end
                       else m x).
      { destruct (G (if keep then Some v' else None)) as (m' & G1 & G2). exists m'. split; [exact G1|].
        intros x. rewrite G2. cbn [map fst].
        destruct (in_dec eqd x (map fst l)) as [Hx|Hx], (in_dec eqd x (k :: map fst l)) as [Hx'|Hx']; try reflexivity.
        - exfalso. apply Hx'. now right.
        - destruct Hx' as [<-|Hx']; [|contradiction]. rewrite (pm_set_same eqd m), Em, Ef. reflexivity.
        - apply pm_set_other. intros ->. apply Hx'. now left. }
      destruct keep; exact G'.
  Qed.

  Context (S : nat).
  Notation amap := (@OrdinalArrayMap V S).

  Definition array_rep (a : amap) m : Prop := arr_list a = map m ks.

  Lemma array_new_rep : N.of_nat S = n ->
    exists a, OrdinalArrayMap_new O S = Val a /\ array_rep a pm_empty.
  Proof. intros E. exact (array_new_pure HO He (fun _ => None) E). Qed.

  Lemma array_new_only : N.of_nat S <> n -> OrdinalArrayMap_new (V := V) O S = NoCompile.
  Proof. intros E. exact (array_new_nocompile HO _ _ E). Qed.

  Lemma rep_size a m : array_rep a m -> length ks = S.
  Proof. intros E. rewrite <- (map_length m ks), <- E. apply arr_length. Qed.

  Lemma back_ok a m m' (o : map_out K V) : array_rep a m ->
    exists a', back S (o, map m' ks) = Val (o, a') /\ array_rep a' m'.
  Proof.
    intros E. unfold back, arr_back. cbn [fst snd].
    destruct (@try_arr_ok (option V) S (map m' ks)) as (a' & E1 & E2).
    { rewrite map_length. exact (rep_size E). }
    rewrite E1. cbn [bind]. eauto.
  Qed.

  Lemma array_get_ok a m k : array_rep a m -> OrdinalArrayMap_get O a k = Val (m k).
  Proof.
    intros E. destruct (key_lt HO He k) as (i & Hi & Hlt).
    unfold OrdinalArrayMap_get, OrdinalTotalArrayMap_get. rewrite Hi, E. cbn [bind].
    exact (at_index HO Hks m Hi Hlt).
  Qed.

  Lemma array_step_ok op a m : array_rep a m ->
    exists a', array_step O op a = Val (fst (spec_step eqd ks op m), a') /\
      array_rep a' (snd (spec_step eqd ks op m)).
  Proof.
    intros H. pose proof H as Ea. unfold array_rep in Ea.
    destruct op; cbn [array_step spec_step fst snd];
      try (destruct (key_lt HO He k) as (i & Hi & Hlt)).
    - unfold OrdinalArrayMap_insert, OrdinalTotalArrayMap_get_mut, index_slot. rewrite Hi, Ea. cbn [bind].
      rewrite (at_index HO Hks m Hi Hlt). cbn [bind]. rewrite (at_deref HO Hks m Hi Hlt). cbn [bind].
      eexists. split; [reflexivity|]. unfold array_rep. cbn [arr_list arr_store]. rewrite Ea.
      exact (at_store HO eqd Hks m Hi Hlt _).
    - rewrite (array_get_ok k H). cbn [bind]. eauto.
    - unfold OrdinalArrayMap_get_mut, OrdinalTotalArrayMap_get_mut, index_slot. rewrite Hi, Ea. cbn [bind].
      rewrite (at_index HO Hks m Hi Hlt). cbn [bind]. rewrite (at_deref HO Hks m Hi Hlt). cbn [bind].
      unfold present. destruct (m k) as [old|] eqn:Em; [|eauto].
      rewrite (at_deref HO Hks m Hi Hlt). cbn [bind].
      rewrite (at_write HO eqd Hks Hi Hlt) by congruence. cbn [bind]. rewrite Em. exact (back_ok _ _ H).
    - unfold OrdinalArrayMap_contains_key. rewrite (array_get_ok k H). cbn [bind].
      exists a. split; [|exact H]. unfold present. destruct (m k); reflexivity.
    - unfold OrdinalArrayMap_remove, OrdinalTotalArrayMap_get_mut, index_slot. rewrite Hi, Ea. cbn [bind].
      rewrite (at_index HO Hks m Hi Hlt). cbn [bind]. rewrite (at_deref HO Hks m Hi Hlt). cbn [bind].
      eexists. split; [reflexivity|]. unfold array_rep. cbn [arr_list arr_store]. rewrite Ea.
      exact (at_store HO eqd Hks m Hi Hlt _).
    - unfold OrdinalArrayMap_len, OrdinalArrayMap_iter, OrdinalTotalArrayMap_iter. rewrite Ea.
      rewrite (storage_count HO Hks m). cbn [bind]. eauto.
    - unfold OrdinalArrayMap_is_empty, OrdinalArrayMap_iter, OrdinalTotalArrayMap_iter. rewrite Ea.
      destruct (storage_is_empty HO Hks m) as (s' & E). rewrite E. cbn [bind].
      exists a. split; [|exact H]. destruct (pm_entries ks m); reflexivity.
    - unfold OrdinalArrayMap_clear, OrdinalArrayMap_drain, OrdinalTotalArrayMap_iter_mut. rewrite Ea.
      rewrite (storage_clear HO Hks m). cbn [bind].
      destruct (back_ok (fun _ => None) OutUnit H) as (a' & E1 & E2). unfold back in E1. cbn [fst snd] in E1.
      rewrite E1. exists a'. split; [reflexivity|exact E2].
    - unfold OrdinalArrayMap_drain, OrdinalTotalArrayMap_iter_mut. rewrite Ea.
      destruct (storage_drain HO Hks m sched) as (d & E & Hd). rewrite E. cbn [bind].
      destruct (deque_run sched (pm_entries ks m)) as [got rest]. cbn [fst snd] in *. destruct leak.
      + rewrite (drained_storage Hks eqd Hd). exact (back_ok _ _ H).
      + rewrite (drain_drop_ok HO Hd). cbn [bind]. exact (back_ok _ _ H).
    - unfold OrdinalArrayMap_iter, OrdinalTotalArrayMap_iter. rewrite Ea.
      destruct (storage_iter HO Hks m sched) as (s' & E & _). rewrite E. cbn [bind]. eauto.
    - unfold OrdinalArrayMap_keys, OrdinalArrayMap_iter, OrdinalTotalArrayMap_iter. rewrite Ea.
      destruct (storage_keys HO Hks m sched) as (s' & E & _). rewrite E. cbn [bind]. eauto.
    - unfold OrdinalArrayMap_values, OrdinalArrayMap_iter, OrdinalTotalArrayMap_iter. rewrite Ea.
      destruct (storage_values HO Hks m sched) as (s' & E & _). rewrite E. cbn [bind]. eauto.
    - unfold OrdinalArrayMap_iter_mut, OrdinalTotalArrayMap_iter_mut. rewrite Ea.
      destruct (storage_iter_mut HO Hks m sched) as (got & s' & E & HF). rewrite E. cbn [bind].
      rewrite (write_entries_ok HO eqd Hks f (fun k _ => proj1 He k) HF (entries_got_NoDup Hks m sched)).
      cbn [bind]. exact (back_ok _ _ H).
    - unfold OrdinalArrayMap_values_mut, OrdinalArrayMap_iter_mut, OrdinalTotalArrayMap_iter_mut. rewrite Ea.
      destruct (storage_iter_mut HO Hks m sched) as (got & s' & E & HF).
      apply (drive_map (@valuesmut_step_map _ _ O V (map m ks))) in E.
      unfold ValuesMut, ValuesMut_new in *. rewrite E. cbn [bind].
      pose proof (write_entries_ok HO eqd Hks (fun _ => f) (fun k _ => proj1 He k) HF (entries_got_NoDup Hks m sched)) as W.
      apply write_values_entries in W. rewrite W. cbn [bind]. exact (back_ok _ _ H).
    - unfold OrdinalArrayMap_entry, OrdinalTotalArrayMap_index_mut, index_slot. rewrite Hi, Ea. cbn [bind].
      rewrite (at_index HO Hks m Hi Hlt). cbn [bind]. rewrite (entry_new_ok HO Hks m Hi Hlt). cbn [bind].
      rewrite entry_drop_ok. eauto.
    - unfold OrdinalArrayMap_entry, OrdinalTotalArrayMap_index_mut, index_slot. rewrite Hi, Ea. cbn [bind].
      rewrite (at_index HO Hks m Hi Hlt). cbn [bind]. rewrite (entry_new_ok HO Hks m Hi Hlt). cbn [bind].
      rewrite Ea, (entry_match_ok HO eqd Hks m Hi Hlt). cbn [bind]. exact (back_ok _ _ H).
    - unfold OrdinalArrayMap_entry, OrdinalTotalArrayMap_index_mut, index_slot. rewrite Hi, Ea. cbn [bind].
      rewrite (at_index HO Hks m Hi Hlt). cbn [bind]. rewrite (entry_new_ok HO Hks m Hi Hlt). cbn [bind].
      rewrite Ea, (entry_or_insert_ok HO eqd Hks m Hi Hlt). cbn [bind]. exact (back_ok _ _ H).
    - unfold OrdinalArrayMap_retain, OrdinalTotalArrayMap_iter_mut. rewrite Ea, map_length.
      destruct (@retain_loop_ok unit (pure_retain f) ks [] m _ tt (Datatypes.S (length ks)) eq_refl (pending_slots Hks))
        as (m' & E & Em); [lia|].
      unfold TIterMut_new, enumerate_new. rewrite E.
      destruct (@retain_pure f (pm_entries ks m) m) as (m2 & E2 & Em2).
      { apply pm_entries_NoDup. exact (ks_NoDup HO He). }
      { intros x v Hx. now apply pm_entries_In in Hx. }
      rewrite E2 in *. cbn [fst snd bind] in *.
      destruct (back_ok m' OutUnit H) as (a' & G1 & G2). exists a'. split; [exact G1|].
      unfold array_rep in *. rewrite G2. apply map_ext. intros k. rewrite Em, Em2.
      destruct (in_dec eqd k (map fst (pm_entries ks m))) as [_|Hk]; [reflexivity|].
      destruct (m k) eqn:E3; [|reflexivity]. exfalso. apply Hk. apply pm_entries_fst_In. split; [apply He|congruence].
    - eexists. split; [reflexivity|]. unfold array_rep, OrdinalArrayMap_clone, OrdinalTotalArrayMap_clone.
      cbn [arr_clone arr_list]. rewrite Ea, map_map. reflexivity.
    - unfold OrdinalArrayMap_debug, OrdinalArrayMap_iter, OrdinalTotalArrayMap_iter. rewrite Ea.
      destruct (storage_debug HO Hks m) as (s' & E). rewrite E. cbn [bind]. eauto.
  Qed.

  (** *** Runs *)
  Lemma heap_run_ok ops : forall st m, forallb has_heap ops = true -> forallb not_contains_key ops = true ->
    heap_rep O n ks st m ->
    exists st', heap_run O ops st = Val (fst (spec_run eqd ks ops m), st') /\
      heap_rep O n ks st' (snd (spec_run eqd ks ops m)).
  Proof.
    induction ops as [|op ops IH]; intros st m H1 H2 H; [cbn; eauto|].
    cbn [forallb] in *. apply andb_prop in H1, H2. destruct H1 as [H1 H1'], H2 as [H2 H2'].
    destruct (heap_step_ok HO eqd He H1 H2 H) as (st1 & E1 & R1). cbn [heap_run spec_run]. rewrite E1. cbn [bind].
    destruct (spec_step eqd ks op m) as [o m1]. cbn [fst snd] in *.
    destruct (IH st1 m1 H1' H2' R1) as (st2 & E2 & R2). rewrite E2. cbn [bind].
    destruct (spec_run eqd ks ops m1). cbn [fst snd] in *. eauto.
  Qed.

  Lemma array_run_ok ops : forall a m, array_rep a m ->
    exists a', array_run O ops a = Val (fst (spec_run eqd ks ops m), a') /\
      array_rep a' (snd (spec_run eqd ks ops m)).
  Proof.
    induction ops as [|op ops IH]; intros a m H; [cbn; eauto|].
    destruct (array_step_ok op H) as (a1 & E1 & R1). cbn [array_run spec_run]. rewrite E1. cbn [bind].
    destruct (spec_step eqd ks op m) as [o m1]. cbn [fst snd] in *.
    destruct (IH a1 m1 R1) as (a2 & E2 & R2). rewrite E2. cbn [bind].
    destruct (spec_run eqd ks ops m1). cbn [fst snd] in *. eauto.
  Qed.
End ArrayRefine.
