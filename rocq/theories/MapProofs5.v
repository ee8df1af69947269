(** * MapProofs5: the properties of the sparse maps on reachable states. *)
From Verif Require Import Base Spec SpecMap SpecTotal SpecIter SpecApi ModelOrdinal ModelValues ModelArrayBuilder ModelIter
  ModelTotal ModelMap MapMachine BaseProofs IterLib ValuesProofs IterProofs MapLib MapIterProofs MapMutProofs
  MapProofs ArrayProofs TotalProofs MapProofs2 MapProofs3 MapProofs4.
From Coq Require Import List. Import ListNotations.
Unset Strict Implicit.

(** ** Storage size *)
Section Size.
  Context {cfg : Config} {K V : Type} (O : Ordinal K).
  Implicit Types st : list (option V).

  Lemma store_at_length {A} (l : list A) i a : length (store_at l i a) = length l.
  Proof. unfold store_at. apply list_set_length. Qed.

  Lemma write_some_length st i v st' : write_some st i v = Val st' -> length st' = length st.
  Proof.
    unfold write_some. destruct (deref st i) as [[o|]| | | |]; cbn; try discriminate.
    intros [= <-]. apply store_at_length.
  Qed.

  Lemma write_entries_length (f : K -> V -> V) got : forall st l st',
    write_entries f got st = Val (l, st') -> length st' = length st.
  Proof.
    induction got as [|[[k i]|] got IH]; intros st l st' E; cbn [write_entries] in E.
    - injection E as _ <-. reflexivity.
    - apply bind_inv in E. destruct E as ([old|] & E1 & E); [|discriminate E].
      apply bind_inv in E. destruct E as (st1 & E2 & E). apply bind_inv in E. destruct E as ([l1 st2] & E3 & E).
      injection E as _ <-. rewrite (IH _ _ _ E3). exact (write_some_length E2).
    - apply bind_inv in E. destruct E as ([l1 st2] & E3 & E). injection E as _ <-. exact (IH _ _ _ E3).
  Qed.

  Lemma write_values_length (f : V -> V) got : forall st l st',
    write_values f got st = Val (l, st') -> length st' = length st.
  Proof.
    induction got as [|[i|] got IH]; intros st l st' E; cbn [write_values] in E.
    - injection E as _ <-. reflexivity.
    - apply bind_inv in E. destruct E as ([old|] & E1 & E); [|discriminate E].
      apply bind_inv in E. destruct E as (st1 & E2 & E). apply bind_inv in E. destruct E as ([l1 st2] & E3 & E).
      injection E as _ <-. rewrite (IH _ _ _ E3). exact (write_some_length E2).
    - apply bind_inv in E. destruct E as ([l1 st2] & E3 & E). injection E as _ <-. exact (IH _ _ _ E3).
  Qed.

  Lemma drain_loop_length d fuel : forall (s : @Drain V) o s',
    Drain_loop O d fuel s = Val (o, s') -> length (fst s') = length (fst s).
  Proof.
    induction fuel as [|fuel IH]; intros [st it] o s' E; cbn [Drain_loop] in E; [discriminate E|].
    apply bind_inv in E. destruct E as ([[[k i]|] it'] & _ & E).
    - apply bind_inv in E. destruct E as ([v|] & _ & E).
      + injection E as _ <-. apply store_at_length.
      + rewrite (IH _ _ _ E). apply store_at_length.
    - injection E as _ <-. reflexivity.
  Qed.

  Lemma drain_drive_length sched : forall (s : @Drain V) got s',
    drive (Drain_step O) sched s = Val (got, s') -> length (fst s') = length (fst s).
  Proof.
    induction sched as [|d sched IH]; intros s got s' E; cbn [drive] in E; [injection E as _ <-; reflexivity|].
    apply bind_inv in E. destruct E as ([o s1] & E1 & E). apply bind_inv in E. destruct E as ([os s2] & E2 & E).
    injection E as _ <-. rewrite (IH _ _ _ E2). exact (drain_loop_length E1).
  Qed.

  Lemma drain_collect_length fuel : forall (s : @Drain V) got s',
    collect (Drain_step O Front) fuel s = Val (got, s') -> length (fst s') = length (fst s).
  Proof.
    induction fuel as [|fuel IH]; intros s got s' E; cbn [collect] in E; [discriminate E|].
    apply bind_inv in E. destruct E as ([[o|] s1] & E1 & E).
    - apply bind_inv in E. destruct E as ([os s2] & E2 & E).
      injection E as _ <-. rewrite (IH _ _ _ E2). exact (drain_loop_length E1).
    - injection E as _ <-. exact (drain_loop_length E1).
  Qed.

  Lemma drain_drop_length (s : @Drain V) st' l : Drain_drop O s = Val (st', l) -> length st' = length (fst s).
  Proof.
    unfold Drain_drop. intros E. apply bind_inv in E. destruct E as ([l1 s1] & E1 & E). injection E as <- _.
    exact (drain_collect_length E1).
  Qed.

  Lemma init_length st st' n : ORDINAL_SIZE O = Val n -> llen st = 0 \/ llen st = n ->
    OrdinalMap_init_full_map O st = Val st' -> llen st' = n.
  Proof.
    unfold OrdinalMap_init_full_map. intros -> Hl. cbn [bind]. destruct (llen st =? 0) eqn:E; intros [= <-].
    - unfold llen. rewrite repeat_length. lia.
    - apply N.eqb_neq in E. destruct Hl as [Hl|Hl]; [contradiction|exact Hl].
  Qed.

  Lemma heap_step_length (op : map_op K V) st o st' : allocates op = false -> heap_step O op st = Val (o, st') ->
    length st' = length st.
  Proof.
    destruct op; cbn [heap_step allocates]; try discriminate; intros _ E;
      try (apply bind_inv in E; destruct E as (? & E1 & E)).
    - injection E as _ <-. reflexivity.
    - destruct x as [i|]; [|injection E as _ <-; reflexivity].
      apply bind_inv in E. destruct E as (? & E2 & E). apply bind_inv in E. destruct E as (? & E3 & E).
      injection E as _ <-. exact (write_some_length E3).
    - injection E as _ <-. reflexivity.
    - destruct x as [o' st1]. injection E as _ <-. unfold OrdinalMap_remove in E1.
      apply bind_inv in E1. destruct E1 as (i & _ & E1). destruct (slice_get st i); injection E1 as _ <-; [|reflexivity].
      apply store_at_length.
    - injection E as _ <-. reflexivity.
    - injection E as _ <-. reflexivity.
    - injection E as _ <-. unfold OrdinalMap_clear in E1. apply bind_inv in E1. destruct E1 as ([m l] & E1 & E).
      injection E as <-. exact (drain_drop_length E1).
    - destruct x as [got d]. destruct leak.
      + injection E as _ <-. exact (drain_drive_length E1).
      + apply bind_inv in E. destruct E as ([m l] & E2 & E). injection E as _ <-.
        rewrite (drain_drop_length E2). exact (drain_drive_length E1).
    - destruct x. injection E as _ <-. reflexivity.
    - destruct x. injection E as _ <-. reflexivity.
    - destruct x. injection E as _ <-. reflexivity.
    - destruct x. apply bind_inv in E. destruct E as ([ll m] & E2 & E). injection E as _ <-. exact (write_entries_length E2).
    - destruct x. apply bind_inv in E. destruct E as ([ll m] & E2 & E). injection E as _ <-. exact (write_values_length E2).
    - injection E as _ <-. unfold OrdinalMap_clone. apply map_length.
    - injection E as _ <-. reflexivity.
  Qed.

  Lemma entry_length st (k : K) e st' n : ORDINAL_SIZE O = Val n -> llen st = 0 \/ llen st = n ->
    OrdinalMap_entry O st k = Val (e, st') -> llen st' = n.
  Proof.
    intros Hn Hl E. unfold OrdinalMap_entry in E.
    apply bind_inv in E. destruct E as (st1 & E1 & E). apply bind_inv in E. destruct E as (i & _ & E).
    apply bind_inv in E. destruct E as (en & _ & E). apply bind_inv in E. destruct E as (e' & _ & E).
    injection E as _ <-. exact (init_length Hn Hl E1).
  Qed.

  Lemma llen_eq {A B} (l : list A) (l' : list B) : length l = length l' -> llen l = llen l'.
  Proof. unfold llen. congruence. Qed.

  Lemma heap_step_alloc (op : map_op K V) st o st' n : ORDINAL_SIZE O = Val n -> llen st = 0 \/ llen st = n ->
    heap_step O op st = Val (o, st') -> allocates op = true -> llen st' = n.
  Proof.
    intros Hn Hl E Ha. destruct op; try discriminate Ha; cbn [heap_step] in E; apply bind_inv in E;
      destruct E as ([x st1] & E1 & E).
    - injection E as _ <-. unfold OrdinalMap_insert in E1.
      apply bind_inv in E1. destruct E1 as (st2 & E2 & E1). apply bind_inv in E1. destruct E1 as (i & _ & E1).
      apply bind_inv in E1. destruct E1 as (old & _ & E1). injection E1 as _ <-.
      rewrite (llen_eq (store_at_length st2 i (Some v))). exact (init_length Hn Hl E2).
    - injection E as _ <-. exact (entry_length Hn Hl E1).
    - pose proof (entry_length Hn Hl E1) as L. unfold entry_match in E. destruct x as [oe|ve].
      + apply bind_inv in E. destruct E as (? & _ & E). apply bind_inv in E. destruct E as (? & _ & E).
        apply bind_inv in E. destruct E as (? & E2 & E). injection E as _ <-.
        rewrite (llen_eq (write_some_length E2)). exact L.
      + apply bind_inv in E. destruct E as (? & E2 & E). injection E as _ <-. unfold VacantEntry_insert in E2.
        apply bind_inv in E2. destruct E2 as (? & _ & E2). injection E2 as <-.
        rewrite (llen_eq (store_at_length _ _ _)). exact L.
    - pose proof (entry_length Hn Hl E1) as L. unfold entry_or_insert in E.
      apply bind_inv in E. destruct E as ([i st2] & E2 & E). apply bind_inv in E. destruct E as (? & _ & E).
      apply bind_inv in E. destruct E as (? & E3 & E). injection E as _ <-.
      rewrite (llen_eq (write_some_length E3)). rewrite <- L. unfold Entry_or_insert in E2. destruct x as [oe|ve].
      + apply bind_inv in E2. destruct E2 as (? & _ & E2). apply bind_inv in E2. destruct E2 as (? & _ & E2).
        injection E2 as _ <-. reflexivity.
      + apply bind_inv in E2. destruct E2 as (? & _ & E2). injection E2 as _ <-. exact (llen_eq (store_at_length _ _ _)).
  Qed.

  Lemma heap_run_size n (ops : list (map_op K V)) : forall st outs st', ORDINAL_SIZE O = Val n ->
    llen st = 0 \/ llen st = n -> heap_run O ops st = Val (outs, st') ->
    llen st' = if existsb allocates ops then n else llen st.
  Proof.
    induction ops as [|op ops IH]; intros st outs st' Hn Hl E; cbn [heap_run existsb] in *.
    - injection E as _ <-. reflexivity.
    - apply bind_inv in E. destruct E as ([o st1] & E1 & E). apply bind_inv in E. destruct E as ([os st2] & E2 & E).
      injection E as _ <-. destruct (allocates op) eqn:Ha; cbn [orb].
      + pose proof (heap_step_alloc Hn Hl E1 Ha) as L. rewrite (IH _ _ _ Hn (or_intror L) E2).
        destruct (existsb allocates ops); [reflexivity|exact L].
      + pose proof (llen_eq (heap_step_length Ha E1)) as L. rewrite (IH st1 _ _ Hn ltac:(rewrite L; exact Hl) E2).
        now rewrite L.
  Qed.
End Size.

Ltac weaken H :=
  (eapply double_ended_weaken; [|exact H]) || (eapply double_ended_rel_weaken; [|exact H]);
  cbn beta; intros ? ? Hf; first [exact I | apply Hf].
Ltac weaken7 H1 H2 H3 H4 H5 H6 H7 :=
  split; [weaken H1|]; split; [weaken H2|]; split; [weaken H3|]; split; [weaken H4|];
  split; [weaken H5|]; split; [weaken H6|]; weaken H7.

Section Reach.
  Context {cfg : Config} {K V : Type} (O : Ordinal K) (n : N) (HO : ordinal_bijection O n).
  Implicit Types m : pmap K V.
  Implicit Types st : list (option V).

  Section Keys.
    Context (eqd : forall a b : K, {a = b} + {a <> b}).
    Context (ks : list K) (He : enumeration O ks).
    Notation rep := (heap_rep O n ks).

    Lemma heap_step_any op st m o st' : rep st m -> heap_step O op st = Val (o, st') -> exists m', rep st' m'.
    Proof.
      intros H E. destruct (has_heap op) eqn:E1; [|destruct op; discriminate].
      destruct (not_contains_key op) eqn:E2.
      - destruct (heap_step_ok HO eqd He E1 E2 H) as (st1 & E3 & H'). rewrite E in E3. injection E3 as _ ->. eauto.
      - destruct op; try discriminate E2. cbn [heap_step] in E. apply bind_inv in E. destruct E as (b & _ & E).
        injection E as _ <-. eauto.
    Qed.
    Lemma heap_run_any ops : forall st m outs st', rep st m -> heap_run O ops st = Val (outs, st') -> exists m', rep st' m'.
    Proof.
      induction ops as [|op ops IH]; intros st m outs st' H E; cbn [heap_run] in E; [injection E as _ <-; eauto|].
      apply bind_inv in E. destruct E as ([o st1] & E1 & E). apply bind_inv in E. destruct E as ([os st2] & E2 & E).
      injection E as _ <-. destruct (heap_step_any H E1) as (m1 & H1). exact (IH _ _ _ _ H1 E2).
    Qed.

    Lemma heap_reach st : heap_reachable O st -> exists m, rep st m.
    Proof. intros (ops & outs & E). exact (heap_run_any (heap_new_rep O n ks) E). Qed.

    Lemma array_reach S (a : @OrdinalArrayMap V S) : array_reachable O a -> exists m, array_rep ks a m.
    Proof.
      intros (a0 & ops & outs & E1 & E2). destruct (N.eq_dec (N.of_nat S) n) as [Hn|Hn].
      - destruct (array_new_rep HO He (V := V) Hn) as (a1 & E3 & H). rewrite E1 in E3. injection E3 as <-.
        destruct (array_run_ok HO eqd He ops H) as (a2 & E4 & H'). rewrite E2 in E4. injection E4 as _ ->. eauto.
      - rewrite (array_new_only HO Hn) in E1. discriminate E1.
    Qed.

    Lemma array_lists S (a : @OrdinalArrayMap V S) m : array_rep ks a m ->
      lists_entries O (OrdinalArrayMap_get O a) (pm_entries ks m).
    Proof. intros H. apply (entries_listed He). intros k. exact (array_get_ok HO He k H). Qed.
  End Keys.

  Let eqd := key_eq_dec HO.

  Lemma heap_state st : heap_reachable O st -> exists ks m, enumeration O ks /\ heap_rep O n ks st m.
  Proof.
    intros H. destruct (keys_exist HO) as (ks & He). destruct (heap_reach eqd He H) as (m & Hm). eauto.
  Qed.
  Lemma array_state S (a : @OrdinalArrayMap V S) : array_reachable O a ->
    exists ks m, enumeration O ks /\ array_rep ks a m.
  Proof.
    intros H. destruct (keys_exist HO) as (ks & He). destruct (array_reach eqd He H) as (m & Hm). eauto.
  Qed.

  (** *** C26, C28, C29, C39 *)
  Lemma heap_map_law eqd' ks ops : enumeration O ks -> forallb has_heap ops = true -> forallb not_contains_key ops = true ->
    exists st, heap_run O ops OrdinalMap_new = Val (fst (spec_run eqd' ks ops pm_empty), st) /\
      forall k : K, OrdinalMap_get O st k = Val (snd (spec_run eqd' ks ops (pm_empty (V := V))) k).
  Proof.
    intros He H1 H2. destruct (heap_run_ok HO eqd' He H1 H2 (heap_new_rep O n ks)) as (st & E & H).
    exists st. split; [exact E|]. intros k. exact (heap_get_ok HO He k H).
  Qed.

  Lemma heap_size_law (ops : list (map_op K V)) outs st : heap_run O ops OrdinalMap_new = Val (outs, st) ->
    llen st = if existsb allocates ops then n else 0.
  Proof. intros E. exact (@heap_run_size _ _ _ O n ops OrdinalMap_new outs st (bij_size HO) (or_introl eq_refl) E). Qed.

  Lemma array_map_law eqd' ks S ops : enumeration O ks ->
    (N.of_nat S <> n -> OrdinalArrayMap_new (V := V) O S = NoCompile) /\
    (N.of_nat S = n -> exists a0 a, OrdinalArrayMap_new O S = Val a0 /\
      array_run O ops a0 = Val (fst (spec_run eqd' ks ops pm_empty), a) /\
      forall k : K, OrdinalArrayMap_get O a k = Val (snd (spec_run eqd' ks ops (pm_empty (V := V))) k)).
  Proof.
    intros He. split; [exact (array_new_only HO (S := S))|]. intros Hn.
    destruct (array_new_rep HO He (V := V) Hn) as (a0 & E0 & H0).
    destruct (array_run_ok HO eqd' He ops H0) as (a & E & H).
    exists a0, a. split; [exact E0|]. split; [exact E|]. intros k. exact (array_get_ok HO He k H).
  Qed.

  Lemma maps_agree S (ops : list (map_op K V)) : N.of_nat S = n -> forallb has_heap ops = true -> forallb not_contains_key ops = true ->
    exists outs st a0 a, heap_run O ops OrdinalMap_new = Val (outs, st) /\
      OrdinalArrayMap_new O S = Val a0 /\ array_run O ops a0 = Val (outs, a) /\
      forall k, OrdinalMap_get O st k = OrdinalArrayMap_get O a k.
  Proof.
    intros Hn H1 H2. destruct (keys_exist HO) as (ks & He).
    destruct (heap_map_law eqd He H1 H2) as (st & E1 & G1).
    destruct (proj2 (array_map_law eqd S ops He) Hn) as (a0 & a & E2 & E3 & G2).
    exists (fst (spec_run eqd ks ops pm_empty)), st, a0, a. split; [exact E1|]. split; [exact E2|]. split; [exact E3|].
    intros k. rewrite G1, G2. reflexivity.
  Qed.

  (** *** C27 *)
  Lemma contains_key_slots st : heap_reachable O st -> forall k,
    OrdinalMap_contains_key O st k = Val (negb (llen st =? 0)).
  Proof.
    intros H k. destruct (heap_state H) as (ks & m & He & (ks' & -> & [Hs Hd] & Hk)).
    destruct (key_lt HO He k) as (i & Hi & Hlt). unfold OrdinalMap_contains_key. rewrite Hi. cbn [bind].
    destruct Hk as [->| ->].
    - rewrite (at_get HO Hs m Hi Hlt). cbn. f_equal. symmetry. rewrite llen_map.
      destruct (llen ks =? 0) eqn:E; [|reflexivity]. apply N.eqb_eq in E. lia.
    - cbn. unfold slice_get. now destruct (N.to_nat i).
  Qed.

  Lemma contains_key_sound st : heap_reachable O st -> forall k v, OrdinalMap_get O st k = Val (Some v) ->
    OrdinalMap_contains_key O st k = Val true.
  Proof.
    intros H k v E. rewrite (contains_key_slots H). f_equal.
    destruct (llen st =? 0) eqn:E0; [|reflexivity]. apply N.eqb_eq in E0. destruct st; [|discriminate E0].
    unfold OrdinalMap_get in E. destruct (ordinal O k) as [i| | | |]; try discriminate E. cbn in E.
    unfold slice_get in E. destruct (N.to_nat i); discriminate E.
  Qed.

  (** *** C30, C31, C37, C38, C40, C62 *)
  Lemma heap_lists st : heap_reachable O st -> forall l, lists_entries O (OrdinalMap_get O st) l ->
    exists ks m, enumeration O ks /\ heap_rep O n ks st m /\ l = pm_entries ks m.
  Proof.
    intros H l Hl. destruct (heap_state H) as (ks & m & He & Hm). exists ks, m. split; [exact He|]. split; [exact Hm|].
    exact (lists_unique Hl (rep_lists HO He Hm)).
  Qed.
  Lemma array_lists_eq S (a : @OrdinalArrayMap V S) : array_reachable O a ->
    forall l, lists_entries O (OrdinalArrayMap_get O a) l ->
    exists ks m, enumeration O ks /\ array_rep ks a m /\ l = pm_entries ks m.
  Proof.
    intros H l Hl. destruct (array_state H) as (ks & m & He & Hm). exists ks, m. split; [exact He|]. split; [exact Hm|].
    exact (lists_unique Hl (array_lists He Hm)).
  Qed.

  Lemma heap_listed st : heap_reachable O st -> exists l, lists_entries O (OrdinalMap_get O st) l.
  Proof.
    intros H. destruct (heap_state H) as (ks & m & He & Hm). exists (pm_entries ks m). exact (rep_lists HO He Hm).
  Qed.
  Lemma array_listed S (a : @OrdinalArrayMap V S) : array_reachable O a -> exists l, lists_entries O (OrdinalArrayMap_get O a) l.
  Proof.
    intros H. destruct (array_state H) as (ks & m & He & Hm). exists (pm_entries ks m). exact (array_lists He Hm).
  Qed.

  Lemma heap_iteration st : heap_reachable O st ->
    exists l, lists_entries O (OrdinalMap_get O st) l /\
      collects (Iter_step O) (OrdinalMap_iter st) l /\
      collects (Iter_step O) (OrdinalMap_ref_into_iter st) l /\
      collects (Keys_step O) (OrdinalMap_keys st) (map fst l) /\
      collects (Values_step O) (OrdinalMap_values st) (map snd l) /\
      collects (IntoIter_step O) (OrdinalMap_into_iter st) l /\
      collects (Drain_step O) (OrdinalMap_drain st) l /\
      collects_rel (ref_to O st) (IterMut_step O st) (OrdinalMap_iter_mut st) l /\
      collects_rel (value_ref O st) (ValuesMut_step O st) (OrdinalMap_values_mut st) l.
  Proof.
    intros H. destruct (heap_state H) as (ks & m & He & Hm). exists (pm_entries ks m).
    split; [exact (rep_lists HO He Hm)|]. split; [exact (rep_co_iter HO Hm)|]. split; [exact (rep_co_iter HO Hm)|].
    split; [exact (rep_co_keys HO Hm)|]. split; [exact (rep_co_values HO Hm)|]. split; [exact (rep_co_into HO Hm)|].
    split; [exact (rep_co_drain HO Hm)|]. split; [exact (rep_co_iter_mut HO Hm)|]. exact (rep_co_values_mut HO Hm).
  Qed.

  Lemma array_iteration S (a : @OrdinalArrayMap V S) : array_reachable O a ->
    exists l, lists_entries O (OrdinalArrayMap_get O a) l /\
      collects (Iter_step O) (OrdinalArrayMap_iter a) l /\
      collects (Iter_step O) (OrdinalArrayMap_ref_into_iter a) l /\
      collects (Keys_step O) (OrdinalArrayMap_keys a) (map fst l) /\
      collects (Values_step O) (OrdinalArrayMap_values a) (map snd l) /\
      collects (IntoIterArray_step O) (OrdinalArrayMap_into_iter a) l /\
      collects (Drain_step O) (OrdinalArrayMap_drain a) l /\
      collects_rel (ref_to O (arr_list a)) (IterMut_step O (arr_list a)) (OrdinalArrayMap_iter_mut a) l /\
      collects_rel (value_ref O (arr_list a)) (ValuesMut_step O (arr_list a)) (OrdinalArrayMap_values_mut a) l.
  Proof.
    intros H. destruct (array_state H) as (ks & m & He & Ha). exists (pm_entries ks m).
    pose proof (array_is_rep HO He Ha) as Hm.
    split; [exact (array_lists He Ha)|]. split; [exact (rep_co_iter HO Hm)|]. split; [exact (rep_co_iter HO Hm)|].
    split; [exact (rep_co_keys HO Hm)|]. split; [exact (rep_co_values HO Hm)|]. split; [exact (rep_co_into_array HO Hm)|].
    split; [exact (rep_co_drain HO Hm)|]. split; [exact (rep_co_iter_mut HO Hm)|]. exact (rep_co_values_mut HO Hm).
  Qed.

  (** One statement per iterator type, everything that holds at every position. *)
  Lemma heap_iterators st : heap_reachable O st -> forall l, lists_entries O (OrdinalMap_get O st) l ->
      double_ended (Iter_step O) (OrdinalMap_iter st) l (iter_facts O) /\
      double_ended (Keys_step O) (OrdinalMap_keys st) (map fst l) (keys_facts O) /\
      double_ended (Values_step O) (OrdinalMap_values st) (map snd l) (values_facts O) /\
      double_ended (IntoIter_step O) (OrdinalMap_into_iter st) l (into_facts O) /\
      double_ended_rel (ref_to O st) (IterMut_step O st) (OrdinalMap_iter_mut st) l (iter_mut_facts O st) /\
      double_ended_rel (value_ref O st) (ValuesMut_step O st) (OrdinalMap_values_mut st) l (values_mut_facts O st) /\
      double_ended (Drain_step O) (OrdinalMap_drain st) l (fun d rest => hint_ok (Drain_size_hint d) (llen rest)).
  Proof.
    intros H l Hl. destruct (heap_lists H Hl) as (ks & m & He & Hm & ->).
    split; [exact (rep_de_iter HO Hm)|]. split; [exact (rep_de_keys HO Hm)|]. split; [exact (rep_de_values HO Hm)|].
    split; [exact (rep_de_into HO Hm)|]. split; [exact (rep_de_iter_mut HO Hm)|]. split; [exact (rep_de_values_mut HO Hm)|].
    eapply double_ended_weaken; [|exact (rep_de_drain HO eqd Hm)]. cbn beta. tauto.
  Qed.
  Lemma array_iterators S (a : @OrdinalArrayMap V S) : array_reachable O a ->
    forall l, lists_entries O (OrdinalArrayMap_get O a) l ->
      double_ended (Iter_step O) (OrdinalArrayMap_iter a) l (iter_facts O) /\
      double_ended (Keys_step O) (OrdinalArrayMap_keys a) (map fst l) (keys_facts O) /\
      double_ended (Values_step O) (OrdinalArrayMap_values a) (map snd l) (values_facts O) /\
      double_ended (IntoIterArray_step O) (OrdinalArrayMap_into_iter a) l (into_array_facts O) /\
      double_ended_rel (ref_to O (arr_list a)) (IterMut_step O (arr_list a)) (OrdinalArrayMap_iter_mut a) l
        (iter_mut_facts O (arr_list a)) /\
      double_ended_rel (value_ref O (arr_list a)) (ValuesMut_step O (arr_list a)) (OrdinalArrayMap_values_mut a) l
        (values_mut_facts O (arr_list a)) /\
      double_ended (Drain_step O) (OrdinalArrayMap_drain a) l (fun d rest => hint_ok (Drain_size_hint d) (llen rest)).
  Proof.
    intros H l Hl. destruct (array_lists_eq H Hl) as (ks & m & He & Ha & ->).
    pose proof (array_is_rep HO He Ha) as Hm.
    split; [exact (rep_de_iter HO Hm)|]. split; [exact (rep_de_keys HO Hm)|]. split; [exact (rep_de_values HO Hm)|].
    split; [exact (rep_de_into_array HO Hm)|]. split; [exact (rep_de_iter_mut HO Hm)|]. split; [exact (rep_de_values_mut HO Hm)|].
    eapply double_ended_weaken; [|exact (rep_de_drain HO eqd Hm)]. cbn beta. tauto.
  Qed.

  (** Projections of the above. *)
  Lemma heap_double_ended st : heap_reachable O st -> forall l, lists_entries O (OrdinalMap_get O st) l ->
      double_ended (Iter_step O) (OrdinalMap_iter st) l anything /\
      double_ended (Keys_step O) (OrdinalMap_keys st) (map fst l) anything /\
      double_ended (Values_step O) (OrdinalMap_values st) (map snd l) anything /\
      double_ended (IntoIter_step O) (OrdinalMap_into_iter st) l anything /\
      double_ended_rel (ref_to O st) (IterMut_step O st) (OrdinalMap_iter_mut st) l anything /\
      double_ended_rel (value_ref O st) (ValuesMut_step O st) (OrdinalMap_values_mut st) l anything /\
      double_ended (Drain_step O) (OrdinalMap_drain st) l anything.
  Proof.
    intros H l Hl. destruct (heap_iterators H Hl) as (H1 & H2 & H3 & H4 & H5 & H6 & H7).
    weaken7 H1 H2 H3 H4 H5 H6 H7.
  Qed.
  Lemma array_double_ended S (a : @OrdinalArrayMap V S) : array_reachable O a ->
    forall l, lists_entries O (OrdinalArrayMap_get O a) l ->
      double_ended (Iter_step O) (OrdinalArrayMap_iter a) l anything /\
      double_ended (Keys_step O) (OrdinalArrayMap_keys a) (map fst l) anything /\
      double_ended (Values_step O) (OrdinalArrayMap_values a) (map snd l) anything /\
      double_ended (IntoIterArray_step O) (OrdinalArrayMap_into_iter a) l anything /\
      double_ended_rel (ref_to O (arr_list a)) (IterMut_step O (arr_list a)) (OrdinalArrayMap_iter_mut a) l anything /\
      double_ended_rel (value_ref O (arr_list a)) (ValuesMut_step O (arr_list a)) (OrdinalArrayMap_values_mut a) l anything /\
      double_ended (Drain_step O) (OrdinalArrayMap_drain a) l anything.
  Proof.
    intros H l Hl. destruct (array_iterators H Hl) as (H1 & H2 & H3 & H4 & H5 & H6 & H7).
    weaken7 H1 H2 H3 H4 H5 H6 H7.
  Qed.

  Lemma heap_hints st : heap_reachable O st -> forall l, lists_entries O (OrdinalMap_get O st) l ->
      double_ended (Iter_step O) (OrdinalMap_iter st) l (fun s r => hint_ok (Iter_size_hint s) (llen r)) /\
      double_ended (Keys_step O) (OrdinalMap_keys st) (map fst l) (fun s r => hint_ok (Keys_size_hint s) (llen r)) /\
      double_ended (Values_step O) (OrdinalMap_values st) (map snd l) (fun s r => hint_ok (Values_size_hint s) (llen r)) /\
      double_ended (IntoIter_step O) (OrdinalMap_into_iter st) l (fun s r => hint_ok (IntoIter_size_hint s) (llen r)) /\
      double_ended_rel (ref_to O st) (IterMut_step O st) (OrdinalMap_iter_mut st) l
        (fun s r => hint_ok (IterMut_size_hint s) (llen r)) /\
      double_ended_rel (value_ref O st) (ValuesMut_step O st) (OrdinalMap_values_mut st) l
        (fun s r => hint_ok (ValuesMut_size_hint s) (llen r)) /\
      double_ended (Drain_step O) (OrdinalMap_drain st) l (fun s r => hint_ok (Drain_size_hint s) (llen r)).
  Proof.
    intros H l Hl. destruct (heap_iterators H Hl) as (H1 & H2 & H3 & H4 & H5 & H6 & H7).
    weaken7 H1 H2 H3 H4 H5 H6 H7.
  Qed.
  Lemma array_hints S (a : @OrdinalArrayMap V S) : array_reachable O a ->
    forall l, lists_entries O (OrdinalArrayMap_get O a) l ->
      double_ended (Iter_step O) (OrdinalArrayMap_iter a) l (fun s r => hint_ok (Iter_size_hint s) (llen r)) /\
      double_ended (Keys_step O) (OrdinalArrayMap_keys a) (map fst l) (fun s r => hint_ok (Keys_size_hint s) (llen r)) /\
      double_ended (Values_step O) (OrdinalArrayMap_values a) (map snd l) (fun s r => hint_ok (Values_size_hint s) (llen r)) /\
      double_ended (IntoIterArray_step O) (OrdinalArrayMap_into_iter a) l (fun s r => hint_ok (IntoIterArray_size_hint s) (llen r)) /\
      double_ended_rel (ref_to O (arr_list a)) (IterMut_step O (arr_list a)) (OrdinalArrayMap_iter_mut a) l
        (fun s r => hint_ok (IterMut_size_hint s) (llen r)) /\
      double_ended_rel (value_ref O (arr_list a)) (ValuesMut_step O (arr_list a)) (OrdinalArrayMap_values_mut a) l
        (fun s r => hint_ok (ValuesMut_size_hint s) (llen r)) /\
      double_ended (Drain_step O) (OrdinalArrayMap_drain a) l (fun s r => hint_ok (Drain_size_hint s) (llen r)).
  Proof.
    intros H l Hl. destruct (array_iterators H Hl) as (H1 & H2 & H3 & H4 & H5 & H6 & H7).
    weaken7 H1 H2 H3 H4 H5 H6 H7.
  Qed.

  Lemma heap_debugs st : heap_reachable O st -> forall l, lists_entries O (OrdinalMap_get O st) l ->
      OrdinalMap_debug O st = Val l /\
      double_ended (Iter_step O) (OrdinalMap_iter st) l (fun s r => Iter_debug O s = Val r) /\
      double_ended (Keys_step O) (OrdinalMap_keys st) (map fst l) (fun s r => Keys_debug O s = Val r) /\
      double_ended (Values_step O) (OrdinalMap_values st) (map snd l) (fun s r => Values_debug O s = Val r) /\
      double_ended (IntoIter_step O) (OrdinalMap_into_iter st) l (fun s r => IntoIter_debug O s = Val r) /\
      double_ended_rel (ref_to O st) (IterMut_step O st) (OrdinalMap_iter_mut st) l (fun s r => IterMut_debug O st s = Val r) /\
      double_ended_rel (value_ref O st) (ValuesMut_step O st) (OrdinalMap_values_mut st) l
        (fun s r => ValuesMut_debug O st s = Val (map snd r)).
  Proof.
    intros H l Hl. destruct (heap_iterators H Hl) as (H1 & H2 & H3 & H4 & H5 & H6 & H7).
    split. { destruct (heap_lists H Hl) as (ks & m & He & Hm & ->). exact (rep_debug HO eqd He Hm). }
    split; [weaken H1|]. split; [weaken H2|]. split; [weaken H3|]. split; [weaken H4|]. split; [weaken H5|]. weaken H6.
  Qed.
  Lemma array_debugs S (a : @OrdinalArrayMap V S) : array_reachable O a ->
    forall l, lists_entries O (OrdinalArrayMap_get O a) l ->
      OrdinalArrayMap_debug O a = Val l /\
      double_ended (Iter_step O) (OrdinalArrayMap_iter a) l (fun s r => Iter_debug O s = Val r) /\
      double_ended (Keys_step O) (OrdinalArrayMap_keys a) (map fst l) (fun s r => Keys_debug O s = Val r) /\
      double_ended (Values_step O) (OrdinalArrayMap_values a) (map snd l) (fun s r => Values_debug O s = Val r) /\
      double_ended (IntoIterArray_step O) (OrdinalArrayMap_into_iter a) l (fun s r => IntoIterArray_debug O s = Val r) /\
      double_ended_rel (ref_to O (arr_list a)) (IterMut_step O (arr_list a)) (OrdinalArrayMap_iter_mut a) l
        (fun s r => IterMut_debug O (arr_list a) s = Val r) /\
      double_ended_rel (value_ref O (arr_list a)) (ValuesMut_step O (arr_list a)) (OrdinalArrayMap_values_mut a) l
        (fun s r => ValuesMut_debug O (arr_list a) s = Val (map snd r)).
  Proof.
    intros H l Hl. destruct (array_iterators H Hl) as (H1 & H2 & H3 & H4 & H5 & H6 & H7).
    split. { destruct (array_lists_eq H Hl) as (ks & m & He & Ha & ->).
      exact (rep_debug HO eqd He (array_is_rep HO He Ha)). }
    split; [weaken H1|]. split; [weaken H2|]. split; [weaken H3|]. split; [weaken H4|]. split; [weaken H5|]. weaken H6.
  Qed.

  Lemma heap_len_law st : heap_reachable O st -> forall l, lists_entries O (OrdinalMap_get O st) l ->
    OrdinalMap_len O st = Val (llen l) /\ OrdinalMap_is_empty O st = Val (llen l =? 0).
  Proof.
    intros H l Hl. destruct (heap_lists H Hl) as (ks & m & He & Hm & ->).
    split; [exact (rep_len HO eqd He Hm)|exact (rep_is_empty HO eqd He Hm)].
  Qed.
  Lemma array_len_law S (a : @OrdinalArrayMap V S) : array_reachable O a ->
    forall l, lists_entries O (OrdinalArrayMap_get O a) l ->
    OrdinalArrayMap_len O a = Val (llen l) /\ OrdinalArrayMap_is_empty O a = Val (llen l =? 0).
  Proof.
    intros H l Hl. destruct (array_lists_eq H Hl) as (ks & m & He & Ha & ->).
    pose proof (array_is_rep HO He Ha) as Hm.
    split; [exact (rep_len HO eqd He Hm)|exact (rep_is_empty HO eqd He Hm)].
  Qed.

  Lemma heap_clones st : heap_reachable O st -> forall (cl : V -> V) l, lists_entries O (OrdinalMap_get O st) l ->
      (forall k, OrdinalMap_get O (OrdinalMap_clone cl st) k = (o <- OrdinalMap_get O st k ;; Val (opt_map cl o))) /\
      double_ended (Iter_step O) (OrdinalMap_iter st) l
        (fun s r => double_ended (Iter_step O) (Iter_clone s) r anything) /\
      double_ended (Keys_step O) (OrdinalMap_keys st) (map fst l)
        (fun s r => double_ended (Keys_step O) (Keys_clone s) r anything) /\
      double_ended (Values_step O) (OrdinalMap_values st) (map snd l)
        (fun s r => double_ended (Values_step O) (Values_clone s) r anything) /\
      double_ended (IntoIter_step O) (OrdinalMap_into_iter st) l
        (fun s r => double_ended (IntoIter_step O) (IntoIter_clone cl s)
                      (map (fun kv => (fst kv, cl (snd kv))) r) anything).
  Proof.
    intros H cl l Hl. destruct (heap_iterators H Hl) as (H1 & H2 & H3 & H4 & _).
    split. { destruct (heap_lists H Hl) as (ks & m & He & Hm & ->). intros k.
      rewrite (rep_get HO He Hm), (rep_get HO He (rep_clone HO eqd He Hm cl)). reflexivity. }
    split; [weaken H1|]. split; [weaken H2|]. split; [weaken H3|]. weaken H4.
  Qed.
  Lemma array_clones S (a : @OrdinalArrayMap V S) : array_reachable O a ->
    forall (cl : V -> V) l, lists_entries O (OrdinalArrayMap_get O a) l ->
      (forall k, OrdinalArrayMap_get O (OrdinalArrayMap_clone cl a) k = (o <- OrdinalArrayMap_get O a k ;; Val (opt_map cl o))) /\
      double_ended (Iter_step O) (OrdinalArrayMap_iter a) l
        (fun s r => double_ended (Iter_step O) (Iter_clone s) r anything) /\
      double_ended (Keys_step O) (OrdinalArrayMap_keys a) (map fst l)
        (fun s r => double_ended (Keys_step O) (Keys_clone s) r anything) /\
      double_ended (Values_step O) (OrdinalArrayMap_values a) (map snd l)
        (fun s r => double_ended (Values_step O) (Values_clone s) r anything) /\
      double_ended (IntoIterArray_step O) (OrdinalArrayMap_into_iter a) l
        (fun s r => double_ended (IntoIterArray_step O) (IntoIterArray_clone cl s)
                      (map (fun kv => (fst kv, cl (snd kv))) r) anything).
  Proof.
    intros H cl l Hl. destruct (array_iterators H Hl) as (H1 & H2 & H3 & H4 & _).
    split. { destruct (array_lists_eq H Hl) as (ks & m & He & Ha & ->). intros k.
      rewrite (array_get_ok HO He k Ha). cbn [bind].
      apply (array_get_ok HO He k (m := fun k => opt_map cl (m k))). unfold array_rep in *.
      unfold OrdinalArrayMap_clone, OrdinalTotalArrayMap_clone. cbn [arr_clone arr_list]. rewrite Ha, map_map. reflexivity. }
    split; [weaken H1|]. split; [weaken H2|]. split; [weaken H3|]. weaken H4.
  Qed.

  (** *** C32 *)
  Lemma refs_NoDup (got : list (option (K * N))) keys :
    Forall2 (opt_rel (fun ki k => fst ki = k /\ ordinal O k = Val (snd ki))) got keys ->
    NoDup (somes keys) -> NoDup (map snd (somes got)).
  Proof.
    induction 1 as [|a b got keys Hab HF IH]; intros Hn; [constructor|].
    destruct a as [[k i]|], b as [k'|]; cbn in Hab; try contradiction.
    - destruct Hab as [-> Hk]. cbn [somes flat_map app map snd] in *. fold (somes got) in *. fold (somes keys) in *.
      inversion Hn as [|? ? Hn1 Hn2]; subst. constructor; [|now apply IH].
      intros Hin. apply Hn1. clear -Hin HF Hk HO. cbn in Hk.
      induction HF as [|a b got keys Hab HF IH]; [destruct Hin|].
      destruct a as [[k2 i2]|], b as [k2'|]; cbn in Hab; try contradiction.
      + destruct Hab as [-> H2]. cbn [somes flat_map app map snd] in *. fold (somes got) in *. fold (somes keys) in *.
        destruct Hin as [->|Hin]; [|right; now apply IH]. left.
        destruct (bij_to HO k') as (x & X1 & _ & X2), (bij_to HO k2') as (y & Y1 & _ & Y2). cbn in *. congruence.
      + exact (IH Hin).
    - exact (IH Hn).
  Qed.

  Lemma mut_run_values (storage0 : list (option V)) evs : forall st s refs got st',
    mut_run (fun st => IterMut_step O st) snd write_some evs st s refs = Val (got, st') ->
    mut_run (fun st => ValuesMut_step O st) (fun i : N => i) write_some evs st s refs = Val (map (opt_map snd) got, st').
  Proof.
    induction evs as [|[d|j v] evs IH]; intros st s refs got st' E; cbn [mut_run] in *.
    - injection E as <- <-. reflexivity.
    - apply bind_inv in E. destruct E as ([o s1] & E1 & E). apply bind_inv in E. destruct E as ([os st2] & E2 & E).
      injection E as <- <-. rewrite (valuesmut_step_map E1). cbn [bind].
      assert (Em : map (fun i : N => i) (somes [opt_map snd o]) = map snd (somes [o])) by (destruct o; reflexivity).
      rewrite Em, (IH _ _ _ _ _ E2). reflexivity.
    - apply bind_inv in E. destruct E as (st1 & E1 & E). rewrite E1. cbn [bind]. exact (IH _ _ _ _ _ E).
  Qed.

  Lemma rep_mut eqd' ks st m evs : enumeration O ks -> heap_rep O n ks st m ->
    exists got st' m', mut_run (fun st => IterMut_step O st) snd write_some evs st (OrdinalMap_iter_mut st) [] = Val (got, st') /\
      Forall2 (opt_rel (fun ki k => fst ki = k /\ ordinal O k = Val (snd ki))) got
        (fst (mut_spec eqd' Some evs (map fst (pm_entries ks m)) [] m)) /\
      NoDup (map snd (somes got)) /\
      heap_rep O n ks st' m' /\ length st' = length st /\
      (forall k, m' k = snd (mut_spec eqd' Some evs (map fst (pm_entries ks m)) [] m) k).
  Proof.
    intros He (ks' & -> & Hc & Hk). rewrite <- (rep_entries Hc Hk). destruct Hc as [Hs Hd].
    assert (Hi : at_slots O n ks' (OrdinalMap_iter_mut (map m ks')) ks').
    { unfold OrdinalMap_iter_mut. rewrite map_length. exact (at_slots_init Hs). }
    destruct (@iter_mut_run_ok _ _ _ O n HO eqd' ks' Hs evs _ ks' [] [] m Hd Hi (Forall2_nil _))
      as (got & m' & E & G1 & G2 & G3).
    exists got, (map m' ks'), m'. split; [exact E|]. split; [exact G1|]. split.
    { eapply refs_NoDup; [exact G1|]. apply mut_spec_NoDup. apply pm_entries_NoDup.
      exact (numbered_NoDup (proj1 Hs)). }
    split; [|split; [now rewrite !map_length|exact G2]].
    exists ks'. split; [reflexivity|]. split; [|exact Hk]. split; [exact Hs|].
    intros k Hm. apply Hd. intros En. specialize (G3 k). rewrite En in G3. destruct (m' k); [discriminate G3|congruence].
  Qed.

  Lemma value_refs (got : list (option (K * N))) keys :
    Forall2 (opt_rel (fun ki k => fst ki = k /\ ordinal O k = Val (snd ki))) got keys ->
    Forall2 (opt_rel (fun i k => ordinal O k = Val i)) (map (opt_map snd) got) keys.
  Proof.
    induction 1 as [|a b got keys Hab HF IH]; [constructor|]. cbn [map]. constructor; [|exact IH].
    destruct a as [[k i]|], b; cbn in *; tauto.
  Qed.

  Lemma heap_mut_law eqd' st : heap_reachable O st ->
    exists m l, (forall k, OrdinalMap_get O st k = Val (m k)) /\ lists_entries O (OrdinalMap_get O st) l /\
    forall evs,
      let keys := fst (mut_spec eqd' Some evs (map fst l) [] m) in
      let m' := snd (mut_spec eqd' Some evs (map fst l) [] m) in
      (exists got st',
         mut_run (fun st => IterMut_step O st) snd write_some evs st (OrdinalMap_iter_mut st) [] = Val (got, st') /\
         Forall2 (opt_rel (fun ki k => fst ki = k /\ ordinal O k = Val (snd ki))) got keys /\
         NoDup (map snd (somes got)) /\ forall k, OrdinalMap_get O st' k = Val (m' k)) /\
      (exists got st',
         mut_run (fun st => ValuesMut_step O st) (fun i : N => i) write_some evs st (OrdinalMap_values_mut st) [] = Val (got, st') /\
         Forall2 (opt_rel (fun i k => ordinal O k = Val i)) got keys /\
         NoDup (somes got) /\ forall k, OrdinalMap_get O st' k = Val (m' k)).
  Proof.
    intros H. destruct (heap_state H) as (ks & m & He & Hm). exists m, (pm_entries ks m).
    split; [exact (rep_get HO He Hm)|]. split; [exact (rep_lists HO He Hm)|]. intros evs. cbv zeta.
    destruct (rep_mut eqd' evs He Hm) as (got & st' & m' & E & G1 & G2 & G3 & G4 & G5).
    assert (Hg : forall k, OrdinalMap_get O st' k = Val (snd (mut_spec eqd' Some evs (map fst (pm_entries ks m)) [] m) k)).
    { intros k. rewrite (rep_get HO He G3), G5. reflexivity. }
    split.
    - exists got, st'. auto.
    - exists (map (opt_map snd) got), st'. split; [exact (mut_run_values st E)|]. split; [exact (value_refs G1)|].
      split; [|exact Hg]. rewrite somes_map. exact G2.
  Qed.

  Lemma array_mut_law eqd' S (a : @OrdinalArrayMap V S) : array_reachable O a ->
    exists m l, (forall k, OrdinalArrayMap_get O a k = Val (m k)) /\ lists_entries O (OrdinalArrayMap_get O a) l /\
    forall evs,
      let keys := fst (mut_spec eqd' Some evs (map fst l) [] m) in
      let m' := snd (mut_spec eqd' Some evs (map fst l) [] m) in
      (exists got st',
         mut_run (fun st => IterMut_step O st) snd write_some evs (arr_list a) (OrdinalArrayMap_iter_mut a) [] = Val (got, st') /\
         Forall2 (opt_rel (fun ki k => fst ki = k /\ ordinal O k = Val (snd ki))) got keys /\
         NoDup (map snd (somes got)) /\ forall k, array_storage_get O S st' k = Val (m' k)) /\
      (exists got st',
         mut_run (fun st => ValuesMut_step O st) (fun i : N => i) write_some evs (arr_list a) (OrdinalArrayMap_values_mut a) [] = Val (got, st') /\
         Forall2 (opt_rel (fun i k => ordinal O k = Val i)) got keys /\
         NoDup (somes got) /\ forall k, array_storage_get O S st' k = Val (m' k)).
  Proof.
    intros H. destruct (array_state H) as (ks & m & He & Ha). exists m, (pm_entries ks m).
    pose proof (array_is_rep HO He Ha) as Hm.
    split; [intros k; exact (array_get_ok HO He k Ha)|]. split; [exact (array_lists He Ha)|]. intros evs. cbv zeta.
    destruct (rep_mut eqd' evs He Hm) as (got & st' & m' & E & G1 & G2 & G3 & G4 & G5).
    assert (Hg : forall k, array_storage_get O S st' k = Val (snd (mut_spec eqd' Some evs (map fst (pm_entries ks m)) [] m) k)).
    { intros k. assert (L : length st' = S) by (rewrite G4; apply arr_length).
      destruct (full_is_array HO eqd He G3 L (rep_size Ha)) as (a' & Ea & El & Hr). unfold array_storage_get. rewrite Ea. cbn [bind]. rewrite (array_get_ok HO He k Hr), G5. reflexivity. }
    split.
    - exists got, st'. auto.
    - exists (map (opt_map snd) got), st'. split; [exact (mut_run_values st' E)|]. split; [exact (value_refs G1)|].
      split; [|exact Hg]. rewrite somes_map. exact G2.
  Qed.

  (** *** C33 *)
  Lemma mem_in_dec eqd' (m : pmap K V) l k :
    pm_restrict eqd' m l k = if in_dec eqd' k l then m k else None.
  Proof. unfold pm_restrict, mem. destruct (in_dec eqd' k l); reflexivity. Qed.

  Lemma heap_drain_law eqd' st : heap_reachable O st -> forall l, lists_entries O (OrdinalMap_get O st) l ->
    double_ended (Drain_step O) (OrdinalMap_drain st) l (drain_ok O eqd' (OrdinalMap_get O) st) /\
    exists st', OrdinalMap_clear O st = Val st' /\ forall k, OrdinalMap_get O st' k = Val None.
  Proof.
    intros H l Hl. destruct (heap_lists H Hl) as (ks & m & He & Hm & ->). split.
    - eapply double_ended_weaken; [|exact (rep_de_drain HO eqd' Hm)]. cbn beta.
      intros d rest (_ & (st' & E1 & R1 & _) & R2 & _). split.
      + exists st'. split; [exact E1|]. intros k. rewrite (rep_get HO He R1). reflexivity.
      + intros k. rewrite (rep_get HO He R2), (rep_get HO He Hm), mem_in_dec. destruct (in_dec _ _ _); reflexivity.
    - destruct (rep_clear HO eqd' Hm) as (st' & E & R & _). exists st'. split; [exact E|]. intros k.
      now rewrite (rep_get HO He R).
  Qed.

  Lemma array_drain_law eqd' S (a : @OrdinalArrayMap V S) : array_reachable O a ->
    forall l, lists_entries O (OrdinalArrayMap_get O a) l ->
    double_ended (Drain_step O) (OrdinalArrayMap_drain a) l (drain_ok O eqd' (array_storage_get O S) (arr_list a)) /\
    exists a', OrdinalArrayMap_clear O a = Val a' /\ forall k, OrdinalArrayMap_get O a' k = Val None.
  Proof.
    intros H l Hl. destruct (array_lists_eq H Hl) as (ks & m & He & Ha & ->).
    pose proof (array_is_rep HO He Ha) as Hm. pose proof (rep_size Ha) as HS.
    assert (Hg : forall st' m', heap_rep O n ks st' m' -> length st' = length (arr_list a) ->
        exists a', arr_back S st' = Val a' /\ forall k, OrdinalArrayMap_get O a' k = Val (m' k)).
    { intros st' m' R L. rewrite arr_length in L. destruct (full_is_array HO eqd He R L HS) as (a' & Ea & _ & Hr).
      exists a'. split; [exact Ea|]. intros k. exact (array_get_ok HO He k Hr). }
    assert (Hg' : forall st' m' k, heap_rep O n ks st' m' -> length st' = length (arr_list a) ->
        array_storage_get O S st' k = Val (m' k)).
    { intros st' m' k R L. destruct (Hg _ _ R L) as (a' & Ea & G). unfold array_storage_get. rewrite Ea. apply G. }
    split.
    - eapply double_ended_weaken; [|exact (rep_de_drain HO eqd' Hm)]. cbn beta.
      intros d rest (_ & (st' & E1 & R1 & L1) & R2 & L2). split.
      + exists st'. split; [exact E1|]. intros k. rewrite (Hg' _ _ k R1 L1). reflexivity.
      + intros k. rewrite (Hg' _ _ k R2 L2), (Hg' _ _ k Hm eq_refl), mem_in_dec. destruct (in_dec _ _ _); reflexivity.
    - destruct (rep_clear HO eqd' Hm) as (st' & E & R & L). unfold OrdinalMap_clear in E.
      apply bind_inv in E. destruct E as ([st1 l1] & E1 & E). injection E as ->.
      unfold OrdinalArrayMap_clear, OrdinalArrayMap_drain, OrdinalTotalArrayMap_iter_mut.
      change (Drain_new (arr_list a) _) with (OrdinalMap_drain (arr_list a)). rewrite E1. cbn [bind].
      destruct (Hg _ _ R L) as (a' & Ea & G). exists a'. split; [exact Ea|]. exact G.
  Qed.

  (** *** C34, C35, C36 *)
  Lemma heap_entry_law eqd' st : heap_reachable O st -> forall k,
    exists e st', OrdinalMap_entry O st k = Val (e, st') /\
      (forall k', OrdinalMap_get O st' k' = OrdinalMap_get O st k') /\
      entry_ok eqd' (OrdinalMap_get O) st' k e.
  Proof.
    intros H k. destruct (heap_state H) as (ks & m & He & Hm). exact (heap_entry_ok HO eqd' He k Hm).
  Qed.
  Lemma array_entry_law eqd' S (a : @OrdinalArrayMap V S) : array_reachable O a -> forall k,
    exists e, OrdinalArrayMap_entry O a k = Val (e, a) /\
      (forall k', array_storage_get O S (arr_list a) k' = OrdinalArrayMap_get O a k') /\
      entry_ok eqd' (array_storage_get O S) (arr_list a) k e.
  Proof.
    intros H k. destruct (array_state H) as (ks & m & He & Ha).
    destruct (array_entry_ok HO eqd' He (rep_size Ha) k Ha) as (e & E & G).
    exists e. split; [exact E|]. split; [|exact G]. intros k'. rewrite (array_get_ok HO He k' Ha).
    rewrite Ha. exact (array_storage_get_full HO He (rep_size Ha) m k').
  Qed.

  Lemma heap_from_iter_law (l : list (K * V)) :
    exists st, OrdinalMap_from_iter O l = Val st /\ built_from (OrdinalMap_get O st) l.
  Proof.
    destruct (keys_exist HO) as (ks & He).
    destruct (heap_from_iter_loop HO eqd He l (heap_new_rep O n ks)) as (st & E & R).
    exists st. split; [exact E|]. apply (built_from_fold (eqd := eqd)). exact (rep_get HO He R).
  Qed.
  Lemma array_from_iter_law S (l : list (K * V)) : N.of_nat S = n ->
    exists a, OrdinalArrayMap_from_iter O S l = Val a /\ built_from (OrdinalArrayMap_get O a) l.
  Proof.
    intros Hn. destruct (keys_exist HO) as (ks & He).
    destruct (array_new_rep HO He (V := V) Hn) as (a0 & E0 & H0).
    destruct (array_from_iter_loop HO eqd He l H0) as (a & E & R).
    exists a. split; [unfold OrdinalArrayMap_from_iter; rewrite E0; exact E|].
    apply (built_from_fold (eqd := eqd)). intros k. exact (array_get_ok HO He k R).
  Qed.

  Lemma array_retain_law eqd' S (a : @OrdinalArrayMap V S) : array_reachable O a ->
    exists m l, (forall k, OrdinalArrayMap_get O a k = Val (m k)) /\ lists_entries O (OrdinalArrayMap_get O a) l /\
    forall St (f : St -> K -> V -> St * V * res bool) s,
      let '(s', m', r) := retain_calls eqd' f l m s in
      exists a' st', OrdinalArrayMap_retain O f a s = (s', st', r) /\ arr_back S st' = Val a' /\
        forall k, OrdinalArrayMap_get O a' k = Val (m' k).
  Proof.
    intros H. destruct (array_state H) as (ks & m & He & Ha). exists m, (pm_entries ks m).
    split; [intros k; exact (array_get_ok HO He k Ha)|]. split; [exact (array_lists He Ha)|]. intros St f s.
    destruct (array_retain_ok HO eqd' He (rep_size Ha) f s Ha) as (a' & st' & E & E2 & G).
    destruct (retain_calls eqd' f (pm_entries ks m) m s) as [[s' m'] r]. cbn [fst snd] in *. eauto.
  Qed.
End Reach.
