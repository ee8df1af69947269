(** * SafetyProofs2: arrays, total maps, sets and constructors with arbitrary Ordinal impls (C64). *)
From Verif Require Import Base Spec SpecMap SpecTotal SpecSet SpecSafety ModelOrdinal ModelValues ModelArrayBuilder
  ModelIter ModelTotal ModelMap ModelSet MapMachine TotalMachine SetMachine BaseProofs ArrayProofs IterLib BitProofs
  SetProofs SafetyProofs.
From Coq Require Import List Lia. Import ListNotations.
Unset Strict Implicit.

(** ** Array construction *)
Section Fill.
  Context {T It A E St : Type} (S : nat) (next : It -> res (option A * It)) (init : St -> A -> St * res (result T E)).
  Hypothesis Hnext : forall it, no_ub (next it).
  Hypothesis Hinit : forall st a, no_ub (snd (init st a)).

  Lemma fill_good fuel : forall l it st, (length l <= S)%nat -> (S - length l + 1 < fuel)%nat ->
    no_ub (returned (snd (fill S next init fuel (builder_of S l) it st))).
  Proof.
    induction fuel as [|fuel IH]; intros l it st Hl Hf; [lia|]. cbn [fill].
    pose proof (Hnext it) as Hn. destruct (next it) as [[[a|] it']|w| | |]; try contradiction Hn.
    - pose proof (Hinit st a) as Hi. destruct (init st a) as [st' r]. cbn [snd] in Hi.
      destruct r as [[v|e]|w| | |]; try contradiction Hi; try (cbn [snd]; rewrite leave_ok; exact I).
      + destruct (Nat.lt_ge_cases (length l) S) as [H|H].
        * rewrite push_ok by exact H. apply IH; rewrite app_length; cbn; lia.
        * rewrite push_full by lia. cbn [snd]. rewrite leave_ok. exact I.
      + exact I.
    - cbv zeta. cbn [snd returned]. destruct (Nat.eq_dec (length l) S) as [H|H].
      + destruct (finish_ok _ H) as (a & -> & _). exact I.
      + rewrite finish_short by lia. exact I.
    - cbn [snd]. rewrite leave_ok. exact I.
    - exact I.
  Qed.
  Lemma fill_new_good it st : no_ub (returned (snd (fill S next init (S + 2) (builder_new S) it st))).
  Proof. rewrite builder_new_of. apply fill_good; cbn; lia. Qed.
End Fill.

Lemma infallible_good {V St A} (init : St -> A -> St * res V) :
  (forall st k, no_ub (snd (init st k))) -> forall st k, no_ub (snd (infallible_init init st k)).
Proof.
  intros Hi st k. unfold infallible_init. specialize (Hi st k). destruct (init st k) as [st' r]. cbn in *.
  destruct r; cbn in *; auto.
Qed.

Lemma array_from_iter_good {It A T St} S (next : It -> res (option A * It)) (f : St -> A -> St * res T) it st :
  (forall it, no_ub (next it)) -> (forall st a, no_ub (snd (f st a))) ->
  no_ub (returned (snd (array_from_iter S next f it st))).
Proof.
  intros Hn Hf. unfold array_from_iter.
  pose proof (@fill_new_good T It A Empty_set St S next (infallible_init f) Hn (infallible_good Hf) it st) as G.
  destruct (fill _ _ _ _ _ _ _) as [st' r]. cbn [snd returned] in *. destruct (returned r); cbn in *; auto.
Qed.

(** ** Slices *)
Lemma slice_step_good {A} (R : A -> Prop) : good_step (@slice_step A) (Forall R) R (@length A).
Proof.
  intros d l Hl. unfold slice_step. destruct d; cbn.
  - destruct l as [|x l]; cbn; [auto|]. inversion Hl; subst. repeat split; auto; lia.
  - destruct l as [|x l _] using rev_ind; [cbn; auto|]. rewrite pop_back_rev.
    apply Forall_app in Hl as [H1 H2]. inversion H2; subst. cbn. rewrite app_length. cbn. repeat split; auto; lia.
Qed.

Lemma try_arr_good {T S} (l : list T) : length l = S -> exists a, try_arr S l = Some a.
Proof. intros H. destruct (try_arr_ok _ H) as (a & E & _). eauto. Qed.

Lemma read_slots_good {V} (st : list V) l : Forall (in_bounds st) l -> post (read_slots st l) (fun r => length r = length l).
Proof.
  induction 1 as [|i l Hi Hl IH]; cbn [read_slots]; [reflexivity|].
  apply post_bind with (P := fun _ => True); [apply post_deref; auto|]. intros v _.
  apply post_bind with (1 := IH). intros r Hr. cbn. congruence.
Qed.

Lemma twrite_entries_good {K V} (f : K -> V -> V) got : forall st,
  Forall (fun o => match o with Some p => in_bounds st (snd p) | None => True end) got ->
  post (twrite_entries f got st) (fun p => length (snd p) = length st).
Proof.
  induction got as [|[[k i]|] got IH]; intros st Hg; cbn [twrite_entries]; [reflexivity| |]; inversion Hg as [|? ? H1 H2]; subst.
  - cbn [snd] in H1. apply post_bind with (P := fun _ => True); [apply post_deref; auto|]. intros old _.
    apply post_bind with (P := fun p => length (snd p) = length (store_at st i (f k old))).
    { apply IH. eapply Forall_impl; [|exact H2]. intros [[k' j]|]; cbn; auto. apply in_bounds_length. symmetry. apply store_length. }
    intros [l st2] L2. cbn in *. rewrite L2. apply store_length.
  - apply post_bind with (1 := IH st H2). intros [l st2] L2. exact L2.
Qed.
Lemma twrite_values_good {V} (f : V -> V) got : forall st,
  Forall (fun o => match o with Some i => in_bounds st i | None => True end) got ->
  post (twrite_values f got st) (fun p => length (snd p) = length st).
Proof.
  induction got as [|[i|] got IH]; intros st Hg; cbn [twrite_values]; [reflexivity| |]; inversion Hg as [|? ? H1 H2]; subst.
  - apply post_bind with (P := fun _ => True); [apply post_deref; auto|]. intros old _.
    apply post_bind with (P := fun p => length (snd p) = length (store_at st i (f old))).
    { apply IH. eapply Forall_impl; [|exact H2]. intros [j|]; cbn; auto. apply in_bounds_length. symmetry. apply store_length. }
    intros [l st2] L2. cbn in *. rewrite L2. apply store_length.
  - apply post_bind with (1 := IH st H2). intros [l st2] L2. exact L2.
Qed.

Lemma tmut_run_good {V R : Type} (step : list V -> dir -> enumerate N -> res (option R * enumerate N)) (slot : R -> N) :
  (forall st, good_step (step st) (items_ok (in_bounds st)) (fun r => in_bounds st (slot r)) (@ilen N)) ->
  forall evs st it refs, items_ok (in_bounds st) it -> Forall (in_bounds st) refs ->
  post (mut_run step slot write_slot evs st it refs) (fun p => length (snd p) = length st).
Proof.
  intros Hg. induction evs as [|[d|j v] evs IH]; intros st it refs Hi Hr; cbn [mut_run]; [reflexivity| |].
  - apply post_bind with (1 := Hg st d it Hi). intros [o it'] (H1 & _ & H3). cbn [fst snd] in *.
    apply post_bind with (P := fun p => length (snd p) = length st).
    { apply IH; [exact H1|]. apply Forall_app. split; [exact Hr|].
      destruct o as [r|]; cbn; [constructor; [apply H3|constructor]|constructor]. }
    intros [os st'] L. exact L.
  - apply post_bind with (P := fun st' => length st' = length st).
    { destruct (nth_error refs j) as [i|] eqn:E; [|reflexivity]. unfold write_slot.
      apply post_bind with (P := fun _ => True).
      { apply post_deref; auto. rewrite Forall_forall in Hr. apply Hr. eapply nth_error_In; exact E. }
      intros _ _. cbn. apply store_length. }
    intros st' L. eapply post_weaken; [apply IH|].
    + eapply Forall_impl; [|exact Hi]. intros i. apply in_bounds_length. symmetry. exact L.
    + eapply Forall_impl; [|exact Hr]. intros i. apply in_bounds_length. symmetry. exact L.
    + intros p Lp. congruence.
Qed.

Lemma run_no_ub {St Op Out} (step : Op -> St -> res (Out * St)) ops :
  Forall (fun op => forall s, no_ub (step op s)) ops -> forall s, no_ub (run_ops step ops s).
Proof.
  intros H s. eapply post_no_ub. apply post_run with (I := fun _ => True); [|exact I].
  eapply Forall_impl; [|exact H]. intros op Hop s0 _. eapply post_weaken; [apply no_ub_post, Hop|auto].
Qed.

Section Impl.
  Context {cfg : Config} {K : Type} (O : Ordinal K) (HO : any_impl O).

  Section ArrayMaps.
    Context {V : Type} (S : nat).
    Notation amap := (@OrdinalArrayMap V S).

    Lemma back_good (r : map_out K V * list (option V)) : length (snd r) = S -> post (back S r) (fun _ => True).
    Proof. intros L. unfold back, arr_back. destruct (try_arr_good L) as (a & ->). exact I. Qed.
    Lemma aslot_get_mut (m : amap) k : post (OrdinalTotalArrayMap_get_mut O m k) (in_bounds (arr_list m)).
    Proof. apply post_bind with (1 := post_ordinal HO k). intros i _. apply post_index_slot. auto. Qed.
    Lemma aentry_good (m : amap) k : post (OrdinalArrayMap_entry O m k) (fun p => snd p = m /\
      match fst p with Occupied e => slot_some (arr_list m) (o_entry e) | Vacant e => in_bounds (arr_list m) (v_entry e) end).
    Proof.
      unfold OrdinalArrayMap_entry. apply post_bind with (1 := aslot_get_mut m k). intros i Hi.
      apply post_bind with (1 := entry_new_good k Hi). intros e He. cbn. auto.
    Qed.

    Lemma retain_loop_good {St} (f : St -> K -> V -> St * V * res bool) :
      (forall st k v, no_ub (snd (f st k v))) -> forall fuel storage it st,
      items_ok (in_bounds storage) it -> (ilen it < fuel)%nat ->
      let '(_, storage', r) := OrdinalArrayMap_retain_loop O f fuel storage it st in
      length storage' = length storage /\ no_ub r.
    Proof.
      intros Hf. induction fuel as [|fuel IH]; intros storage it st Hi Hn; [lia|]. cbn [OrdinalArrayMap_retain_loop].
      pose proof (enumerate_good HO Front Hi) as G. unfold TIterMut_step.
      destruct (enumerate_step O Front it) as [[[[k i]|] it']|w| | |]; cbn in G; try contradiction G; cbn; auto.
      destruct G as (H1 & _ & H3 & H4). pose proof (@post_deref _ storage i (fun _ => True) H3 (fun _ _ => I)) as D.
      destruct (deref storage i) as [[v|]| | | |] eqn:E; cbn in D; try contradiction D.
      2: { apply IH; [exact H1|lia]. }
      2: { exfalso. unfold deref in E. destruct (slice_get storage i); discriminate. }
      2: { exfalso. unfold deref in E. destruct (slice_get storage i); discriminate. }
      specialize (Hf st k v). destruct (f st k v) as [[st' v'] r]. cbn [snd] in Hf.
      destruct r as [[|]| | | |]; try contradiction Hf; cbn.
      - pose proof (IH (store_at storage i (Some v')) it' st') as G.
        destruct (OrdinalArrayMap_retain_loop _ _ _ _ _ _) as [[? ?] ?]. rewrite store_length in G. apply G; [|lia].
        eapply Forall_impl; [|exact H1]. intros j. apply in_bounds_length. symmetry. apply store_length.
      - pose proof (IH (store_at (store_at storage i (Some v')) i None) it' st') as G.
        destruct (OrdinalArrayMap_retain_loop _ _ _ _ _ _) as [[? ?] ?]. rewrite !store_length in G. apply G; [|lia].
        eapply Forall_impl; [|exact H1]. intros j. apply in_bounds_length. symmetry. now rewrite !store_length.
      - split; [apply store_length|exact I].
      - split; [apply store_length|exact I].
    Qed.

    Lemma array_retain_good {St} (f : St -> K -> V -> St * V * res bool) (m : amap) st :
      (forall st k v, no_ub (snd (f st k v))) ->
      let '(_, storage', r) := OrdinalArrayMap_retain O f m st in
      length storage' = S /\ no_ub r.
    Proof.
      intros Hf. pose proof (arr_length m) as L. unfold OrdinalArrayMap_retain.
      assert (B : items_ok (in_bounds (arr_list m)) (OrdinalTotalArrayMap_iter_mut m)) by apply in_bounds_slots.
      assert (F : (ilen (OrdinalTotalArrayMap_iter_mut m) < Datatypes.S (length (arr_list m)))%nat).
      { unfold ilen. cbn. unfold slots. rewrite map_length, seq_length. lia. }
      pose proof (@retain_loop_good St f Hf _ _ _ st B F) as G.
      destruct (OrdinalArrayMap_retain_loop _ _ _ _ _ _) as [[? ?] ?]. destruct G as [G1 G2]. split; [congruence|exact G2].
    Qed.

    Lemma array_step_good op (m : amap) : post (array_step O op m) (fun _ => True).
    Proof.
      pose proof (arr_length m) as L.
      assert (B : items_ok (in_bounds (arr_list m)) (OrdinalArrayMap_iter_mut m)) by apply in_bounds_slots.
      destruct op; cbn [array_step].
      - apply post_bind with (P := fun _ => True); [|intros [? ?]; cbn; auto]. unfold OrdinalArrayMap_insert.
        apply post_bind with (1 := aslot_get_mut m k). intros i Hi.
        apply post_bind with (P := fun _ => True); [apply post_deref; auto|]. cbn; auto.
      - apply post_bind with (P := fun _ => True); [|cbn; auto]. unfold OrdinalArrayMap_get, OrdinalTotalArrayMap_get.
        apply post_bind with (1 := post_ordinal HO k). intros i _. apply post_index. auto.
      - apply post_bind with (P := fun r => match r with Some i => slot_some (arr_list m) i | None => True end).
        + unfold OrdinalArrayMap_get_mut. apply post_bind with (1 := aslot_get_mut m k). intros i Hi.
          apply post_bind with (P := fun o => nth_error (arr_list m) (N.to_nat i) = Some o); [apply post_deref; auto|].
          intros [v0|] E; cbn; [exists v0; exact E|exact I].
        + intros [i|] Hi; [|exact I]. apply post_bind with (P := fun _ => True); [apply post_deref; [now apply slot_some_bounds|auto]|].
          intros o _. apply post_bind with (1 := post_write_some v Hi). intros l (Ll & _). apply back_good. cbn. congruence.
      - apply post_bind with (P := fun _ => True); [|cbn; auto]. unfold OrdinalArrayMap_contains_key, OrdinalArrayMap_get, OrdinalTotalArrayMap_get.
        apply post_bind with (P := fun _ => True); [|cbn; auto].
        apply post_bind with (1 := post_ordinal HO k). intros i _. apply post_index. auto.
      - apply post_bind with (P := fun _ => True); [|intros [? ?]; cbn; auto]. unfold OrdinalArrayMap_remove.
        apply post_bind with (1 := aslot_get_mut m k). intros i Hi.
        apply post_bind with (P := fun _ => True); [apply post_deref; auto|]. cbn; auto.
      - apply post_bind with (P := fun _ => True); [|cbn; auto]. apply (count_good HO). apply Nat.lt_succ_diag_r.
      - apply post_bind with (P := fun _ => True); [|cbn; auto]. unfold OrdinalArrayMap_is_empty.
        apply post_bind with (1 := iter_good HO Front (s := OrdinalArrayMap_iter m) I). intros [? ?]; cbn; auto.
      - apply post_bind with (P := fun _ => True); [|cbn; auto]. unfold OrdinalArrayMap_clear.
        apply post_bind with (P := fun p => length (fst p) = S).
        + apply drain_drop_good; [exact HO|]. split; [exact L|apply in_bounds_slots].
        + intros [l ?] Hl. cbn in Hl. unfold arr_back. destruct (try_arr_good Hl) as (a & ->). exact I.
      - assert (Hd : drain_ok S (OrdinalArrayMap_drain m)) by (split; [exact L|apply in_bounds_slots]).
        apply post_bind with (1 := post_drive (drain_good HO (len := S)) sched Hd). intros [got d] (_ & H). cbn [fst snd] in H.
        destruct leak; [apply back_good; apply H|].
        apply post_bind with (1 := drain_drop_good HO H). intros [l ?] Hl. apply back_good. exact Hl.
      - apply post_bind with (1 := post_drive (iter_good HO) sched (s := OrdinalArrayMap_iter m) I). intros [? ?]; cbn; auto.
      - apply post_bind with (1 := post_drive (keys_good HO) sched (s := OrdinalArrayMap_keys m) I). intros [? ?]; cbn; auto.
      - apply post_bind with (1 := post_drive (mvalues_good HO) sched (s := OrdinalArrayMap_values m) I). intros [? ?]; cbn; auto.
      - apply post_bind with (1 := post_drive (iter_mut_good HO (storage := arr_list m)) sched B). intros [got it] (H & _). cbn [fst] in H.
        apply post_bind with (1 := write_entries_good f H). intros [? ?] Hl. apply back_good. cbn in *. congruence.
      - apply post_bind with (1 := post_drive (values_mut_good HO (storage := arr_list m)) sched B). intros [got it] (H & _). cbn [fst] in H.
        apply post_bind with (1 := write_values_good f H). intros [? ?] Hl. apply back_good. cbn in *. congruence.
      - apply post_bind with (1 := aentry_good m k). intros [? ?]; cbn; auto.
      - apply post_bind with (1 := aentry_good m k). intros [e m1] (Em & He). cbn [fst snd] in *. subst m1.
        apply post_bind with (1 := entry_match_good v w He). intros r Hr. apply back_good. congruence.
      - apply post_bind with (1 := aentry_good m k). intros [e m1] (Em & He). cbn [fst snd] in *. subst m1.
        apply post_bind with (1 := entry_or_insert_good v w He). intros r Hr. apply back_good. congruence.
      - pose proof (@array_retain_good unit (pure_retain f) m tt) as G.
        destruct (OrdinalArrayMap_retain O (pure_retain f) m tt) as [[u st] r].
        destruct G as [G1 G2]; [intros st0 k v; unfold pure_retain; destruct (f k v); exact I|].
        apply post_bind with (1 := no_ub_post G2). intros _ _. apply back_good. exact G1.
      - exact I.
      - apply post_bind with (P := fun _ => True); [|cbn; auto]. unfold OrdinalArrayMap_debug.
        apply post_bind with (1 := post_collect (iter_good HO) Front (s := OrdinalArrayMap_iter m) I (Nat.lt_succ_diag_r _)).
        intros [? ?]; cbn; auto.
    Qed.
  End ArrayMaps.

  (** ** Total maps *)
  Section Total.
    Context {V : Type}.

    Lemma titer_mut_good {W} (st : list W) : good_step (TIterMut_step O) (items_ok (in_bounds st))
      (fun p => in_bounds st (snd p)) (@ilen N).
    Proof. exact (enumerate_good HO (R := in_bounds st)). Qed.
    Lemma titer_good : good_step (TIter_step O (V := V)) (fun _ => True) (fun _ => True) (@ilen V).
    Proof.
      intros d s _. eapply post_weaken.
      - apply (enumerate_good HO (R := fun _ => True)). apply Forall_forall. auto.
      - intros [o s1] (_ & H2 & H3). cbn [fst snd] in *. destruct o; [destruct H3|]; auto.
    Qed.

    Lemma hslot_get_mut (m : list V) k : post (OrdinalTotalMap_get_mut O m k) (in_bounds m).
    Proof. apply post_bind with (1 := post_ordinal HO k). intros i _. apply post_index_slot. auto. Qed.

    Lemma htotal_step_good op (m : @OrdinalTotalMap V) : post (htotal_step O op m) (fun _ => True).
    Proof.
      destruct op; cbn [htotal_step].
      - apply post_bind with (P := fun _ => True); [|cbn; auto].
        apply post_bind with (1 := post_ordinal HO k). intros i _. apply post_index. auto.
      - apply post_bind with (P := fun _ => True); [|cbn; auto].
        apply post_bind with (1 := post_ordinal HO k). intros i _. apply post_index. auto.
      - apply post_bind with (1 := hslot_get_mut m k). intros i Hi.
        apply post_bind with (P := fun _ => True); [apply post_deref; auto|]. cbn; auto.
      - apply post_bind with (1 := hslot_get_mut m k). intros i Hi.
        apply post_bind with (P := fun _ => True); [apply post_deref; auto|]. cbn; auto.
      - apply post_bind with (P := fun _ => True); [|intros [? ?]; cbn; auto]. unfold OrdinalTotalMap_insert.
        apply post_bind with (1 := post_ordinal HO k). intros i _.
        apply post_bind with (P := fun _ => True); [apply post_index; auto|]. cbn; auto.
      - apply post_bind with (1 := post_size HO). cbn; auto.
      - apply post_bind with (P := fun _ => True); [|cbn; auto]. unfold OrdinalTotalMap_is_empty.
        apply post_bind with (1 := post_size HO). cbn; auto.
      - apply post_bind with (1 := post_drive titer_good sched (s := OrdinalTotalMap_iter m) I). intros [? ?]; cbn; auto.
      - assert (B : items_ok (in_bounds m) (OrdinalTotalMap_iter_mut m)) by apply in_bounds_slots.
        apply post_bind with (1 := post_drive (titer_mut_good (st := m)) sched B). intros [got it] (H & _). cbn [fst] in H.
        apply post_bind with (1 := twrite_entries_good f H). intros [? ?]; cbn; auto.
      - apply post_bind with (1 := post_drive (slice_step_good (R := in_bounds m)) sched (in_bounds_slots m)).
        intros [got it] (H & _). cbn [fst] in H.
        apply post_bind with (1 := twrite_values_good f H). intros [? ?]; cbn; auto.
      - apply post_bind with (1 := post_values_new HO). intros it _.
        apply post_bind with (1 := post_drive (values_good HO) sched (s := it) I). intros [? ?]; cbn; auto.
      - assert (B : Forall (fun _ => True) (OrdinalTotalMap_values m)) by (apply Forall_forall; auto).
        apply post_bind with (1 := post_drive (slice_step_good (R := fun _ : V => True)) sched B). intros [? ?]; cbn; auto.
      - exact I.
      - apply post_bind with (P := fun _ => True); [|cbn; auto]. unfold OrdinalTotalMap_debug.
        apply post_bind with (1 := post_collect titer_good Front (s := OrdinalTotalMap_iter m) I (Nat.lt_succ_diag_r _)).
        intros [? ?]; cbn; auto.
    Qed.

    Context (S : nat).
    Lemma tback_good (r : total_out K V * list V) : length (snd r) = S -> post (tback S r) (fun _ => True).
    Proof. intros L. unfold tback. destruct (try_arr_good L) as (a & ->). exact I. Qed.
    Lemma atslot_get_mut (m : OrdinalTotalArrayMap S V) k : post (OrdinalTotalArrayMap_get_mut O m k) (in_bounds (arr_list m)).
    Proof. apply post_bind with (1 := post_ordinal HO k). intros i _. apply post_index_slot. auto. Qed.

    Lemma atotal_step_good op (m : OrdinalTotalArrayMap S V) : post (atotal_step O op m) (fun _ => True).
    Proof.
      pose proof (arr_length m) as L. destruct op; cbn [atotal_step].
      - apply post_bind with (P := fun _ => True); [|cbn; auto].
        apply post_bind with (1 := post_ordinal HO k). intros i _. apply post_index. auto.
      - apply post_bind with (P := fun _ => True); [|cbn; auto].
        apply post_bind with (1 := post_ordinal HO k). intros i _. apply post_index. auto.
      - apply post_bind with (1 := atslot_get_mut m k). intros i Hi.
        apply post_bind with (P := fun _ => True); [apply post_deref; auto|]. cbn; auto.
      - apply post_bind with (1 := atslot_get_mut m k). intros i Hi.
        apply post_bind with (P := fun _ => True); [apply post_deref; auto|]. cbn; auto.
      - apply post_bind with (P := fun _ => True); [|intros [? ?]; cbn; auto]. unfold OrdinalTotalArrayMap_insert.
        apply post_bind with (1 := post_ordinal HO k). intros i _.
        apply post_bind with (P := fun _ => True); [apply post_index; auto|]. cbn; auto.
      - exact I.
      - exact I.
      - apply post_bind with (1 := post_drive titer_good sched (s := OrdinalTotalArrayMap_iter m) I). intros [? ?]; cbn; auto.
      - assert (B : items_ok (in_bounds (arr_list m)) (OrdinalTotalArrayMap_iter_mut m)) by apply in_bounds_slots.
        apply post_bind with (1 := post_drive (titer_mut_good (st := arr_list m)) sched B). intros [got it] (H & _). cbn [fst] in H.
        apply post_bind with (1 := twrite_entries_good f H). intros [? ?] Hl. apply tback_good. cbn in *. congruence.
      - apply post_bind with (1 := post_drive (slice_step_good (R := in_bounds (arr_list m))) sched (in_bounds_slots (arr_list m))).
        intros [got it] (H & _). cbn [fst] in H.
        apply post_bind with (1 := twrite_values_good f H). intros [? ?] Hl. apply tback_good. cbn in *. congruence.
      - apply post_bind with (1 := post_values_new HO). intros it _.
        apply post_bind with (1 := post_drive (values_good HO) sched (s := it) I). intros [? ?]; cbn; auto.
      - assert (B : Forall (fun _ => True) (OrdinalTotalArrayMap_values m)) by (apply Forall_forall; auto).
        apply post_bind with (1 := post_drive (slice_step_good (R := fun _ : V => True)) sched B). intros [? ?]; cbn; auto.
      - exact I.
      - apply post_bind with (P := fun _ => True); [|cbn; auto]. unfold OrdinalTotalArrayMap_debug.
        apply post_bind with (1 := post_collect titer_good Front (s := OrdinalTotalArrayMap_iter m) I (Nat.lt_succ_diag_r _)).
        intros [? ?]; cbn; auto.
    Qed.
  End Total.

  (** ** Constructors *)
  Lemma values_next_good it : no_ub (values_next O it).
  Proof. eapply post_no_ub. exact (values_good HO Front (s := it) I). Qed.

  Lemma htry_new_loop_good {V E St} (init : St -> K -> St * res (result V E)) :
    (forall st k, no_ub (snd (init st k))) -> forall fuel map it st, (vlen it < fuel)%nat ->
    no_ub (snd (OrdinalTotalMap_try_new_loop O init fuel map it st)).
  Proof.
    intros Hi. induction fuel as [|fuel IH]; intros m it st Hf; [lia|]. cbn [OrdinalTotalMap_try_new_loop].
    pose proof (values_good HO Front (s := it) I) as G. cbn [values_step] in G.
    destruct (values_next O it) as [[[k|] it']|w| | |]; cbn in G; try contradiction G; try exact I.
    destruct G as (_ & _ & _ & G). specialize (Hi st k). destruct (init st k) as [st' r]. cbn [snd] in Hi.
    destruct r as [[v|e]|w| | |]; try contradiction Hi; try exact I. apply IH. lia.
  Qed.
  Lemma htry_new_good {V E St} (init : St -> K -> St * res (result V E)) st :
    (forall st k, no_ub (snd (init st k))) -> no_ub (snd (OrdinalTotalMap_try_new O init st)).
  Proof.
    intros Hi. unfold OrdinalTotalMap_try_new. pose proof (post_values_new HO) as G.
    destruct (values_new O); try contradiction G; try exact I. apply htry_new_loop_good; [exact Hi|apply Nat.lt_succ_diag_r].
  Qed.
  Lemma hnew_good {V St} (init : St -> K -> St * res V) st :
    (forall st k, no_ub (snd (init st k))) -> no_ub (snd (OrdinalTotalMap_new O init st)).
  Proof.
    intros Hi. unfold OrdinalTotalMap_new. pose proof (@htry_new_good _ _ _ (infallible_init init) st (infallible_good Hi)) as G.
    destruct (OrdinalTotalMap_try_new _ _ _) as [st' r]. cbn [snd] in *. destruct r; cbn in *; auto.
  Qed.
  Lemma post_assert S : post (ASSERT O S) (fun _ => True).
  Proof. apply post_bind with (1 := post_size HO). intros n _. destruct (_ =? _); exact I. Qed.
  Lemma atry_new_good {V E St} S (init : St -> K -> St * res (result V E)) st :
    (forall st k, no_ub (snd (init st k))) -> no_ub (returned (snd (OrdinalTotalArrayMap_try_new O S init st))).
  Proof.
    intros Hi. unfold OrdinalTotalArrayMap_try_new. pose proof (post_assert S) as A. pose proof (post_values_new HO) as G.
    destruct (ASSERT O S); try contradiction A; try exact I. destruct (values_new O); try contradiction G; try exact I.
    apply fill_new_good; [exact values_next_good|exact Hi].
  Qed.
  Lemma anew_good {V St} S (init : St -> K -> St * res V) st :
    (forall st k, no_ub (snd (init st k))) -> no_ub (returned (snd (OrdinalTotalArrayMap_new O S init st))).
  Proof.
    intros Hi. unfold OrdinalTotalArrayMap_new. pose proof (post_assert S) as A.
    pose proof (@atry_new_good _ _ _ S (infallible_init init) st (infallible_good Hi)) as G.
    destruct (ASSERT O S); try contradiction A; try exact I.
    destruct (OrdinalTotalArrayMap_try_new _ _ _ _) as [st' r]. cbn [snd returned] in *. destruct (returned r); cbn in *; auto.
  Qed.
  Lemma amap_good {V W St} S (f : St -> K -> V -> St * res W) (m : OrdinalTotalArrayMap S V) st :
    (forall st k v, no_ub (snd (f st k v))) -> no_ub (returned (snd (OrdinalTotalArrayMap_map O f m st))).
  Proof.
    intros Hf. apply array_from_iter_good.
    - intros it. eapply post_no_ub. exact (titer_good Front (s := it) I).
    - intros s [k v]. apply Hf.
  Qed.
  Lemma as_ref_good {V} S (m : OrdinalTotalArrayMap S V) : no_ub (OrdinalTotalArrayMap_as_ref O m).
  Proof.
    apply anew_good. intros st k. cbn [snd]. eapply post_no_ub.
    apply post_bind with (1 := post_ordinal HO k). intros i _. apply post_index_slot with (P := fun _ => True). auto.
  Qed.
  Lemma heap_from_iter_good {V} (l : list (K * V)) : no_ub (OrdinalMap_from_iter O l).
  Proof.
    unfold OrdinalMap_from_iter. generalize (@OrdinalMap_new V). induction l as [|[k v] l IH]; intros m; [exact I|].
    cbn [OrdinalMap_from_iter_loop]. pose proof (heap_step_good HO (OpInsert k v) m) as G. cbn [heap_step] in G.
    destruct (OrdinalMap_insert O m k v) as [[o m']| | | |]; try contradiction G; try exact I. apply IH.
  Qed.
  Lemma array_new_good {V} S : post (OrdinalArrayMap_new (V := V) O S) (fun _ => True).
  Proof. apply no_ub_post. apply anew_good. intros st k. exact I. Qed.
  Lemma array_from_iter_map_good {V} S (l : list (K * V)) : no_ub (OrdinalArrayMap_from_iter O S l).
  Proof.
    apply post_no_ub with (P := fun _ => True). unfold OrdinalArrayMap_from_iter. apply post_bind with (1 := array_new_good S). intros m _.
    revert m. induction l as [|[k v] l IH]; intros m; [exact I|].
    cbn [OrdinalArrayMap_from_iter_loop]. pose proof (array_step_good (OpInsert k v) m) as G. cbn [array_step] in G.
    destruct (OrdinalArrayMap_insert O m k v) as [[o m']| | | |]; try contradiction G; try exact I. cbn [bind]. apply IH.
  Qed.

  (** ** Sets *)
  Lemma post_shl a i : post (u64_shl a i) (fun _ => True).
  Proof. unfold u64_shl. destruct (_ <? _); [exact I|]. destruct overflow_checks; exact I. Qed.
  Lemma post_ass : post (ordinal_array_set_s O) (fun _ => True).
  Proof.
    apply post_bind with (1 := post_size HO). intros n _. unfold cdiv_ceil, cadd, usize_const.
    repeat match goal with |- context [if ?b then _ else _] => destruct b end; exact I.
  Qed.
  Lemma post_ref_new ws : post (OrdinalSetRef_new O ws) (fun r => r = ws).
  Proof. apply post_bind with (1 := post_ass). intros s _. apply post_bind with (1 := post_debug _). intros _ _. reflexivity. Qed.
  Lemma post_ref_contains r t : post (OrdinalSetRef_contains O r t) (fun _ => True).
  Proof.
    apply post_bind with (1 := post_ordinal HO t). intros i _.
    apply post_bind with (P := fun _ => True); [now apply post_udiv|]. intros q _.
    destruct (slice_get r q); [|exact I]. apply post_bind with (1 := post_ordinal HO t). intros j _.
    apply post_bind with (P := fun _ => True); [now apply post_urem|]. intros m _.
    apply post_bind with (1 := post_shl _ _). intros b _. exact I.
  Qed.

  Definition silen (s : SetIter) : nat := vlen (si_iter s).
  Lemma set_loop_good d set fuel : forall it, (vlen it < fuel)%nat ->
    post (set_loop O (values_step O d) set fuel it) (fun p =>
      (vlen (snd p) <= vlen it)%nat /\ match fst p with Some _ => (vlen (snd p) < vlen it)%nat | None => True end).
  Proof.
    induction fuel as [|fuel IH]; intros it Hf; [lia|]. cbn [set_loop].
    apply post_bind with (1 := values_good HO d (s := it) I). intros [o it'] (_ & H2 & H3). cbn [fst snd] in *.
    destruct o as [t|]; [|cbn; auto]. destruct H3 as [_ H3].
    apply post_bind with (1 := post_ref_contains set t). intros [|] _; [cbn; split; lia|].
    eapply post_weaken; [apply IH; lia|]. intros [o s2] (G1 & G2). cbn [fst snd] in *. split; [lia|]. destruct o; [lia|exact I].
  Qed.
  Lemma set_iter_good : good_step (SetIter_step O) (fun _ => True) (fun _ => True) silen.
  Proof.
    intros d s _. unfold SetIter_step.
    apply post_bind with (1 := @set_loop_good d (si_set s) _ (si_iter s) (Nat.lt_succ_diag_r _)).
    intros [o it] (H1 & H2). cbn in *. unfold silen. destruct o; cbn; auto.
  Qed.
  Lemma post_iter_new r : post (SetIter_new O r) (fun _ => True).
  Proof. apply post_bind with (1 := post_values_new HO). cbn; auto. Qed.
  Lemma post_ref_debug r : post (OrdinalSetRef_debug O r) (fun _ => True).
  Proof.
    apply post_bind with (1 := post_iter_new _). intros it _.
    apply post_bind with (1 := post_collect set_iter_good Front (s := it) I (Nat.lt_succ_diag_r _)). intros [? ?]; cbn; auto.
  Qed.
  Lemma set_iter_debug_good s : no_ub (SetIter_debug O s).
  Proof.
    apply post_no_ub with (P := fun _ => True).
    apply post_bind with (1 := post_collect set_iter_good Front (s := SetIter_clone s) I (Nat.lt_succ_diag_r _)).
    intros [? ?] _. exact I.
  Qed.
  Lemma post_mut_insert ws t : post (OrdinalSetMut_insert O ws t) (fun p => length (snd p) = length ws).
  Proof.
    apply post_bind with (1 := post_ref_new ws). intros r _.
    apply post_bind with (1 := post_ref_contains r t). intros prev _.
    apply post_bind with (1 := post_ordinal HO t). intros i _.
    apply post_bind with (P := fun _ => True); [now apply post_urem|]. intros m _.
    apply post_bind with (1 := post_shl _ _). intros b _.
    apply post_bind with (1 := post_ordinal HO t). intros j _.
    apply post_bind with (P := fun _ => True); [now apply post_udiv|]. intros q _.
    apply post_bind with (P := fun _ => True); [now apply post_index|]. intros w _. cbn. apply store_length.
  Qed.
  Lemma post_mut_new ws : post (OrdinalSetMut_new O ws) (fun r => r = ws).
  Proof. apply post_bind with (1 := post_ass). intros s _. apply post_bind with (1 := post_debug _). intros _ _. reflexivity. Qed.
  Lemma post_small : post (IS_SMALL O) (fun _ => True).
  Proof. apply post_bind with (1 := post_size HO). cbn; auto. Qed.
  Lemma post_set_insert s t : post (OrdinalSet_insert O s t) (fun _ => True).
  Proof.
    apply post_bind with (1 := post_small). intros [|] _; destruct s as [w|ws]; try exact I.
    - apply post_bind with (1 := post_mut_new _). intros ws ->.
      apply post_bind with (1 := post_mut_insert [w] t). intros [r ws'] L. cbn in L.
      destruct ws' as [|w' [|? ?]]; cbn in L; try discriminate L. exact I.
    - apply post_bind with (P := fun _ => True).
      + destruct (_ =? _); [|exact I]. apply post_bind with (1 := post_size HO). intros n _.
        apply post_bind with (P := fun _ => True); [now apply post_unwrap|]. intros a _.
        apply post_bind with (P := fun _ => True); [now apply post_usub|]. intros b _.
        apply post_bind with (P := fun _ => True); [now apply post_udiv|]. intros c _. exact I.
      + intros ws1 _. apply post_bind with (1 := post_mut_new _). intros ws2 _.
        apply post_bind with (1 := post_mut_insert ws2 t). intros [r ws'] _. exact I.
  Qed.
  Lemma post_set_new : post (OrdinalSet_new O) (fun _ => True).
  Proof. apply post_bind with (1 := post_small). cbn; auto. Qed.
  Lemma post_as_ref s : post (OrdinalSet_as_ref O s) (fun _ => True).
  Proof.
    apply post_bind with (1 := post_small). intros [|] _; destruct s as [w|ws]; try exact I;
      (eapply post_weaken; [apply post_ref_new|auto]).
  Qed.
  Lemma post_insert_all l : forall s, post (OrdinalSet_insert_all O l s) (fun _ => True).
  Proof.
    induction l as [|t l IH]; intros s; [exact I|]. cbn [OrdinalSet_insert_all].
    apply post_bind with (1 := post_set_insert s t). intros [b s'] _. apply IH.
  Qed.
  Lemma set_step_good op s : post (set_step O op s) (fun _ => True).
  Proof.
    destruct op; cbn [set_step].
    - apply post_bind with (1 := post_set_insert s t). intros [? ?]; cbn; auto.
    - apply post_bind with (P := fun _ => True); [|cbn; auto].
      apply post_bind with (1 := post_as_ref s). intros r _. apply post_ref_contains.
    - apply post_bind with (P := fun _ => True).
      + apply post_bind with (1 := post_as_ref s). intros r _. apply post_iter_new.
      + intros it _. apply post_bind with (1 := post_drive set_iter_good sched (s := it) I). intros [? ?]; cbn; auto.
    - apply post_bind with (P := fun _ => True); [|cbn; auto].
      apply post_bind with (1 := post_set_new). intros s0 _. apply post_insert_all.
    - exact I.
    - apply post_bind with (P := fun _ => True); [|cbn; auto].
      apply post_bind with (1 := post_as_ref s). intros r _. apply post_ref_debug.
  Qed.

  Section ArraySet.
    Context (S : nat).
    Lemma post_sassert : post (ArraySet_ASSERT O S) (fun _ => True).
    Proof. apply post_bind with (1 := post_ass). intros n _. destruct (_ =? _); exact I. Qed.
    Lemma post_as_array l : length l = S -> post (as_array S l) (fun _ => True).
    Proof. intros L. unfold as_array. destruct (try_arr_good L) as (a & ->). exact I. Qed.
    Lemma array_default_good : post (OrdinalArraySet_default S) (fun _ => True).
    Proof. apply post_as_array, repeat_length. Qed.
    Lemma post_array_new : post (OrdinalArraySet_new O S) (fun _ => True).
    Proof. apply post_bind with (1 := post_sassert). intros _ _. exact array_default_good. Qed.
    Lemma post_aas_ref (s : OrdinalArraySet S) : post (OrdinalArraySet_as_ref O s) (fun _ => True).
    Proof. apply post_bind with (1 := post_sassert). intros _ _. eapply post_weaken; [apply post_ref_new|auto]. Qed.
    Lemma post_array_insert (s : OrdinalArraySet S) t : post (OrdinalArraySet_insert O s t) (fun _ => True).
    Proof.
      apply post_bind with (1 := post_sassert). intros _ _. apply post_bind with (1 := post_mut_new _). intros ws ->.
      apply post_bind with (1 := post_mut_insert _ t). intros [r ws'] L. cbn in L. rewrite arr_length in L.
      apply post_bind with (1 := post_as_array L). intros a _. exact I.
    Qed.
    Lemma post_array_insert_all l : forall s : OrdinalArraySet S, post (OrdinalArraySet_insert_all O l s) (fun _ => True).
    Proof.
      induction l as [|t l IH]; intros s; [exact I|]. cbn [OrdinalArraySet_insert_all].
      apply post_bind with (1 := post_array_insert s t). intros [b s'] _. apply IH.
    Qed.
    Lemma array_set_step_good op (s : OrdinalArraySet S) : post (array_set_step O op s) (fun _ => True).
    Proof.
      destruct op; cbn [array_set_step].
      - apply post_bind with (1 := post_array_insert s t). intros [? ?]; cbn; auto.
      - apply post_bind with (P := fun _ => True); [|cbn; auto].
        apply post_bind with (1 := post_aas_ref s). intros r _. apply post_ref_contains.
      - exact I.
      - apply post_bind with (P := fun _ => True); [|cbn; auto].
        apply post_bind with (1 := post_array_new). intros s0 _. apply post_array_insert_all.
      - exact I.
      - apply post_bind with (P := fun _ => True); [|cbn; auto].
        apply post_bind with (1 := post_aas_ref s). intros r _. apply post_ref_debug.
    Qed.
  End ArraySet.

  Definition is_u64 (w : N) : Prop := forall k, N.testbit w k = true -> k < 64.
  Lemma is_u64_lt w : w < 18446744073709551616 -> is_u64 w.
  Proof.
    intros H k Hk. destruct (N.lt_ge_cases k 64) as [L|L]; [exact L|]. exfalso.
    assert (E : N.testbit w k = false); [|congruence].
    destruct (N.eq_dec w 0) as [->|Hz]; [apply N.bits_0|]. apply N.bits_above_log2.
    apply N.lt_le_trans with 64; [|exact L]. apply N.log2_lt_pow2; [lia|exact H].
  Qed.
  Definition blen (w : N) : nat := length (bits w).
  Lemma iter64_good : good_step (Iter64_step O) is_u64 (fun _ => True) blen.
  Proof.
    intros d w Hw. unfold blen. destruct d; cbn [Iter64_step].
    - unfold Iter64_next. pose proof (trailing_zeros_bits Hw) as Ht. cbv zeta.
      destruct (trailing_zeros w =? 64); [cbn [post fst snd]; auto|]. destruct Ht as [Hi Ht].
      rewrite shl_one by exact Hi. cbn [bind].
      apply post_bind with (1 := post_from HO _). intros o _. apply post_bind with (P := fun _ => True); [now apply post_unwrap|].
      intros t _. cbn [post fst snd]. apply (f_equal (@length N)) in Ht. cbn [length] in Ht. rewrite Ht. split; [|split; [|split; [exact I|]]]; try lia.
      intros k Hk. rewrite N.land_spec in Hk. apply Bool.andb_true_iff in Hk. apply Hw, Hk.
    - unfold Iter64_next_back. pose proof (leading_zeros_bits Hw) as Ht.
      destruct (checked_sub (64 - 1) (leading_zeros w)) as [i|]; [|cbn [post fst snd]; auto]. destruct Ht as [Hi Ht].
      rewrite shl_one by exact Hi. cbn [bind].
      apply post_bind with (1 := post_from HO _). intros o _. apply post_bind with (P := fun _ => True); [now apply post_unwrap|].
      intros t _. cbn [post fst snd]. apply (f_equal (@length N)) in Ht. rewrite app_length in Ht. cbn [length] in Ht. rewrite Ht. split; [|split; [|split; [exact I|]]]; try lia.
      intros k Hk. rewrite N.land_spec in Hk. apply Bool.andb_true_iff in Hk. apply Hw, Hk.
  Qed.
  (** Without a bound on the word: one call is always fine. *)
  Lemma iter64_step_any d w : post (Iter64_step O d w) (fun _ => True).
  Proof.
    destruct d; cbn [Iter64_step].
    - unfold Iter64_next. cbv zeta. destruct (_ =? _); [exact I|]. apply post_bind with (1 := post_shl _ _). intros b _.
      apply post_bind with (1 := post_from HO _). intros o _. apply post_bind with (P := fun _ => True); [now apply post_unwrap|].
      intros t _. exact I.
    - unfold Iter64_next_back. destruct (checked_sub _ _); [|exact I]. apply post_bind with (1 := post_shl _ _). intros b _.
      apply post_bind with (1 := post_from HO _). intros o _. apply post_bind with (P := fun _ => True); [now apply post_unwrap|].
      intros t _. exact I.
  Qed.
  Lemma iter64_debug_good w : w < 18446744073709551616 -> no_ub (Iter64_debug O w).
  Proof.
    intros Hw. eapply post_no_ub.
    assert (L : (blen (Iter64_clone w) < 65)%nat) by (unfold blen, Iter64_clone; pose proof (bits_bound w); lia).
    apply post_bind with (1 := post_collect iter64_good Front (is_u64_lt Hw) L).
    intros [? ?] _. exact I.
  Qed.
  Lemma post_64assert : post (Set64_ASSERT O) (fun _ => True).
  Proof. apply post_bind with (1 := post_size HO). intros n _. destruct (_ <=? _); exact I. Qed.
  Lemma post_64contains s t : post (OrdinalSet64_contains O s t) (fun _ => True).
  Proof.
    apply post_bind with (1 := post_64assert). intros _ _. apply post_bind with (1 := post_ordinal HO t). intros i _.
    apply post_bind with (1 := post_shl _ _). cbn; auto.
  Qed.
  Lemma set64_step_good op s : post (set64_step O op s) (fun _ => True).
  Proof.
    destruct op; cbn [set64_step].
    - apply post_bind with (P := fun _ => True); [|intros [? ?]; cbn; auto].
      apply post_bind with (1 := post_64assert). intros _ _. apply post_bind with (1 := post_64contains s t). intros c _.
      apply post_bind with (1 := post_ordinal HO t). intros i _. apply post_bind with (1 := post_shl _ _). cbn; auto.
    - apply post_bind with (1 := post_64contains s t). cbn; auto.
    - apply post_bind with (P := fun _ => True).
      + apply post_bind with (1 := post_64assert). cbn; auto.
      + intros it _. apply post_bind with (P := fun _ => True); [|intros [? ?]; cbn; auto].
        revert it. induction sched as [|d ds IH]; intros it; [exact I|]. cbn [drive].
        apply post_bind with (1 := iter64_step_any d it). intros [o it'] _.
        apply post_bind with (1 := IH it'). intros [os it''] _. exact I.
    - apply post_bind with (P := fun _ => True); [|cbn; auto].
      apply post_bind with (P := fun _ => True).
      { apply post_bind with (1 := post_64assert). cbn; auto. }
      intros s0 _. revert s0. induction l as [|t l IH]; intros s0; [exact I|]. cbn [OrdinalSet64_or_all].
      apply post_bind with (1 := post_ordinal HO t). intros i _. apply post_bind with (1 := post_shl _ _). intros b _. apply IH.
    - exact I.
    - apply post_bind with (P := fun _ => True); [|cbn; auto].
      apply post_bind with (1 := post_ref_new _). intros r _. apply post_ref_debug.
  Qed.
  Lemma set64_all_good : no_ub (OrdinalSet64_all O).
  Proof.
    apply post_no_ub with (P := fun _ => True). apply post_bind with (1 := post_64assert). intros _ _. apply post_bind with (1 := post_size HO). intros n _.
    apply post_bind with (1 := post_shl _ _). intros b _. unfold u64_sub.
    destruct (_ <=? _); [exact I|]. destruct overflow_checks; exact I.
  Qed.
End Impl.
