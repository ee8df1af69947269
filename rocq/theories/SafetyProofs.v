(** * SafetyProofs: the maps and sets never run into undefined behaviour and always finish,
    for arbitrary Ordinal impls (C64). *)
From Verif Require Import Base Spec SpecMap SpecTotal SpecSet SpecSafety ModelOrdinal ModelValues ModelArrayBuilder
  ModelIter ModelTotal ModelMap ModelSet MapMachine TotalMachine SetMachine BaseProofs ArrayProofs IterLib BitProofs.
From Coq Require Import List Lia. Import ListNotations.
Unset Strict Implicit.

Definition post {A} (r : res A) (P : A -> Prop) : Prop :=
  match r with Val a => P a | UB | OutOfFuel => False | _ => True end.

Lemma post_no_ub {A} (r : res A) P : post r P -> no_ub r.
Proof. destruct r; cbn; auto. Qed.
Lemma no_ub_post {A} (r : res A) : no_ub r -> post r (fun _ => True).
Proof. destruct r; cbn; auto. Qed.
Lemma post_bind {A B} (e : res A) (k : A -> res B) P Q :
  post e P -> (forall a, P a -> post (k a) Q) -> post (bind e k) Q.
Proof. destruct e; cbn; auto. Qed.
Lemma post_weaken {A} (r : res A) (P Q : A -> Prop) : post r P -> (forall a, P a -> Q a) -> post r Q.
Proof. destruct r; cbn; auto. Qed.
Lemma post_val {A} (a : A) (P : A -> Prop) : P a -> post (Val a) P.
Proof. auto. Qed.
Lemma post_unwrap {A} (o : option A) (P : A -> Prop) : (forall a, o = Some a -> P a) -> post (unwrap o) P.
Proof. destruct o; cbn; auto. Qed.
Lemma post_index {A} (l : list A) i (P : A -> Prop) : (forall a, nth_error l (N.to_nat i) = Some a -> P a) -> post (index l i) P.
Proof. unfold index. intros H. destruct (nth_error l (N.to_nat i)); cbn; auto. Qed.
Lemma post_index_slot {A} (l : list A) i (P : N -> Prop) : ((N.to_nat i < length l)%nat -> P i) -> post (index_slot l i) P.
Proof.
  intros H. unfold index_slot. apply post_bind with (P := fun _ => (N.to_nat i < length l)%nat).
  - apply post_index. intros a E. apply nth_error_Some. congruence.
  - intros _ L. apply H, L.
Qed.
Lemma post_uadd {cfg : Config} a b (P : N -> Prop) : (forall c, P c) -> post (uadd a b) P.
Proof. intros H. unfold uadd, usize_rt. destruct (_ && _)%bool; cbn; auto. destruct overflow_checks; cbn; auto. Qed.
Lemma post_usub {cfg : Config} a b (P : N -> Prop) : (forall c, P c) -> post (usub a b) P.
Proof. intros H. unfold usub, usize_rt. destruct (_ && _)%bool; cbn; auto. destruct overflow_checks; cbn; auto. Qed.
Lemma post_udiv a b (P : N -> Prop) : (forall c, P c) -> post (udiv a b) P.
Proof. intros H. unfold udiv. destruct (_ =? _); cbn; auto. Qed.
Lemma post_urem a b (P : N -> Prop) : (forall c, P c) -> post (urem a b) P.
Proof. intros H. unfold urem. destruct (_ =? _); cbn; auto. Qed.
Lemma post_debug {cfg : Config} b : post (debug_assert b) (fun _ => True).
Proof. unfold debug_assert. destruct debug_assertions, b; cbn; auto. Qed.

Lemma list_set_length {A} (l : list A) i a : length (list_set l i a) = length l.
Proof. revert i. induction l as [|x l IH]; intros [|i]; cbn; auto. Qed.
Lemma store_length {A} (l : list A) i a : length (store_at l i a) = length l.
Proof. apply list_set_length. Qed.
Lemma list_set_nth {A} (l : list A) i j a : nth_error (list_set l i a) j =
  if Nat.eqb i j then match nth_error l j with Some _ => Some a | None => None end else nth_error l j.
Proof.
  revert i j. induction l as [|x l IH]; intros [|i] [|j]; cbn; auto.
  destruct (Nat.eqb i j); reflexivity.
Qed.

Definition in_bounds {A} (storage : list A) (i : N) : Prop := (N.to_nat i < length storage)%nat.

Lemma post_deref {A} (l : list A) i (P : A -> Prop) : in_bounds l i ->
  (forall a, nth_error l (N.to_nat i) = Some a -> P a) -> post (deref l i) P.
Proof.
  intros L H. unfold deref, slice_get. destruct (nth_error l (N.to_nat i)) eqn:E; cbn; [auto|].
  apply nth_error_None in E. unfold in_bounds in L. lia.
Qed.
Lemma in_bounds_slots {A} (l : list A) : Forall (in_bounds l) (slots (length l)).
Proof. apply Forall_forall. intros i Hi. apply slots_In in Hi. unfold in_bounds. lia. Qed.
Lemma in_bounds_length {A B} (l : list A) (l' : list B) i : length l = length l' -> in_bounds l i -> in_bounds l' i.
Proof. unfold in_bounds. lia. Qed.

(** ** Iterators in general *)
Section Generic.
  Context {St A : Type} (step : dir -> St -> res (option A * St)) (I : St -> Prop) (Q : A -> Prop) (m : St -> nat).
  Definition good_step : Prop := forall d s, I s -> post (step d s) (fun p =>
    I (snd p) /\ (m (snd p) <= m s)%nat /\ match fst p with Some a => Q a /\ (m (snd p) < m s)%nat | None => True end).
  Hypothesis H : good_step.

  Lemma post_drive sched : forall s, I s -> post (drive step sched s)
    (fun p => Forall (fun o => match o with Some a => Q a | None => True end) (fst p) /\ I (snd p)).
  Proof.
    induction sched as [|d ds IH]; intros s Hs; cbn [drive]; [split; [constructor|exact Hs]|].
    apply post_bind with (1 := H d Hs). intros [o s1] (H1 & _ & H2). cbn [fst snd] in *.
    apply post_bind with (1 := IH s1 H1). intros [os s2] (H3 & H4). cbn [fst snd] in *.
    split; [constructor; [|exact H3]|exact H4]. destruct o; [apply H2|exact Logic.I].
  Qed.

  Lemma post_collect d fuel : forall s, I s -> (m s < fuel)%nat ->
    post (collect (step d) fuel s) (fun p => Forall Q (fst p) /\ I (snd p)).
  Proof.
    induction fuel as [|fuel IH]; intros s Hs Hf; [lia|]. cbn [collect].
    apply post_bind with (1 := H d Hs). intros [o s1] (H1 & H2 & H3). cbn [fst snd] in *.
    destruct o as [a|]; [|split; [constructor|exact H1]]. destruct H3 as [H3 H4].
    apply post_bind with (1 := IH s1 H1 ltac:(lia)). intros [l s2] (H5 & H6). cbn [fst snd] in *.
    split; [constructor; assumption|exact H6].
  Qed.
End Generic.

(** ** Sequences of operations, each with its own impl *)
Lemma post_run {St Op Out} (step : Op -> St -> res (Out * St)) (I : St -> Prop) ops :
  Forall (fun op => forall s, I s -> post (step op s) (fun p => I (snd p))) ops ->
  forall s, I s -> post (run_ops step ops s) (fun p => I (snd p)).
Proof.
  induction 1 as [|op ops Hop Hops IH]; intros s Hs; cbn [run_ops]; [exact Hs|].
  apply post_bind with (1 := Hop s Hs). intros [o s1] H1. cbn [snd] in H1.
  apply post_bind with (1 := IH s1 H1). intros [os s2] H2. exact H2.
Qed.

Section Impl.
  Context {cfg : Config} {K : Type} (O : Ordinal K) (HO : any_impl O).

  Lemma post_size : post (ORDINAL_SIZE O) (fun _ => True).
  Proof. apply no_ub_post, HO. Qed.
  Lemma post_ordinal k : post (ordinal O k) (fun _ => True).
  Proof. apply no_ub_post, HO. Qed.
  Lemma post_from i : post (from_ordinal O i) (fun _ => True).
  Proof. apply no_ub_post, HO. Qed.

  (** ** OrdinalValues *)
  Definition vlen (s : OrdinalValues) : nat := N.to_nat (range_len s).
  Lemma values_good : good_step (values_step O) (fun _ => True) (fun _ => True) vlen.
  Proof.
    intros d s _. destruct d; cbn [values_step].
    - unfold values_next, range_next. destruct (N.ltb_spec (r_start s) (r_end s)); [|cbn; auto].
      apply post_bind with (1 := post_from _). intros r _. apply post_bind with (P := fun _ => True); [now apply post_unwrap|].
      intros t _. cbn. unfold vlen, range_len. cbn [r_start r_end]. repeat split; lia.
    - unfold values_next_back, range_next_back. destruct (N.ltb_spec (r_start s) (r_end s)); [|cbn; auto].
      apply post_bind with (1 := post_from _). intros r _. apply post_bind with (P := fun _ => True); [now apply post_unwrap|].
      intros t _. cbn. unfold vlen, range_len. cbn [r_start r_end]. repeat split; lia.
  Qed.
  Lemma post_values_new : post (values_new O) (fun _ => True).
  Proof. unfold values_new. apply post_bind with (1 := post_size). cbn. auto. Qed.

  Lemma values_debug_safe show s : no_ub (values_debug O show s).
  Proof.
    apply post_no_ub with (P := fun _ => True). unfold values_debug. apply post_bind with (1 := post_size). intros n _. cbv zeta.
    apply post_bind with (1 := values_good Front (s := values_clone s) Logic.I). intros [o s1] _.
    destruct o; [|exact Logic.I]. destruct (_ =? _); [exact Logic.I|].
    apply post_bind with (1 := values_good Back (s := s1) Logic.I). intros [o s2] _. destruct o; exact Logic.I.
  Qed.
  Lemma values_last_safe s : no_ub (values_last O s).
  Proof.
    apply post_no_ub with (P := fun _ => True). unfold values_last.
    apply post_bind with (1 := values_good Back (s := s) Logic.I). intros [o s2] _. exact Logic.I.
  Qed.

  (** ** OrdinalEnumerate *)
  Section Enum.
    Context {A : Type} (R : A -> Prop).
    Definition items_ok (s : enumerate A) : Prop := Forall R (e_items s).
    Definition ilen (s : enumerate A) : nat := length (e_items s).

    Lemma enumerate_good : good_step (enumerate_step O) items_ok (fun p => R (snd p)) ilen.
    Proof.
      intros d s Hs. unfold items_ok, ilen in *. destruct d; cbn [enumerate_step].
      - unfold enumerate_next. destruct (e_items s) as [|a l] eqn:E; cbn [pop_front].
        + cbn. rewrite E. auto.
        + inversion Hs as [|? ? H1 H2]; subst.
          apply post_bind with (1 := post_from _). intros r _. apply post_bind with (P := fun _ => True); [now apply post_unwrap|].
          intros k _. apply post_bind with (P := fun _ => True); [now apply post_uadd|]. intros c _. cbn.
          repeat split; auto; lia.
      - unfold enumerate_next_back. destruct (e_items s) as [|a l] eqn:E using rev_ind.
        + cbn. rewrite E. auto.
        + clear IHl. rewrite pop_back_rev. apply Forall_app in Hs as [H1 H2]. inversion H2; subst.
          apply post_bind with (P := fun _ => True); [now apply post_uadd|]. intros i _.
          apply post_bind with (1 := post_from _). intros r _. apply post_bind with (P := fun _ => True); [now apply post_unwrap|].
          intros k _. cbn. rewrite app_length. cbn. repeat split; auto; lia.
    Qed.

    Context {B : Type} (P : B -> Prop) (sel : A -> res (option B)).
    Hypothesis Hsel : forall a, R a -> post (sel a) (fun o => match o with Some b => P b | None => True end).
    Lemma sparse_loop_good d fuel : forall s, items_ok s -> (ilen s < fuel)%nat ->
      post (sparse_loop (enumerate_step O d) sel fuel s) (fun p =>
        items_ok (snd p) /\ (ilen (snd p) <= ilen s)%nat /\
        match fst p with Some kb => P (snd kb) /\ (ilen (snd p) < ilen s)%nat | None => True end).
    Proof.
      induction fuel as [|fuel IH]; intros s Hs Hf; [lia|]. cbn [sparse_loop].
      apply post_bind with (1 := enumerate_good d Hs). intros [o s1] (H1 & H2 & H3). cbn [fst snd] in *.
      destruct o as [[k a]|]; [|cbn; auto]. destruct H3 as [H3 H4]. cbn [snd] in H3.
      apply post_bind with (1 := Hsel H3). intros [b|] Hb; [cbn; auto|].
      eapply post_weaken; [apply IH; [exact H1|lia]|]. intros [o s2] (G1 & G2 & G3). cbn [fst snd] in *.
      split; [exact G1|]. split; [lia|]. destruct o; [|exact Logic.I]. destruct G3. split; [assumption|lia].
    Qed.
  End Enum.

  Section Maps.
    Context {V : Type}.

    Lemma iter_good : good_step (Iter_step O (V := V)) (fun _ => True) (fun _ => True) (@ilen (option V)).
    Proof.
      intros d s _. unfold Iter_step. eapply post_weaken.
      - apply sparse_loop_good with (R := fun _ => True) (P := fun _ => True).
        + intros [v|] _; exact Logic.I.
        + apply Forall_forall. auto.
        + unfold ilen. lia.
      - intros [o s1] (H1 & H2 & H3). cbn [fst snd] in *. auto.
    Qed.
    Lemma keys_good : good_step (Keys_step O (V := V)) (fun _ => True) (fun _ => True) (@ilen (option V)).
    Proof.
      intros d s _. unfold Keys_step. apply post_bind with (1 := iter_good d (s := s) Logic.I).
      intros [o s1] (_ & H2 & H3). cbn in *. destruct o; cbn; auto.
    Qed.
    Lemma mvalues_good : good_step (Values_step O (V := V)) (fun _ => True) (fun _ => True) (@ilen (option V)).
    Proof.
      intros d s _. unfold Values_step. apply post_bind with (1 := iter_good d (s := s) Logic.I).
      intros [o s1] (_ & H2 & H3). cbn in *. destruct o; cbn; auto.
    Qed.
    Lemma into_iter_good : good_step (IntoIter_step O (V := V)) (fun _ => True) (fun _ => True) (@ilen (option V)).
    Proof. exact iter_good. Qed.

    Lemma count_good fuel : forall (s : @Iter V) c, (ilen s < fuel)%nat -> post (Iter_count_loop O fuel s c) (fun _ => True).
    Proof.
      induction fuel as [|fuel IH]; intros s c Hf; [lia|]. cbn [Iter_count_loop].
      apply post_bind with (1 := iter_good Front (s := s) Logic.I). intros [o s1] (_ & H2 & H3). cbn [fst snd] in *.
      destruct o; [|exact Logic.I]. apply post_bind with (P := fun _ => True); [now apply post_uadd|].
      intros c' _. apply IH. lia.
    Qed.

    (** Slots of a storage whose values are all present. *)
    Definition slot_some (storage : list (option V)) (i : N) : Prop :=
      exists v, nth_error storage (N.to_nat i) = Some (Some v).
    Lemma slot_some_bounds st i : slot_some st i -> in_bounds st i.
    Proof. intros (v & E). apply nth_error_Some. congruence. Qed.

    Lemma iter_mut_good storage : good_step (IterMut_step O storage) (items_ok (in_bounds storage))
      (fun p => slot_some storage (snd p)) (@ilen N).
    Proof.
      intros d s Hs. unfold IterMut_step. eapply post_weaken.
      - apply sparse_loop_good with (R := in_bounds storage) (P := slot_some storage).
        + intros i Hi. apply post_bind with (P := fun o => nth_error storage (N.to_nat i) = Some o).
          { apply post_deref; auto. }
          intros [v|] E; cbn; [exists v; exact E|exact Logic.I].
        + exact Hs.
        + unfold ilen. lia.
      - intros [o s1] (H1 & H2 & H3). cbn [fst snd] in *. auto.
    Qed.
    Lemma values_mut_good storage : good_step (ValuesMut_step O storage) (items_ok (in_bounds storage))
      (slot_some storage) (@ilen N).
    Proof.
      intros d s Hs. unfold ValuesMut_step. apply post_bind with (1 := iter_mut_good (storage := storage) d Hs).
      intros [o s1] (H1 & H2 & H3). cbn in *. destruct o as [[k i]|]; cbn in *; auto.
    Qed.

    Lemma post_write_some st i v : slot_some st i ->
      post (write_some st i v) (fun st' => length st' = length st /\ forall j, slot_some st j -> slot_some st' j).
    Proof.
      intros Hi. unfold write_some. apply post_bind with (P := fun o => nth_error st (N.to_nat i) = Some o).
      { apply post_deref; [apply slot_some_bounds, Hi|auto]. }
      destruct Hi as (w & E). intros [x|] Ex; [|congruence]. cbn. split; [apply store_length|].
      intros j (u & Ej). unfold slot_some, store_at. rewrite list_set_nth, Ej. destruct (Nat.eqb _ _); eauto.
    Qed.

    Lemma write_entries_good (f : K -> V -> V) got : forall st,
      Forall (fun o => match o with Some p => slot_some st (snd p) | None => True end) got ->
      post (write_entries f got st) (fun p => length (snd p) = length st).
    Proof.
      induction got as [|[[k i]|] got IH]; intros st Hg; cbn [write_entries]; [reflexivity| |]; inversion Hg as [|? ? H1 H2]; subst.
      - cbn [snd] in H1. apply post_bind with (P := fun o => nth_error st (N.to_nat i) = Some o).
        { apply post_deref; [apply slot_some_bounds, H1|auto]. }
        pose proof H1 as (w & E). intros [old|] Eo; [|congruence].
        apply post_bind with (1 := post_write_some (f k old) H1). intros st1 (L & Hk).
        apply post_bind with (P := fun p => length (snd p) = length st1).
        { apply IH. eapply Forall_impl; [|exact H2]. intros [[k' j]|]; cbn; auto. }
        intros [l st2] L2. cbn in *. congruence.
      - apply post_bind with (1 := IH st H2). intros [l st2] L2. exact L2.
    Qed.
    Lemma write_values_good (f : V -> V) got : forall st,
      Forall (fun o => match o with Some i => slot_some st i | None => True end) got ->
      post (write_values f got st) (fun p => length (snd p) = length st).
    Proof.
      induction got as [|[i|] got IH]; intros st Hg; cbn [write_values]; [reflexivity| |]; inversion Hg as [|? ? H1 H2]; subst.
      - apply post_bind with (P := fun o => nth_error st (N.to_nat i) = Some o).
        { apply post_deref; [apply slot_some_bounds, H1|auto]. }
        pose proof H1 as (w & E). intros [old|] Eo; [|congruence].
        apply post_bind with (1 := post_write_some (f old) H1). intros st1 (L & Hk).
        apply post_bind with (P := fun p => length (snd p) = length st1).
        { apply IH. eapply Forall_impl; [|exact H2]. intros [j|]; cbn; auto. }
        intros [l st2] L2. cbn in *. congruence.
      - apply post_bind with (1 := IH st H2). intros [l st2] L2. exact L2.
    Qed.

    (** Writes interleaved with the iteration. *)
    Lemma mut_run_good {R : Type} (step : list (option V) -> dir -> enumerate N -> res (option R * enumerate N)) (slot : R -> N) :
      (forall st, good_step (step st) (items_ok (in_bounds st)) (fun r => slot_some st (slot r)) (@ilen N)) ->
      forall evs st it refs, items_ok (in_bounds st) it -> Forall (slot_some st) refs ->
      post (mut_run step slot write_some evs st it refs) (fun p => length (snd p) = length st).
    Proof.
      intros Hg. induction evs as [|[d|j v] evs IH]; intros st it refs Hi Hr; cbn [mut_run]; [reflexivity| |].
      - apply post_bind with (1 := Hg st d it Hi). intros [o it'] (H1 & _ & H3). cbn [fst snd] in *.
        apply post_bind with (P := fun p => length (snd p) = length st).
        { apply IH; [exact H1|]. apply Forall_app. split; [exact Hr|].
          destruct o as [r|]; cbn; [constructor; [apply H3|constructor]|constructor]. }
        intros [os st'] L. exact L.
      - apply post_bind with (P := fun st' => length st' = length st /\ forall j, slot_some st j -> slot_some st' j).
        { destruct (nth_error refs j) as [i|] eqn:E; [|cbn; auto].
          apply post_write_some. rewrite Forall_forall in Hr. apply Hr. eapply nth_error_In; exact E. }
        intros st' (L & Hk). eapply post_weaken; [apply IH|].
        + eapply Forall_impl; [|exact Hi]. intros i. apply in_bounds_length. symmetry. exact L.
        + eapply Forall_impl; [|exact Hr]. intros i. apply Hk.
        + intros p Lp. congruence.
    Qed.

    (** ** Drain *)
    Definition drain_ok (len : nat) (s : @Drain V) : Prop := length (fst s) = len /\ items_ok (in_bounds (fst s)) (snd s).
    Lemma drain_loop_good len d fuel : forall s, drain_ok len s -> (ilen (snd s) < fuel)%nat ->
      post (Drain_loop O d fuel s) (fun p =>
        drain_ok len (snd p) /\ (ilen (snd (snd p)) <= ilen (snd s))%nat /\
        match fst p with Some _ => True /\ (ilen (snd (snd p)) < ilen (snd s))%nat | None => True end).
    Proof.
      induction fuel as [|fuel IH]; intros [st it] (L & Hi) Hf; cbn [fst snd] in *; [lia|]. cbn [Drain_loop].
      apply post_bind with (1 := enumerate_good d Hi). intros [o it'] (H1 & H2 & H3). cbn [fst snd] in *.
      destruct o as [[k i]|]; [|cbn; repeat split; auto]. destruct H3 as [H3 H4]. cbn [snd] in H3.
      apply post_bind with (P := fun _ => True). { apply post_deref; auto. }
      assert (G : drain_ok len (store_at st i None, it')).
      { split; cbn [fst snd]; [now rewrite store_length|]. eapply Forall_impl; [|exact H1].
        intros j. apply in_bounds_length. symmetry. apply store_length. }
      intros [v|] _; [cbn; auto|].
      eapply post_weaken; [apply IH; [exact G|cbn [snd]; lia]|]. intros [o s2] (G1 & G2 & G3). cbn [fst snd] in *.
      split; [exact G1|]. split; [lia|]. destruct o; [|exact Logic.I]. destruct G3. split; [assumption|lia].
    Qed.
    Lemma drain_good len : good_step (Drain_step O) (drain_ok len) (fun _ => True) (fun s : @Drain V => ilen (snd s)).
    Proof. intros d s Hs. unfold Drain_step. apply drain_loop_good; [exact Hs|]. unfold ilen. lia. Qed.
    Lemma drain_drop_good len s : drain_ok len s -> post (Drain_drop O s) (fun p => length (fst p) = len).
    Proof.
      intros Hs. unfold Drain_drop.
      apply post_bind with (1 := post_collect (drain_good (len := len)) Front Hs (Nat.lt_succ_diag_r _)).
      intros [l s'] (_ & H). cbn in *. apply H.
    Qed.

    (** ** Entries *)
    Lemma entry_match_good st (e : Entry K) (v w : V) :
      match e with Occupied e => slot_some st (o_entry e) | Vacant e => in_bounds st (v_entry e) end ->
      post (entry_match st e v w) (fun p => length (snd p) = length st).
    Proof.
      destruct e as [e|e]; intros He; cbn [entry_match].
      - pose proof (slot_some_bounds He) as Hb. unfold OccupiedEntry_get, OccupiedEntry_get_mut.
        apply post_bind with (P := fun _ => True).
        { apply post_bind with (P := fun _ => True); [apply post_deref; auto|]. intros o _. now apply post_unwrap. }
        intros old _. apply post_bind with (P := fun i => i = o_entry e).
        { apply post_bind with (P := fun _ => True); [apply post_deref; auto|]. intros o _.
          apply post_bind with (P := fun _ => True); [now apply post_unwrap|]. intros _ _. reflexivity. }
        intros i ->. apply post_bind with (1 := post_write_some w He). intros st' (L & _). exact L.
      - unfold VacantEntry_insert. apply post_bind with (P := fun st' => length st' = length st).
        { apply post_bind with (P := fun _ => True); [apply post_deref; auto|]. intros _ _. cbn. apply store_length. }
        intros st' L. exact L.
    Qed.
    Lemma entry_or_insert_good st (e : Entry K) (v w : V) :
      match e with Occupied e => slot_some st (o_entry e) | Vacant e => in_bounds st (v_entry e) end ->
      post (entry_or_insert st e v w) (fun p => length (snd p) = length st).
    Proof.
      intros He. unfold entry_or_insert.
      apply post_bind with (P := fun p => slot_some (snd p) (fst p) /\ length (snd p) = length st).
      - destruct e as [e|e]; cbn [Entry_or_insert].
        + pose proof (slot_some_bounds He) as Hb. apply post_bind with (P := fun _ => True); [apply post_deref; auto|].
          intros o _. apply post_bind with (P := fun _ => True); [now apply post_unwrap|]. intros _ _. cbn. auto.
        + apply post_bind with (P := fun _ => True); [apply post_deref; auto|]. intros _ _. cbn.
          split; [|apply store_length]. exists v. unfold store_at. rewrite list_set_nth, Nat.eqb_refl.
          destruct (nth_error st (N.to_nat (v_entry e))) eqn:E; [reflexivity|]. apply nth_error_None in E.
          unfold in_bounds in He. lia.
      - intros [i st1] (Hi & L). cbn [fst snd] in *.
        apply post_bind with (P := fun _ => True); [apply post_deref; [now apply slot_some_bounds|auto]|].
        intros cur _. apply post_bind with (1 := post_write_some w Hi). intros st2 (L2 & _). cbn. congruence.
    Qed.
    Lemma entry_new_good (st : list (option V)) (k : K) i : in_bounds st i ->
      post (Entry_new st k i) (fun e =>
        match e with Occupied e => slot_some st (o_entry e) | Vacant e => in_bounds st (v_entry e) end).
    Proof.
      intros Hi. unfold Entry_new. apply post_bind with (P := fun o => nth_error st (N.to_nat i) = Some o).
      { apply post_deref; auto. }
      intros [v|] E; cbn; [exists v; exact E|exact Hi].
    Qed.

    (** ** OrdinalMap *)
    Lemma init_good (m : list (option V)) : post (OrdinalMap_init_full_map O m) (fun _ => True).
    Proof. unfold OrdinalMap_init_full_map. apply post_bind with (1 := post_size). intros n _. destruct (_ =? _); exact Logic.I. Qed.
    Lemma entry_good m k : post (OrdinalMap_entry (V := V) O m k) (fun p =>
      match fst p with Occupied e => slot_some (snd p) (o_entry e) | Vacant e => in_bounds (snd p) (v_entry e) end).
    Proof.
      unfold OrdinalMap_entry. apply post_bind with (1 := init_good m). intros m1 _.
      apply post_bind with (1 := post_ordinal k). intros i _.
      apply post_bind with (P := in_bounds m1). { apply post_index_slot. auto. }
      intros j Hj. apply post_bind with (1 := entry_new_good k Hj). intros e He. exact He.
    Qed.
    Lemma slot_get_mut m k : post (OrdinalMap_get_mut (V := V) O m k)
      (fun r => match r with Some i => slot_some m i | None => True end).
    Proof.
      unfold OrdinalMap_get_mut. apply post_bind with (1 := post_ordinal k). intros i _.
      unfold slice_get. destruct (nth_error m (N.to_nat i)) as [[v|]|] eqn:E; cbn; auto. exists v. exact E.
    Qed.

    Lemma heap_step_good op (m : @OrdinalMap V) : post (heap_step O op m) (fun _ => True).
    Proof.
      destruct op; cbn [heap_step].
      - unfold OrdinalMap_insert. apply post_bind with (P := fun _ => True); [|intros [? ?]; auto].
        apply post_bind with (1 := init_good m). intros m1 _. apply post_bind with (1 := post_ordinal k). intros i _.
        apply post_bind with (P := fun _ => True); [apply post_index; auto|]. cbn; auto.
      - apply post_bind with (P := fun _ => True); [|cbn; auto]. unfold OrdinalMap_get.
        apply post_bind with (1 := post_ordinal k). intros i _. destruct (slice_get m i); exact Logic.I.
      - apply post_bind with (1 := slot_get_mut m k). intros [i|] Hi; [|exact Logic.I].
        apply post_bind with (P := fun _ => True); [apply post_deref; [now apply slot_some_bounds|auto]|]. intros o _.
        apply post_bind with (1 := post_write_some v Hi). intros m' _. exact Logic.I.
      - apply post_bind with (P := fun _ => True); [|cbn; auto]. unfold OrdinalMap_contains_key.
        apply post_bind with (1 := post_ordinal k). cbn; auto.
      - apply post_bind with (P := fun _ => True); [|intros [? ?]; cbn; auto]. unfold OrdinalMap_remove.
        apply post_bind with (1 := post_ordinal k). intros i _. destruct (slice_get m i); exact Logic.I.
      - apply post_bind with (P := fun _ => True); [|cbn; auto]. apply count_good. apply Nat.lt_succ_diag_r.
      - apply post_bind with (P := fun _ => True); [|cbn; auto]. unfold OrdinalMap_is_empty.
        apply post_bind with (1 := iter_good Front (s := OrdinalMap_iter m) Logic.I). intros [? ?]; cbn; auto.
      - apply post_bind with (P := fun _ => True); [|cbn; auto]. unfold OrdinalMap_clear.
        apply post_bind with (P := fun _ => True); [|intros [? ?]; cbn; auto].
        eapply post_weaken; [apply drain_drop_good with (len := length m)|auto].
        split; [reflexivity|apply in_bounds_slots].
      - assert (Hd : drain_ok (length m) (OrdinalMap_drain m)) by (split; [reflexivity|apply in_bounds_slots]).
        apply post_bind with (1 := post_drive (drain_good (len := length m)) sched Hd). intros [got d] (_ & H). cbn [fst snd] in H.
        destruct leak; [exact Logic.I|].
        apply post_bind with (P := fun _ => True); [|intros [? ?]; cbn; auto].
        eapply post_weaken; [apply drain_drop_good, H|auto].
      - apply post_bind with (1 := post_drive iter_good sched (s := OrdinalMap_iter m) Logic.I). intros [? ?]; cbn; auto.
      - apply post_bind with (1 := post_drive keys_good sched (s := OrdinalMap_keys m) Logic.I). intros [? ?]; cbn; auto.
      - apply post_bind with (1 := post_drive mvalues_good sched (s := OrdinalMap_values m) Logic.I). intros [? ?]; cbn; auto.
      - assert (Hd : items_ok (in_bounds m) (OrdinalMap_iter_mut m)) by apply in_bounds_slots.
        apply post_bind with (1 := post_drive (iter_mut_good (storage := m)) sched Hd). intros [got it] (H & _). cbn [fst] in H.
        apply post_bind with (1 := write_entries_good f H). intros [? ?]; cbn; auto.
      - assert (Hd : items_ok (in_bounds m) (OrdinalMap_values_mut m)) by apply in_bounds_slots.
        apply post_bind with (1 := post_drive (values_mut_good (storage := m)) sched Hd). intros [got it] (H & _). cbn [fst] in H.
        apply post_bind with (1 := write_values_good f H). intros [? ?]; cbn; auto.
      - apply post_bind with (1 := entry_good m k). intros [? ?]; cbn; auto.
      - apply post_bind with (1 := entry_good m k). intros [e m1] He. cbn [fst snd] in He.
        eapply post_weaken; [apply entry_match_good, He|auto].
      - apply post_bind with (1 := entry_good m k). intros [e m1] He. cbn [fst snd] in He.
        eapply post_weaken; [apply entry_or_insert_good, He|auto].
      - exact Logic.I.
      - exact Logic.I.
      - apply post_bind with (P := fun _ => True); [|cbn; auto]. unfold OrdinalMap_debug.
        apply post_bind with (1 := post_collect iter_good Front (s := OrdinalMap_iter m) Logic.I (Nat.lt_succ_diag_r _)).
        intros [? ?]; cbn; auto.
    Qed.
  End Maps.
End Impl.
