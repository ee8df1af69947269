(** * CallsProofs4: the questions of each operation on a map, a total map and an atomic. *)
From Verif Require Import Base Spec SpecMap SpecTotal SpecSet SpecAtomic SpecSafety SpecCalls ModelOrdinal ModelValues ModelArrayBuilder
  ModelIter ModelTotal ModelMap ModelSet ModelAtomic MapMachine TotalMachine SetMachine ModelCalls BaseProofs IterLib CallsProofs1 CallsProofs3.
From Coq Require Import List Lia Permutation. Import ListNotations.
Set Implicit Arguments. Unset Strict Implicit.

Lemma window_ext {A B} (h : A -> bool) (g : B -> bool) i l l' :
  map h l = map g l' -> window_from h i l = window_from g i l'.
Proof.
  revert i l'. induction l as [|a l IH]; intros i [|b l'] E; try discriminate; [reflexivity|].
  cbn [window_from]. injection E as E1 E2. rewrite E1. f_equal. apply IH, E2.
Qed.
Lemma window_ext_in {A} (h g : A -> bool) i l : (forall a, In a l -> h a = g a) -> window_from h i l = window_from g i l.
Proof. intros H. apply window_ext. apply map_ext_in. exact H. Qed.

Section Ops.
  Context {cfg : Config} {K C : Type} {R : C -> Type}.
  Local Notation asks := (@asks K C R _).

  Lemma asks_and A (p : prog K C R A) q (P Q : A -> Prop) : asks p q P -> asks p q Q -> asks p q (fun a => P a /\ Q a).
  Proof.
    intros H1 H2 U w u. specialize (H1 U w u). specialize (H2 U w u). destruct (run w u p) as [[u1 l1] []]; auto. tauto.
  Qed.
  Lemma asks_true A (p : prog K C R A) q P : asks p q P -> asks p q (fun _ => True).
  Proof. apply asks_weaken. auto. Qed.
  (** The last part of an operation asks nothing more. *)
  Lemma asks_last A B (p : prog K C R A) (k : A -> prog K C R B) q P Q :
    asks p q P -> (forall a, P a -> asks (k a) [] Q) -> asks (pbind p k) q Q.
  Proof. intros H1 H2. apply (@asks_eq _ _ _ _ _ (q ++ [])); [apply app_nil_r|]. eapply asks_bind; eauto. Qed.
  Lemma asks_end A (r : res A) : asks (Done r) [] (fun _ => True).
  Proof. now apply asks_done. Qed.

  (** ** Sparse iterators *)
  Section Sparse.
    Context {V : Type}.

    Lemma iter_asks d (s : @Iter V) w : enum_ok holds_value s w ->
      asks (Iter_step_p d s) (froms (fst (visit d w))) (fun a =>
        enum_ok holds_value (snd a) (snd (visit d w)) /\ (fst a = None -> snd (visit d w) = []) /\
        (length (e_items (snd a)) + (if is_some (fst a) then 1 else 0) <= length (e_items s))%nat).
    Proof. intros H. apply sparse_asks; [now intros [] ? [= <-]|exact H|lia]. Qed.
    Lemma iter_ok (m : list (option V)) : llen m <= usize_max -> enum_ok holds_value (OrdinalMap_iter m) (sparse_window m).
    Proof. intros H. split; [exact H|reflexivity]. Qed.

    (** Slots of [m] that hold a value. *)
    Definition slot_holds (m : list (option V)) (i : N) : bool :=
      match slice_get m i with Some (Some _) => true | _ => false end.
    Lemma slots_window (m : list (option V)) : window_from (slot_holds m) 0 (slots (length m)) = sparse_window m.
    Proof.
      apply window_ext. unfold slots. rewrite map_map.
      assert (E : forall pre, map (fun x => slot_holds (pre ++ m) (N.of_nat x)) (seq (length pre) (length m)) = map holds_value m).
      { clear. induction m as [|o m IH]; intros pre; [reflexivity|]. cbn [length seq map]. f_equal.
        - unfold slot_holds, slice_get. rewrite Nat2N.id, nth_error_app2, Nat.sub_diag by lia. reflexivity.
        - specialize (IH (pre ++ [o])). rewrite app_length in IH. cbn [length] in IH. rewrite Nat.add_1_r in IH.
          rewrite <- IH. apply map_ext. intros x. now rewrite <- app_assoc. }
      apply (E []).
    Qed.

    Lemma iter_mut_asks (m : list (option V)) d (s : IterMut) w : enum_ok (slot_holds m) s w ->
      asks (IterMut_step_p m d s) (froms (fst (visit d w))) (fun a => enum_ok (slot_holds m) (snd a) (snd (visit d w))).
    Proof.
      intros H. eapply asks_weaken; [|apply sparse_asks with (h := slot_holds m); [|exact H|lia]]; [intros a Ha; apply Ha|].
      intros i b. unfold deref, slot_holds. destruct (slice_get m i) as [[v|]|]; cbn [bind]; [| |discriminate]; now intros [= <-].
    Qed.
    Lemma iter_mut_ok (m : list (option V)) : llen m <= usize_max -> enum_ok (slot_holds m) (OrdinalMap_iter_mut m) (sparse_window m).
    Proof.
      intros H. split; [|apply slots_window]. cbn. unfold llen, slots in *. rewrite map_length, seq_length. lia.
    Qed.

    (** ** Drain *)
    Lemma enumerate_items A d (s : enumerate A) w (h : A -> bool) : enum_ok h s w ->
      asks (enumerate_step_p d s) (froms (fst (fst (one d w)))) (fun a =>
        match fst a with
        | None => e_items s = []
        | Some (_, x) => e_items s = match d with Front => x :: e_items (snd a) | Back => e_items (snd a) ++ [x] end
        end).
    Proof.
      destruct s as [n items]. intros [B E]. cbn [e_next e_items] in *. subst w. destruct d; cbn [one].
      - unfold enumerate_step_p, enumerate_next_p. cbn [e_items e_next]. destruct items as [|a items]; cbn [pop_front window_from].
        + apply asks_val. reflexivity.
        + apply asks_from_then. intros r. apply asks_then. intros k _. apply asks_then. intros n' _. apply asks_val. reflexivity.
      - unfold enumerate_step_p, enumerate_next_back_p. cbn [e_items e_next].
        destruct items as [|a items _] using rev_ind; cbn [pop_back window_from rev].
        + apply asks_val. reflexivity.
        + rewrite pop_back_rev. rewrite window_app, rev_app_distr. cbn [window_from rev app].
          unfold llen in *. rewrite app_length in B. cbn [length] in B.
          rewrite uadd_small by lia. apply asks_then. intros ? [= <-].
          apply asks_from_then. intros r. apply asks_then. intros k _. apply asks_val. reflexivity.
    Qed.

    Definition drain_ok (s : @Drain V) (w : window) : Prop :=
      enum_ok (slot_holds (fst s)) (snd s) w /\ NoDup (e_items (snd s)).

    Lemma store_other (m : list (option V)) i j o : i <> j -> slot_holds (store_at m i o) j = slot_holds m j.
    Proof.
      intros H. unfold slot_holds, slice_get, store_at.
      replace (nth_error (list_set m (N.to_nat i) o) (N.to_nat j)) with (nth_error m (N.to_nat j)); [reflexivity|].
      assert (H' : N.to_nat i <> N.to_nat j) by lia. revert H'. generalize (N.to_nat i), (N.to_nat j). clear.
      induction m as [|x m IH]; intros [|i] [|j] H'; cbn; auto. destruct H'; reflexivity.
    Qed.

    Lemma drain_loop_asks d n (s : @Drain V) w : drain_ok s w -> (length (e_items (snd s)) < n)%nat ->
      asks (Drain_loop_p d n s) (froms (fst (visit d w))) (fun a =>
        drain_ok (snd a) (snd (visit d w)) /\ (fst a = None -> snd (visit d w) = [])).
    Proof.
      revert s w. induction n as [|n IH]; intros [m it] w [Hw Hd] Hn; cbn [fst snd] in *; [lia|].
      cbn [Drain_loop_p]. rewrite visit_one.
      pose proof (enumerate_asks (R := R) (K := K) (C := C) d Hw) as E0. pose proof (enumerate_items d Hw) as E1.
      destruct (one d w) as [[q b] w'] eqn:EO. cbn [fst] in E1.
      pose proof (asks_and E0 E1) as E. clear E0 E1.
      assert (Keep : forall x it', e_items it = match d with Front => x :: e_items it' | Back => e_items it' ++ [x] end ->
        NoDup (e_items it') /\ forall w0, enum_ok (slot_holds m) it' w0 -> enum_ok (slot_holds (store_at m x None)) it' w0).
      { intros x it' Ei. assert (N2 : NoDup (x :: e_items it')).
        { destruct d; rewrite Ei in Hd; [exact Hd|]. eapply Permutation_NoDup; [|exact Hd]. symmetry. apply Permutation_cons_append. }
        inversion N2 as [|? ? Nin Nd]; subst. split; [exact Nd|]. intros w0 [B Ew]. split; [exact B|].
        rewrite <- Ew. apply window_ext_in. intros y Hy. apply store_other. intros ->. exact (Nin Hy). }
      destruct b as [[|]|].
      - eapply asks_last; [exact E|]. intros [[[k i]|] it'] [(O1 & O2 & O3) O4]; cbn [fst snd opt_map is_some] in *; [|discriminate].
        injection O2 as O2. destruct (Keep _ _ O4) as [Nd Ok]. apply asks_then. intros v Dv.
        unfold deref, slot_holds in *. destruct (slice_get m i) as [[v'|]|]; try discriminate. injection Dv as <-.
        apply asks_val. cbn [fst snd]. split; [|discriminate]. split; [apply Ok, O1|exact Nd].
      - destruct (visit d w') as [q2 w2] eqn:EV. cbn [fst snd]. unfold froms. rewrite map_app.
        eapply asks_bind; [exact E|]. intros [[[k i]|] it'] [(O1 & O2 & O3) O4]; cbn [fst snd opt_map is_some] in *; [|discriminate].
        injection O2 as O2. destruct (Keep _ _ O4) as [Nd Ok]. apply asks_then. intros v Dv.
        unfold deref in Dv. unfold slot_holds in O2. destruct (slice_get m i) as [[v'|]|]; try discriminate. injection Dv as <-.
        cbv zeta. specialize (IH (store_at m i None, it') w'). rewrite EV in IH. apply IH; cbn [fst snd]; [|lia].
        split; [apply Ok, O1|exact Nd].
      - assert (w' = [] /\ q = []) as [-> ->].
        { destruct d; cbn [one] in EO.
          - destruct w as [|[]]; [injection EO as <- <-; auto|discriminate].
          - destruct (rev w) as [|[]]; [injection EO as <- <-; auto|discriminate]. }
        eapply asks_last; [exact E|]. intros [[[k i]|] it'] [(O1 & O2 & O3) O4]; cbn [fst snd opt_map is_some] in *; [discriminate|].
        apply asks_val. cbn [fst snd]. split; [|reflexivity]. split; [exact O1|].
        cbn [snd]. rewrite O4 in O3. destruct (e_items it'); [constructor|cbn in O3; lia].
    Qed.
    Lemma drain_asks d (s : @Drain V) w : drain_ok s w ->
      asks (Drain_step_p d s) (froms (fst (visit d w))) (fun a =>
        drain_ok (snd a) (snd (visit d w)) /\ (fst a = None -> snd (visit d w) = [])).
    Proof. intros H. apply drain_loop_asks; [exact H|lia]. Qed.
    Lemma drain_drop_asks (s : @Drain V) w : drain_ok s w -> asks (Drain_drop_p s) (froms (map fst w)) (fun _ => True).
    Proof.
      intros H. unfold Drain_drop_p. eapply asks_last.
      - apply collect_asks with (ok := drain_ok); [|exact H]. intros s' w' Hs. apply drain_asks, Hs.
      - intros [l s'] _. apply asks_end.
    Qed.
    Lemma drain_start (m : list (option V)) : llen m <= usize_max -> drain_ok (OrdinalMap_drain m) (sparse_window m).
    Proof.
      intros H. split; [apply iter_mut_ok, H|]. cbn. unfold slots. apply FinFun.Injective_map_NoDup; [|apply seq_NoDup].
      intros a b E. lia.
    Qed.

    Lemma count_asks n (s : @Iter V) c w : enum_ok holds_value s w ->
      asks (Iter_count_loop_p n s c) (froms (map fst w)) (fun _ => True).
    Proof.
      revert s c w. induction n as [|n IH]; intros s c w Hs; cbn [Iter_count_loop_p].
      - intros U x u. apply prefix_nil.
      - intros U x u. rewrite run_bind. pose proof (@iter_asks Front s w Hs U x u) as H.
        pose proof (up_to_value_all w) as W. cbn [visit] in H. destruct (up_to_value w) as [q1 w1]. cbn [fst snd] in *.
        destruct (run x u (Iter_step_p Front s)) as [[u1 l1] r]. rewrite <- W. unfold froms in *. rewrite map_app.
        destruct r as [[o s1]| | | |]; try (apply prefix_app, H). destruct H as (E & O1 & O2 & _). cbn [fst snd] in *.
        destruct o as [a|].
        + rewrite run_bind. cbn [run]. destruct (uadd c 1) as [c'| | | |]; unfold questions in *; rewrite ?app_nil_r, ?E;
            try (apply prefix_app, prefix_refl).
          specialize (IH s1 c' w1 O1 U x u1). destruct (run x u1 (Iter_count_loop_p n s1 c')) as [[u2 l2] r2].
          cbn [app]. unfold questions in *. destruct r2; rewrite map_app, E; try (apply app_prefix, IH).
          destruct IH as [-> _]. auto.
        + specialize (O2 eq_refl). subst w1. cbn [run map]. unfold questions in *. rewrite map_app, E. cbn [map]. auto.
    Qed.
  End Sparse.

  (** ** Total iterators *)
  Lemma one_true A d i (l : list A) : snd (fst (one d (window_from (fun _ => true) i l))) <> Some false.
  Proof.
    assert (F : Forall (fun x => snd x = true) (window_from (fun _ : A => true) i l)).
    { revert i. induction l; intros i; cbn [window_from]; constructor; auto. }
    destruct d; cbn [one].
    - destruct F as [|[j b] w Hb _]; [discriminate|]. cbn in *. congruence.
    - apply Forall_rev in F. destruct F as [|[j b] w Hb _]; [discriminate|]. cbn in *. congruence.
  Qed.
  Lemma total_asks A d (s : enumerate A) w : enum_ok (fun _ => true) s w ->
    asks (enumerate_step_p d s) (froms (fst (visit d w))) (fun a =>
      enum_ok (fun _ => true) (snd a) (snd (visit d w)) /\ (fst a = None -> snd (visit d w) = [])).
  Proof.
    intros H. rewrite visit_one. pose proof (enumerate_asks (R := R) (K := K) (C := C) d H) as E.
    assert (T : snd (fst (one d w)) <> Some false) by (destruct H as [_ <-]; apply one_true).
    assert (Z : snd (fst (one d w)) = None -> snd (one d w) = []).
    { destruct d; cbn [one]; [destruct w as [|[]]|destruct (rev w) as [|[]]]; cbn; auto; discriminate. }
    destruct (one d w) as [[q b] w']. cbn [fst snd] in *.
    eapply asks_eq, asks_weaken; [| |exact E].
    - destruct b as [[|]|]; auto. destruct T; reflexivity.
    - cbv beta. intros [o s'] (O1 & O2 & O3). cbn [fst snd] in *.
      destruct b as [[|]|]; [|destruct T; reflexivity|]; cbn [fst snd]; (split; [exact O1|]); intros ->; [discriminate|auto].
  Qed.
  Lemma titer_ok V (m : list V) : llen m <= usize_max -> enum_ok (fun _ => true) (OrdinalTotalMap_iter m) (total_window m).
  Proof. intros H. split; [exact H|reflexivity]. Qed.
  Lemma titer_mut_ok V (m : list V) : llen m <= usize_max -> enum_ok (fun _ => true) (OrdinalTotalMap_iter_mut m) (total_window m).
  Proof.
    intros H. split.
    - cbn. unfold llen, slots in *. rewrite map_length, seq_length. lia.
    - apply window_ext. cbn. unfold slots. rewrite !map_map.
      generalize 0%nat. induction m as [|v m IH]; intros n; [reflexivity|]. cbn. f_equal. apply IH. unfold llen in *. cbn in H. lia.
  Qed.

  (** ** OrdinalValues *)
  Definition range_ok (s : OrdinalValues) (w : window) : Prop :=
    w = window_from (fun _ => true) (r_start s) (repeat tt (N.to_nat (range_len s))).
  Lemma values_asks d s w : range_ok s w ->
    asks (values_step_p d s) (froms (fst (visit d w))) (fun a =>
      range_ok (snd a) (snd (visit d w)) /\ (fst a = None -> snd (visit d w) = [])).
  Proof.
    destruct s as [a b]. unfold range_ok, range_len. cbn [r_start r_end]. intros ->.
    unfold values_step_p, range_next, range_next_back. cbn [r_start r_end].
    destruct (N.ltb_spec a b) as [L|L].
    - destruct (N.to_nat (b - a)) as [|n] eqn:En; [lia|]. destruct d.
      + cbn [repeat window_from visit up_to_value fst snd]. apply asks_from_then. intros r. apply asks_then. intros t _. apply asks_val.
        cbn [fst snd r_start r_end]. split; [|discriminate]. do 2 f_equal. lia.
      + replace (repeat tt (S n)) with (repeat tt n ++ [tt]) by (symmetry; apply repeat_cons).
        rewrite window_app. cbn [window_from visit]. rewrite rev_app_distr. cbn [rev app up_to_value fst snd].
        replace (a + llen (repeat tt n)) with (b - 1) by (unfold llen; rewrite repeat_length; lia).
        apply asks_from_then. intros r. apply asks_then. intros t _. apply asks_val.
        cbn [fst snd r_start r_end]. split; [|discriminate]. rewrite rev_involutive. do 2 f_equal. lia.
    - replace (N.to_nat (b - a)) with 0%nat by lia. cbn [repeat window_from].
      destruct d; cbn [visit rev up_to_value fst snd]; apply asks_val; cbn [fst snd r_start r_end];
        (split; [|reflexivity]); replace (N.to_nat (b - a)) with 0%nat by lia; reflexivity.
  Qed.
  Lemma values_start (size : res N) n it : size = Val n -> values_new_p size = Val it -> range_ok it (full_window n).
  Proof.
    intros ->. cbn. intros [= <-]. unfold range_ok, full_window, total_window, range_len. cbn. now rewrite N.sub_0_r.
  Qed.

  (** ** Operations *)
  Lemma map_asks V size op (m : @OrdinalMap V) : llen m <= usize_max ->
    asks (heap_step_p size op m) (map_questions op m) (fun _ => True).
  Proof.
    intros Hm.
    destruct op as [k v|k|k v|k|k| | | |s leak|s|s|s|s f|s f|k|k v v'|k v v'|f|cl|]; cbn [heap_step_p map_questions].
    - unfold OrdinalMap_insert_p. eapply asks_last; [|intros [o m'] _; apply asks_end].
      apply asks_then. intros m' _. apply asks_ordinal_then. intros i. apply asks_then. intros old _. apply asks_end.
    - unfold OrdinalMap_get_p. eapply asks_last; [|intros o _; apply asks_end].
      apply asks_ordinal_then. intros i. destruct (slice_get m i); apply asks_end.
    - unfold OrdinalMap_get_mut_p. eapply asks_last; [|intros [i|] _; apply asks_end].
      apply asks_ordinal_then. intros i. destruct (slice_get m i); apply asks_end.
    - unfold OrdinalMap_contains_key_p. eapply asks_last; [|intros o _; apply asks_end].
      apply asks_ordinal_then. intros i. apply asks_end.
    - unfold OrdinalMap_remove_p. eapply asks_last; [|intros [o m'] _; apply asks_end].
      apply asks_ordinal_then. intros i. destruct (slice_get m i); apply asks_end.
    - eapply asks_last; [|intros n _; apply asks_end]. apply count_asks, iter_ok, Hm.
    - unfold OrdinalMap_is_empty_p. eapply asks_last; [|intros b _; apply asks_end].
      eapply asks_last; [apply iter_asks, iter_ok, Hm|]. intros [o s'] _. apply asks_end.
    - unfold OrdinalMap_clear_p. eapply asks_last; [|intros b _; apply asks_end].
      eapply asks_last; [apply drain_drop_asks, drain_start, Hm|]. intros [m' l] _. apply asks_end.
    - assert (D : asks (drive_p Drain_step_p s (OrdinalMap_drain m)) (froms (fst (visits s (sparse_window m))))
        (fun a => drain_ok (snd a) (snd (visits s (sparse_window m))))).
      { apply drive_asks with (ok := drain_ok); [|apply drain_start, Hm].
        intros d s' w Hs. eapply asks_weaken; [|apply drain_asks, Hs]. intros a Ha. apply Ha. }
      destruct (visits s (sparse_window m)) as [q rest]. cbn [fst snd] in D. destruct leak.
      + eapply asks_last; [exact D|]. intros [got d] _. apply asks_end.
      + unfold froms. rewrite map_app. eapply asks_bind; [exact D|]. intros [got d] Hd. cbn [snd] in Hd.
        eapply asks_last; [apply drain_drop_asks, Hd|]. intros [m' l] _. apply asks_end.
    - eapply asks_last; [|intros [got d] _; apply asks_end].
      apply drive_asks with (ok := enum_ok holds_value); [|apply iter_ok, Hm].
      intros d s' w Hs. eapply asks_weaken; [|apply iter_asks, Hs]. intros a Ha. apply Ha.
    - eapply asks_last; [|intros [got d] _; apply asks_end].
      apply drive_asks with (ok := enum_ok holds_value); [|apply iter_ok, Hm].
      intros d s' w Hs. unfold Keys_step_p. eapply asks_last; [apply iter_asks, Hs|]. intros [o s1] Ha. apply asks_val, Ha.
    - eapply asks_last; [|intros [got d] _; apply asks_end].
      apply drive_asks with (ok := enum_ok holds_value); [|apply iter_ok, Hm].
      intros d s' w Hs. unfold Values_step_p. eapply asks_last; [apply iter_asks, Hs|]. intros [o s1] Ha. apply asks_val, Ha.
    - eapply asks_last; [|intros [got d] _; apply asks_end].
      apply drive_asks with (ok := enum_ok (slot_holds m)); [|apply iter_mut_ok, Hm]. intros d s' w Hs. apply iter_mut_asks, Hs.
    - eapply asks_last; [|intros [got d] _; apply asks_end].
      apply drive_asks with (ok := enum_ok (slot_holds m)); [|apply iter_mut_ok, Hm]. intros d s' w Hs.
      unfold ValuesMut_step_p. eapply asks_last; [apply iter_mut_asks, Hs|]. intros [o s1] Ha. apply asks_val, Ha.
    - unfold OrdinalMap_entry_p. eapply asks_last; [|intros [e m'] _; apply asks_end].
      apply asks_then. intros m' _. apply asks_ordinal_then. intros i. apply asks_then. intros e _. apply asks_then. intros e' _. apply asks_end.
    - unfold OrdinalMap_entry_p. eapply asks_last; [|intros [e m'] _; apply asks_end].
      apply asks_then. intros m' _. apply asks_ordinal_then. intros i. apply asks_then. intros e _. apply asks_then. intros e' _. apply asks_end.
    - unfold OrdinalMap_entry_p. eapply asks_last; [|intros [e m'] _; apply asks_end].
      apply asks_then. intros m' _. apply asks_ordinal_then. intros i. apply asks_then. intros e _. apply asks_then. intros e' _. apply asks_end.
    - intros U w u. apply prefix_nil.
    - apply asks_end.
    - unfold OrdinalMap_debug_p. eapply asks_last; [|intros l _; apply asks_end].
      eapply asks_last; [|intros [l s] _; apply asks_end].
      apply collect_asks with (ok := enum_ok holds_value); [|apply iter_ok, Hm].
      intros s w Hs. eapply asks_weaken; [|apply iter_asks, Hs]. intros a (H1 & H2 & _). auto.
  Qed.

  Lemma retain_asks V (f : K -> V -> V * bool) n (m : list (option V)) it w : enum_ok (fun _ => true) it w ->
    asks (retain_pure_loop_p f n m it) (froms (map fst w)) (fun _ => True).
  Proof.
    revert m it w. induction n as [|n IH]; intros m it w Hw; cbn [retain_pure_loop_p].
    - intros U x u. apply prefix_nil.
    - pose proof (total_asks Front Hw) as E. pose proof (up_to_value_all w) as W. cbn [visit] in E.
      destruct (up_to_value w) as [q1 w1]. cbn [fst snd] in *. rewrite <- W. unfold froms. rewrite map_app.
      intros U x u. rewrite run_bind. specialize (E U x u). destruct (run x u (enumerate_step_p Front it)) as [[u1 l1] r].
      destruct r as [[o it']| | | |]; try (apply prefix_app, E). destruct E as (E & O1 & O2). cbn [fst snd] in *.
      destruct o as [[k i]|].
      + cbn [pbind]. assert (IH' : forall m', match run x u1 (retain_pure_loop_p f n m' it') with
          | (_, l, Val a) => questions l = froms (map fst w1) /\ True | (_, l, _) => prefix (questions l) (froms (map fst w1)) end)
          by (intros m'; apply IH, O1).
        assert (Q : forall p, (p = retain_pure_loop_p f n m it' \/ exists m', p = retain_pure_loop_p f n m' it') ->
          match (let '(u2, l2, y) := run x u1 p in (u2, l1 ++ l2, y)) with
          | (_, l, Val a) => questions l = map QFrom q1 ++ map QFrom (map fst w1) /\ True
          | (_, l, _) => prefix (questions l) (map QFrom q1 ++ map QFrom (map fst w1)) end).
        { intros p Hp. assert (Hp' : exists m', p = retain_pure_loop_p f n m' it') by (destruct Hp; eauto).
          destruct Hp' as (m' & ->). specialize (IH' m'). destruct (run x u1 (retain_pure_loop_p f n m' it')) as [[u2 l2] y].
          unfold questions in *. destruct y; rewrite map_app, E; try (apply app_prefix, IH'). destruct IH' as [-> _]. auto. }
        destruct (deref m i) as [[v|]| | | |]; try (cbn [run]; unfold questions in *; rewrite map_app, E; apply app_prefix, prefix_nil).
        * destruct (f k v) as [v' [|]]; cbv zeta; apply Q; eauto.
        * apply Q; eauto.
      + specialize (O2 eq_refl). subst w1. cbn [run map]. unfold questions in *. rewrite map_app, E. cbn [map]. auto.
  Qed.

  Lemma array_map_asks S V op (m : @OrdinalArrayMap V S) : llen (arr_list m) <= usize_max ->
    asks (array_step_p op m) (map_questions op (arr_list m)) (fun _ => True).
  Proof.
    intros Hm.
    destruct op as [k v|k|k v|k|k| | | |s leak|s|s|s|s f|s f|k|k v v'|k v v'|f|cl|]; cbn [array_step_p map_questions].
    - unfold OrdinalArrayMap_insert_p, OrdinalTotalArrayMap_get_mut_p. eapply asks_last; [|intros [o m'] _; apply asks_end].
      eapply asks_last; [apply asks_ordinal_then; intros i; apply asks_end|]. intros i _. apply asks_then. intros o _. apply asks_end.
    - unfold OrdinalArrayMap_get_p, OrdinalTotalArrayMap_get_p. eapply asks_last; [|intros o _; apply asks_end].
      apply asks_ordinal_then. intros i. apply asks_end.
    - unfold OrdinalArrayMap_get_mut_p, OrdinalTotalArrayMap_get_mut_p. eapply asks_last; [|intros [i|] _; apply asks_end].
      eapply asks_last; [apply asks_ordinal_then; intros i; apply asks_end|]. intros i _. apply asks_then. intros o _. apply asks_end.
    - unfold OrdinalArrayMap_contains_key_p, OrdinalArrayMap_get_p, OrdinalTotalArrayMap_get_p. eapply asks_last; [|intros o _; apply asks_end].
      eapply asks_last; [apply asks_ordinal_then; intros i; apply asks_end|]. intros i _. apply asks_end.
    - unfold OrdinalArrayMap_remove_p, OrdinalTotalArrayMap_get_mut_p. eapply asks_last; [|intros [o m'] _; apply asks_end].
      eapply asks_last; [apply asks_ordinal_then; intros i; apply asks_end|]. intros i _. apply asks_then. intros o _. apply asks_end.
    - eapply asks_last; [|intros n _; apply asks_end]. apply count_asks. exact (iter_ok Hm).
    - unfold OrdinalArrayMap_is_empty_p. eapply asks_last; [|intros b _; apply asks_end].
      eapply asks_last; [apply iter_asks; exact (iter_ok Hm)|]. intros [o s'] _. apply asks_end.
    - unfold OrdinalArrayMap_clear_p. eapply asks_last; [|intros b _; apply asks_end].
      eapply asks_last; [apply drain_drop_asks; exact (drain_start Hm)|]. intros [m' l] _. apply asks_end.
    - assert (D : asks (drive_p Drain_step_p s (OrdinalArrayMap_drain m)) (froms (fst (visits s (sparse_window (arr_list m)))))
        (fun a => drain_ok (snd a) (snd (visits s (sparse_window (arr_list m)))))).
      { apply drive_asks with (ok := drain_ok); [|exact (drain_start Hm)].
        intros d s' w Hs. eapply asks_weaken; [|apply drain_asks, Hs]. intros a Ha. apply Ha. }
      destruct (visits s (sparse_window (arr_list m))) as [q rest]. cbn [fst snd] in D. destruct leak.
      + eapply asks_last; [exact D|]. intros [got d] _. apply asks_end.
      + unfold froms. rewrite map_app. eapply asks_bind; [exact D|]. intros [got d] Hd. cbn [snd] in Hd.
        eapply asks_last; [apply drain_drop_asks, Hd|]. intros [m' l] _. apply asks_end.
    - eapply asks_last; [|intros [got d] _; apply asks_end].
      apply drive_asks with (ok := enum_ok holds_value); [|exact (iter_ok Hm)].
      intros d s' w Hs. eapply asks_weaken; [|apply iter_asks, Hs]. intros a Ha. apply Ha.
    - eapply asks_last; [|intros [got d] _; apply asks_end].
      apply drive_asks with (ok := enum_ok holds_value); [|exact (iter_ok Hm)].
      intros d s' w Hs. unfold Keys_step_p. eapply asks_last; [apply iter_asks, Hs|]. intros [o s1] Ha. apply asks_val, Ha.
    - eapply asks_last; [|intros [got d] _; apply asks_end].
      apply drive_asks with (ok := enum_ok holds_value); [|exact (iter_ok Hm)].
      intros d s' w Hs. unfold Values_step_p. eapply asks_last; [apply iter_asks, Hs|]. intros [o s1] Ha. apply asks_val, Ha.
    - eapply asks_last; [|intros [got d] _; apply asks_end].
      apply drive_asks with (ok := enum_ok (slot_holds (arr_list m))); [|exact (iter_mut_ok Hm)]. intros d s' w Hs. apply iter_mut_asks, Hs.
    - eapply asks_last; [|intros [got d] _; apply asks_end].
      apply drive_asks with (ok := enum_ok (slot_holds (arr_list m))); [|exact (iter_mut_ok Hm)]. intros d s' w Hs.
      unfold ValuesMut_step_p. eapply asks_last; [apply iter_mut_asks, Hs|]. intros [o s1] Ha. apply asks_val, Ha.
    - unfold OrdinalArrayMap_entry_p, OrdinalTotalArrayMap_get_mut_p. eapply asks_last; [|intros [e m'] _; apply asks_end].
      eapply asks_last; [apply asks_ordinal_then; intros i; apply asks_end|]. intros i _. apply asks_then. intros e' _. apply asks_end.
    - unfold OrdinalArrayMap_entry_p, OrdinalTotalArrayMap_get_mut_p. eapply asks_last; [|intros [e m'] _; apply asks_end].
      eapply asks_last; [apply asks_ordinal_then; intros i; apply asks_end|]. intros i _. apply asks_then. intros e' _. apply asks_end.
    - unfold OrdinalArrayMap_entry_p, OrdinalTotalArrayMap_get_mut_p. eapply asks_last; [|intros [e m'] _; apply asks_end].
      eapply asks_last; [apply asks_ordinal_then; intros i; apply asks_end|]. intros i _. apply asks_then. intros e' _. apply asks_end.
    - eapply asks_last; [|intros st _; apply asks_end].
      pose proof (titer_mut_ok Hm) as T. apply (retain_asks f (Datatypes.S (length (arr_list m))) (arr_list m)) in T.
      eapply asks_eq; [|exact T]. f_equal. unfold sparse_window, total_window. rewrite !window_fst. reflexivity.
    - apply asks_end.
    - unfold OrdinalArrayMap_debug_p. eapply asks_last; [|intros l _; apply asks_end].
      eapply asks_last; [|intros [l s] _; apply asks_end].
      apply collect_asks with (ok := enum_ok holds_value); [|exact (iter_ok Hm)].
      intros s w Hs. eapply asks_weaken; [|apply iter_asks, Hs]. intros a (H1 & H2 & _). auto.
  Qed.

  Lemma drive_total A (s : enumerate A) w sched : enum_ok (fun _ => true) s w ->
    asks (drive_p enumerate_step_p sched s) (froms (fst (visits sched w))) (fun _ => True).
  Proof.
    intros H. eapply asks_true, drive_asks with (ok := enum_ok (fun _ => true)); [|exact H].
    intros d s' w' Hs. eapply asks_weaken; [|apply total_asks, Hs]. intros a Ha. apply Ha.
  Qed.
  Lemma keys_asks size n it sched : size = Val n -> values_new_p size = Val it ->
    asks (drive_p values_step_p sched it) (froms (fst (visits sched (full_window n)))) (fun _ => True).
  Proof.
    intros E1 E2. eapply asks_true, drive_asks with (ok := range_ok); [|eapply values_start; eauto].
    intros d s' w' Hs. eapply asks_weaken; [|apply values_asks, Hs]. intros a Ha. apply Ha.
  Qed.
  Lemma total_map_asks V n op (m : @OrdinalTotalMap V) : llen m <= usize_max ->
    asks (htotal_step_p (Val n) op m) (total_questions n op m) (fun _ => True).
  Proof.
    intros Hm. destruct op as [k|k|k v|k v|k v| | |s|s f|s f|s|s|cl|]; cbn [htotal_step_p total_questions]; try apply asks_end.
    - eapply asks_last; [apply asks_ordinal_then; intros i; apply asks_end|]. intros v _. apply asks_end.
    - eapply asks_last; [apply asks_ordinal_then; intros i; apply asks_end|]. intros v _. apply asks_end.
    - eapply asks_last; [apply asks_ordinal_then; intros i; apply asks_end|]. intros i _. apply asks_end.
    - eapply asks_last; [apply asks_ordinal_then; intros i; apply asks_end|]. intros i _. apply asks_end.
    - unfold OrdinalTotalMap_insert_p. eapply asks_last; [apply asks_ordinal_then; intros i; apply asks_then; intros o _; apply asks_end|].
      intros [o m'] _. apply asks_end.
    - eapply asks_last; [|intros [got d] _; apply asks_end]. apply drive_total, titer_ok, Hm.
    - eapply asks_last; [|intros [got d] _; apply asks_end]. apply drive_total, titer_mut_ok, Hm.
    - apply asks_then. intros it E. eapply asks_last; [eapply keys_asks; [reflexivity|exact E]|]. intros [got d] _. apply asks_end.
    - unfold OrdinalTotalMap_debug_p. eapply asks_last; [|intros l _; apply asks_end].
      eapply asks_last; [|intros [l s] _; apply asks_end].
      apply collect_asks with (ok := enum_ok (fun _ => true)); [|apply titer_ok, Hm]. intros s w Hs. apply total_asks, Hs.
  Qed.
  Lemma array_total_asks S V n op (m : OrdinalTotalArrayMap S V) : llen (arr_list m) <= usize_max ->
    asks (atotal_step_p (Val n) op m) (total_questions n op (arr_list m)) (fun _ => True).
  Proof.
    intros Hm. destruct op as [k|k|k v|k v|k v| | |s|s f|s f|s|s|cl|]; cbn [atotal_step_p total_questions]; try apply asks_end.
    - eapply asks_last; [apply asks_ordinal_then; intros i; apply asks_end|]. intros v _. apply asks_end.
    - eapply asks_last; [apply asks_ordinal_then; intros i; apply asks_end|]. intros v _. apply asks_end.
    - eapply asks_last; [apply asks_ordinal_then; intros i; apply asks_end|]. intros i _. apply asks_end.
    - eapply asks_last; [apply asks_ordinal_then; intros i; apply asks_end|]. intros i _. apply asks_end.
    - unfold OrdinalTotalArrayMap_insert_p. eapply asks_last; [apply asks_ordinal_then; intros i; apply asks_then; intros o _; apply asks_end|].
      intros [o m'] _. apply asks_end.
    - eapply asks_last; [|intros [got d] _; apply asks_end]. apply drive_total. exact (titer_ok Hm).
    - eapply asks_last; [|intros [got d] _; apply asks_end]. apply drive_total. exact (titer_mut_ok Hm).
    - apply asks_then. intros it E. eapply asks_last; [eapply keys_asks; [reflexivity|exact E]|]. intros [got d] _. apply asks_end.
    - unfold OrdinalTotalArrayMap_debug_p. eapply asks_last; [|intros l _; apply asks_end].
      eapply asks_last; [|intros [l s] _; apply asks_end].
      apply collect_asks with (ok := enum_ok (fun _ => true)); [|exact (titer_ok Hm)]. intros s w Hs. apply total_asks, Hs.
  Qed.
End Ops.
