(** * UnwindProofs: proofs about IterMut and Drain when [from_ordinal] panics. *)
From Verif Require Import Base BaseProofs Spec SpecMem SpecMap SpecValues SpecIter SpecResume SpecUnwind ModelOrdinal ModelValues ModelIter
  ModelResume ModelUnwind IterLib SafetyProofs ResumeProofs.
From Coq Require Import List Lia Permutation. Import ListNotations.
Set Implicit Arguments.
Unset Strict Implicit.

(** ** Counting failures *)
Section Count.
  Context {U T : Type} (from : U -> N -> U * res (option T)).

  Lemma answer_ok size n u i u' t : i < N.of_nat size -> fails_at_most from size n u -> answer from u i = (u', Val t) ->
    fails_at_most from size n u'.
  Proof.
    intros Hi H E qs Hq. specialize (H (i :: qs) (@Forall_cons _ (fun q => q < N.of_nat size) _ _ Hi Hq)). cbn [map answers] in H. rewrite E in H.
    destruct (answers from u' (map Some qs)) as [l u2]. exact H.
  Qed.
  Lemma answer_failed size n u i u' r : i < N.of_nat size -> fails_at_most from size n u -> answer from u i = (u', r) ->
    failed r = true -> exists m, n = S m /\ fails_at_most from size m u'.
  Proof.
    intros Hi H E F. destruct n as [|m].
    - specialize (H [i] (@Forall_cons _ (fun q => q < N.of_nat size) _ _ Hi (Forall_nil _))). cbn [map answers] in H. rewrite E in H.
      destruct r; try discriminate F; cbn in H; lia.
    - exists m. split; [reflexivity|]. intros qs Hq. specialize (H (i :: qs) (@Forall_cons _ (fun q => q < N.of_nat size) _ _ Hi Hq)). cbn [map answers] in H. rewrite E in H.
      destruct (answers from u' (map Some qs)) as [l u2]. destruct r; try discriminate F; cbn in H |- *; lia.
  Qed.
  Lemma answer_safe u i : safe (snd (from u i)) -> safe (snd (answer from u i)).
  Proof. unfold answer. destruct (from u i) as [u' [[t|]|w| | |]]; cbn; auto. Qed.
End Count.

Section Window.
  Context {cfg : Config} {U K V : Type} (from : U -> N -> U * res (option K)).
  Context (Hsafe : forall u i, safe (snd (from u i))).
  Context (before : list (option V)) (Hlen : llen before <= usize_max).

  (** The iterator has the slots [a, a + k) to go. *)
  Definition onto (it : enumerate N) (a k : nat) : Prop :=
    e_items it = map N.of_nat (seq a k) /\ e_next it <= N.of_nat a /\ N.of_nat (a + k) <= usize_max.

  Definition start (d : dir) (a : nat) : nat := match d with Front => S a | Back => a end.
  Definition taken (d : dir) (a k : nat) : nat := match d with Front => a | Back => a + k end.

  Lemma pop_back_seq a k : pop_back (map N.of_nat (seq a (S k))) = Some (N.of_nat (a + k), map N.of_nat (seq a k)).
  Proof. rewrite seq_S, map_app. cbn [map]. apply pop_back_rev. Qed.

  Lemma enum_step d u it a k : onto it a k ->
    match k with
    | 0%nat => enumerate_resume from d (u, it) = ((u, it), Val None)
    | S k' => exists q it', q < N.of_nat (a + k) /\ onto it' (start d a) k' /\
        enumerate_resume from d (u, it) =
          ((fst (answer from u q), it'), res_map (fun key => Some (key, N.of_nat (taken d a k'))) (snd (answer from u q)))
    end.
  Proof.
    intros (H1 & H2 & H3). destruct k as [|k].
    - destruct d; cbn [enumerate_resume]; unfold enumerate_resume_next, enumerate_resume_back; rewrite H1; reflexivity.
    - destruct d; cbn [enumerate_resume]; unfold enumerate_resume_next, enumerate_resume_back; rewrite H1.
      + cbn [seq map pop_front]. exists (e_next it). rewrite ask_answer.
        destruct (answer from u (e_next it)) as [u' [key|w| | |]]; cbn [fst snd start taken].
        1: { rewrite uadd_ok by lia. cbn [bind].
             exists {| e_next := e_next it + 1; e_items := map N.of_nat (seq (S a) k) |}.
             split; [lia|]. split; [|reflexivity]. split; [reflexivity|]. cbn [e_next]. split; lia. }
        all: exists {| e_next := e_next it; e_items := map N.of_nat (seq (S a) k) |};
          (split; [lia|]); (split; [|reflexivity]); (split; [reflexivity|]); cbn [e_next]; split; lia.
      + rewrite pop_back_seq. unfold llen. rewrite map_length, seq_length.
        exists (e_next it + N.of_nat k). rewrite uadd_ok by lia. rewrite ask_answer.
        exists {| e_next := e_next it; e_items := map N.of_nat (seq a k) |}.
        destruct (answer from u (e_next it + N.of_nat k)) as [u' r]. cbn [fst snd start taken].
        split; [lia|]. split; [|destruct r; reflexivity]. split; [reflexivity|]. cbn [e_next]. split; lia.
  Qed.

  (** What the storage looks like: the slots to go and the [hole]s are as they were. *)
  Definition wide (hole : nat -> bool) (s : @Drain V) (a k : nat) : Prop :=
    onto (snd s) a k /\ length (fst s) = length before /\ (a + k <= length before)%nat /\
    forall j, (j < length before)%nat -> nth_error (fst s) j =
      if (Nat.leb a j && Nat.ltb j (a + k) || hole j)%bool then nth_error before j else Some None.

  Definition also (hole : nat -> bool) (p : nat) : nat -> bool := fun j => (hole j || Nat.eqb j p)%bool.

  Lemma wide_skip hole d storage it it' a k :
    wide hole (storage, it) a (S k) -> onto it' (start d a) k ->
    wide (also hole (taken d a k)) (storage, it') (start d a) k.
  Proof.
    intros (H1 & H2 & H3 & H4) H5. cbn [fst snd] in *. split; [exact H5|]. split; [exact H2|].
    split; [destruct d; cbn [start]; lia|]. intros j Hj. cbn [fst]. rewrite (H4 j Hj). unfold also.
    replace ((Nat.leb (start d a) j && Nat.ltb j (start d a + k) || (hole j || Nat.eqb j (taken d a k)))%bool)
      with ((Nat.leb a j && Nat.ltb j (a + S k) || hole j)%bool); [reflexivity|].
    destruct d; cbn [start taken]; destruct (hole j); rewrite ?Bool.orb_true_r; [reflexivity| |reflexivity|];
      destruct (Nat.leb_spec (S a) j), (Nat.leb_spec a j), (Nat.ltb_spec j (S a + k)), (Nat.ltb_spec j (a + k)), (Nat.ltb_spec j (a + S k)),
        (PeanoNat.Nat.eqb_spec j a), (PeanoNat.Nat.eqb_spec j (a + k)); cbn; try reflexivity; lia.
  Qed.

  Definition unmarked (hole : nat -> bool) (a k : nat) : Prop :=
    forall j, hole j = true -> (a <= j < a + k)%nat -> False.

  Lemma unmarked_start hole d a k : unmarked hole a (S k) -> unmarked hole (start d a) k.
  Proof. intros H j Hj Hr. apply (H j Hj). destruct d; cbn [start] in Hr; lia. Qed.

  Lemma wide_take hole d storage it it' a k : unmarked hole a (S k) ->
    wide hole (storage, it) a (S k) -> onto it' (start d a) k ->
    wide hole (store_at storage (N.of_nat (taken d a k)) None, it') (start d a) k.
  Proof.
    intros Hu (H1 & H2 & H3 & H4) H5. cbn [fst snd] in *. split; [exact H5|].
    assert (Ht : (a <= taken d a k < a + S k)%nat) by (destruct d; cbn [taken]; lia).
    split; [cbn [fst]; unfold store_at; rewrite list_set_length; exact H2|].
    split; [destruct d; cbn [start]; lia|]. intros j Hj. cbn [fst]. unfold store_at.
    replace (N.to_nat (N.of_nat (taken d a k))) with (taken d a k) by lia. rewrite list_set_nth.
    destruct (PeanoNat.Nat.eqb_spec (taken d a k) j) as [E|E].
    - subst j. destruct (nth_error storage (taken d a k)) eqn:En.
      2: { apply nth_error_None in En. lia. }
      replace (hole (taken d a k)) with false.
      2: { destruct (hole (taken d a k)) eqn:Eh; [exfalso; exact (Hu _ Eh Ht)|reflexivity]. }
      destruct d; cbn [start taken]; rewrite Bool.orb_false_r.
      + replace (Nat.leb (S a) a) with false by (symmetry; apply PeanoNat.Nat.leb_gt; lia). reflexivity.
      + replace (Nat.ltb (a + k) (a + k)) with false by (symmetry; apply PeanoNat.Nat.ltb_ge; lia).
        rewrite Bool.andb_false_r. reflexivity.
    - rewrite (H4 j Hj).
      replace ((Nat.leb (start d a) j && Nat.ltb j (start d a + k))%bool) with ((Nat.leb a j && Nat.ltb j (a + S k))%bool); [reflexivity|].
      destruct d; cbn [start taken] in *;
        destruct (Nat.leb_spec (S a) j), (Nat.leb_spec a j), (Nat.ltb_spec j (S a + k)), (Nat.ltb_spec j (a + k)), (Nat.ltb_spec j (a + S k));
        cbn; try reflexivity; lia.
  Qed.

  (** One call. *)
  Lemma drain_step_wide d fuel : forall hole u s a k st' r, (k < fuel)%nat -> unmarked hole a k -> wide hole s a k ->
    drain_resume from d fuel (u, s) = (st', r) ->
    match r with
    | Val None => exists a', (a <= a' <= a + k)%nat /\ wide hole (snd st') a' 0 /\ forall n, fails_at_most from (length before) n u -> fails_at_most from (length before) n (fst st')
    | Val (Some _) => exists a' k', (k' < k)%nat /\ (a <= a' /\ a' + k' <= a + k /\ (d = Front -> a' + k' = a + k))%nat /\ unmarked hole a' k' /\ wide hole (snd st') a' k' /\
        forall n, fails_at_most from (length before) n u -> fails_at_most from (length before) n (fst st')
    | Panic _ => exists a' k' p, (k' < k)%nat /\ (a <= p < a + k)%nat /\ (d = Front -> a' = S p /\ a' + k' = a + k)%nat /\
        unmarked (also hole p) a' k' /\ wide (also hole p) (snd st') a' k' /\
        forall n, fails_at_most from (length before) n u -> exists m, n = S m /\ fails_at_most from (length before) m (fst st')
    | _ => False
    end.
  Proof.
    induction fuel as [|fuel IH]; intros hole u [storage it] a k st' r Hk Hu Hw E; [lia|].
    cbn [drain_resume] in E. unfold TIterMut in E. pose proof (proj1 Hw) as Ho. cbn [snd] in Ho. apply (enum_step d u) in Ho.
    destruct k as [|k].
    - rewrite Ho in E. injection E as <- <-. exists a. split; [lia|]. split; [exact Hw|]. intros n H. exact H.
    - destruct Ho as (q & it' & Hq & Ho & Es). rewrite Es in E. clear Es.
      assert (Hq' : q < N.of_nat (length before)) by (destruct Hw as (_ & _ & H3 & _); lia).
      pose proof (answer_safe (Hsafe u q)) as Sf.
      destruct (answer from u q) as [u' [key|w| | |]] eqn:Ea; cbn [fst snd res_map bind] in E, Sf; try contradiction Sf.
      + assert (Hd : exists x, deref storage (N.of_nat (taken d a k)) = Val x).
        { unfold deref, slice_get. destruct (nth_error storage _) eqn:En; [eauto|].
          apply nth_error_None in En. destruct Hw as (_ & H2 & H3 & _). cbn [fst] in H2. destruct d; cbn [taken] in En; lia. }
        destruct Hd as [x Hd]. rewrite Hd in E.
        assert (Hn := fun n (H : fails_at_most from (length before) n u) => answer_ok Hq' H Ea).
        assert (Hw' := wide_take Hu Hw Ho).
        destruct x as [v|].
        * injection E as <- <-. exists (start d a), k. split; [lia|]. split; [destruct d; cbn [start]; (split; [lia|split; [lia|intros Q; try discriminate Q; lia]])|]. split; [apply unmarked_start, Hu|]. split; [exact Hw'|exact Hn].
        * pose proof (IH hole u' (store_at storage (N.of_nat (taken d a k)) None, it') (start d a) k st' r) as G.
          specialize (G ltac:(lia) (unmarked_start Hu) Hw' E).
          destruct r as [[e|]|w| | |]; try contradiction G.
          -- destruct G as (a' & k' & G1 & G0 & G2 & G3 & G4). exists a', k'. split; [lia|].
             split; [destruct G0 as (G01 & G02 & G03); destruct d; cbn [start] in *; (split; [lia|split; [lia|intros Q; try discriminate Q; specialize (G03 eq_refl); lia]])|]. split; [exact G2|]. split; [exact G3|]. auto.
          -- destruct G as (a' & G0 & G3 & G4). exists a'. split; [destruct d; cbn [start] in G0; lia|]. split; [exact G3|]. auto.
          -- destruct G as (a' & k' & p & G1 & G2 & G3 & G4 & G5 & G6). exists a', k', p. split; [lia|].
             split; [destruct d; cbn [start] in G2; lia|]. split; [intros Q; destruct (G3 Q) as [G31 G32]; subst d; cbn [start] in *; lia|]. split; [exact G4|]. split; [exact G5|].
             intros n H. apply G6, Hn, H.
      + injection E as <- <-. exists (start d a), k, (taken d a k). split; [lia|].
        split; [destruct d; cbn [taken]; lia|]. split; [intros ->; cbn [start taken]; lia|].
        split; [|split; [exact (wide_skip Hw Ho)|]].
        * intros j Hj Hr. unfold also in Hj. apply Bool.orb_true_iff in Hj. destruct Hj as [Hj|Hj].
          -- apply (unmarked_start (d := d) Hu Hj Hr).
          -- apply PeanoNat.Nat.eqb_eq in Hj. subst j. destruct d; cbn [start taken] in Hr; lia.
        * intros n H. exact (answer_failed Hq' H Ea eq_refl).
  Qed.

  Lemma wide_fuel hole s a k : wide hole s a k -> length (e_items (snd s)) = k.
  Proof. intros ((H & _) & _). rewrite H, map_length, seq_length. reflexivity. Qed.

  (** The destructor. *)
  Lemma drop_wide fuel : forall hole u s a k, (k < fuel)%nat -> unmarked hole a k -> wide hole s a k ->
    forall l st' r, drain_drop_loop from fuel (u, s) = (l, st', r) ->
    match r with
    | Val _ => exists a', wide hole (snd st') a' 0 /\ forall n, fails_at_most from (length before) n u -> fails_at_most from (length before) n (fst st')
    | Panic _ => exists k' p, (a <= p < a + k)%nat /\ (S p + k' = a + k)%nat /\ wide (also hole p) (snd st') (S p) k' /\
        forall n, fails_at_most from (length before) n u -> exists m, n = S m /\ fails_at_most from (length before) m (fst st')
    | _ => False
    end /\
    Permutation (stored (fst s)) (map snd l ++ stored (fst (snd st'))).
  Proof.
    induction fuel as [|fuel IH]; intros hole u s a k Hk Hu Hw l st' r E; [lia|].
    cbn [drain_drop_loop] in E. destruct (drain_resume_step from Front (u, s)) as [[u1 s1] r1] eqn:E1.
    unfold drain_resume_step in E1. cbn [snd] in E1. rewrite (wide_fuel Hw) in E1.
    assert (P : Permutation (stored (fst s)) (handed_out [r1] ++ stored (fst s1))).
    { destruct s as [storage it]. exact (drain_keeps E1). }
    pose proof (@drain_step_wide Front (S k) hole u s a k (u1, s1) r1 (PeanoNat.Nat.lt_succ_diag_r k) Hu Hw E1) as G.
    clear E1. rename G into E1. cbn [fst snd] in E1.
    destruct r1 as [[[key v]|]|w| | |]; try contradiction E1.
    - destruct (drain_drop_loop from fuel (u1, s1)) as [[l2 st2] r2] eqn:E2. injection E as <- <- <-.
      destruct E1 as (a' & k' & G1 & B & G2 & G3 & G4).
      destruct B as (B1 & B2 & B3). specialize (B3 eq_refl).
      destruct (IH hole u1 s1 a' k' ltac:(lia) G2 G3 _ _ _ E2) as [H1 H2].
      split.
      + destruct r2 as [[]|w| | |]; try contradiction H1.
        * destruct H1 as (a2 & H1 & H3). exists a2. split; [exact H1|auto].
        * destruct H1 as (k2 & p & H1 & H0 & H3 & H4). exists k2, p. split; [lia|]. split; [lia|]. split; [exact H3|]. intros n H. apply H4, G4, H.
      + eapply Permutation_trans; [exact P|]. cbn [handed_out map app snd]. apply perm_skip. exact H2.
    - injection E as <- <- <-. destruct E1 as (a' & _ & G1 & G2). split; [exists a'; auto|exact P].
    - injection E as <- <- <-. destruct E1 as (a' & k' & p & G1 & G2 & G3 & G4 & G5 & G6). split; [|exact P].
      destruct (G3 eq_refl) as [-> G7]. exists k', p. auto.
  Qed.

  (** The calls before the destructor. *)
  Lemma calls_wide sched : forall u s a k, wide (fun _ => false) s a k ->
    forall l st' r, drain_calls from sched (u, s) = (l, st', r) ->
    match r with
    | Val _ => length l = length sched /\ exists a' k', (a <= a' /\ a' + k' <= a + k)%nat /\ wide (fun _ => false) (snd st') a' k' /\
        forall n, fails_at_most from (length before) n u -> fails_at_most from (length before) n (fst st')
    | Panic _ => (length l < length sched)%nat /\ exists a' k' p, unmarked (also (fun _ => false) p) a' k' /\
        (a <= p < a + k)%nat /\ wide (also (fun _ => false) p) (snd st') a' k' /\
        forall n, fails_at_most from (length before) n u -> exists m, n = S m /\ fails_at_most from (length before) m (fst st')
    | _ => False
    end /\
    Permutation (stored (fst s)) (map snd (somes l) ++ stored (fst (snd st'))).
  Proof.
    induction sched as [|d ds IH]; intros u s a k Hw l st' r E.
    - injection E as <- <- <-. split; [|apply Permutation_refl]. split; [reflexivity|]. exists a, k. split; [lia|]. auto.
    - cbn [drain_calls] in E. destruct (drain_resume_step from d (u, s)) as [[u1 s1] r1] eqn:E1.
      unfold drain_resume_step in E1. cbn [snd] in E1. rewrite (wide_fuel Hw) in E1.
      assert (P : Permutation (stored (fst s)) (handed_out [r1] ++ stored (fst s1))).
      { destruct s as [storage it]. exact (drain_keeps E1). }
      assert (Hu : unmarked (fun _ => false) a k) by (intros j Hj; discriminate Hj).
      pose proof (@drain_step_wide d (S k) _ u s a k (u1, s1) r1 (PeanoNat.Nat.lt_succ_diag_r k) Hu Hw E1) as G.
      clear E1. cbn [fst snd] in G.
      assert (Step : forall a1 k1, (a <= a1 /\ a1 + k1 <= a + k)%nat -> wide (fun _ => false) s1 a1 k1 ->
        (forall n, fails_at_most from (length before) n u -> fails_at_most from (length before) n u1) ->
        forall o, r1 = Val o -> map snd (somes [o]) = handed_out [r1] ->
        match r with
        | Val _ => length l = length (d :: ds) /\ exists a' k', (a <= a' /\ a' + k' <= a + k)%nat /\ wide (fun _ => false) (snd st') a' k' /\
            forall n, fails_at_most from (length before) n u -> fails_at_most from (length before) n (fst st')
        | Panic _ => (length l < length (d :: ds))%nat /\ exists a' k' p, unmarked (also (fun _ => false) p) a' k' /\
            (a <= p < a + k)%nat /\ wide (also (fun _ => false) p) (snd st') a' k' /\
            forall n, fails_at_most from (length before) n u -> exists m, n = S m /\ fails_at_most from (length before) m (fst st')
        | _ => False
        end /\
        Permutation (stored (fst s)) (map snd (somes l) ++ stored (fst (snd st')))).
      { intros a1 k1 B1 W1 F1 o Eo Ho. subst r1.
        destruct (drain_calls from ds (u1, s1)) as [[l2 st2] r2] eqn:E2. injection E as <- <- <-.
        destruct (IH u1 s1 a1 k1 W1 _ _ _ E2) as [H1 H2]. split.
        - destruct r2 as [[]|w| | |]; try contradiction H1.
          + destruct H1 as (HL & a2 & k2 & B2 & W2 & F2). split; [cbn [length]; lia|].
            exists a2, k2. split; [lia|]. split; [exact W2|]. auto.
          + destruct H1 as (HL & a2 & k2 & p & M2 & B2 & W2 & F2). split; [cbn [length]; lia|].
            exists a2, k2, p. split; [exact M2|]. split; [lia|]. split; [exact W2|]. intros n H. apply F2, F1, H.
        - eapply Permutation_trans; [exact P|]. rewrite <- Ho.
          change (o :: l2) with ([o] ++ l2). unfold somes at 2. rewrite flat_map_app, map_app, <- app_assoc.
          apply Permutation_app_head. exact H2. }
      destruct r1 as [[[key v]|]|w| | |]; try contradiction G.
      + destruct G as (a1 & k1 & _ & B1 & _ & W1 & F1). exact (Step a1 k1 (conj (proj1 B1) (proj1 (proj2 B1))) W1 F1 _ eq_refl eq_refl).
      + destruct G as (a1 & B1 & W1 & F1). exact (Step a1 0%nat ltac:(lia) W1 F1 _ eq_refl eq_refl).
      + injection E as <- <- <-. destruct G as (a1 & k1 & p & _ & B1 & _ & M1 & W1 & F1). split; [|exact P].
        split; [cbn [length]; lia|]. exists a1, k1, p. auto.
  Qed.

  Lemma wide_start : wide (fun _ => false) (Drain_new before (TIterMut_new (slots (length before)))) 0 (length before).
  Proof.
    split; [|split; [reflexivity|split; [cbn [plus]; lia|]]].
    - split; [reflexivity|]. cbn. split; [lia|]. unfold llen in Hlen. lia.
    - intros j Hj. cbn [fst Drain_new]. replace (Nat.leb 0 j && Nat.ltb j (0 + length before) || false)%bool with true; [reflexivity|].
      symmetry. rewrite Bool.orb_false_r. apply andb_true_intro. split; [reflexivity|]. apply PeanoNat.Nat.ltb_lt. lia.
  Qed.

  Lemma wide_left hole s a k x y : wide hole s a k ->
    (forall j, (j < length before)%nat -> (Nat.leb a j && Nat.ltb j (a + k) || hole j)%bool = (Nat.leb x j && Nat.ltb j y)%bool) ->
    left_between x y before (fst s).
  Proof.
    intros (_ & H2 & _ & H4) H. split; [exact H2|]. intros j Hj. rewrite (H4 j Hj), (H j Hj). reflexivity.
  Qed.

  Ltac lebs := repeat match goal with
    | |- context [Nat.leb ?x ?y] => destruct (Nat.leb_spec x y)
    | |- context [Nat.ltb ?x ?y] => destruct (Nat.ltb_spec x y)
    | |- context [Nat.eqb ?x ?y] => destruct (PeanoNat.Nat.eqb_spec x y)
    end; cbn; try reflexivity; exfalso; lia.

  Lemma drain_facts sched u got dropped after f :
    drain_map from sched u before = (got, dropped, after, f) ->
    f <> Wrong /\ length after = length before /\
    Permutation (stored before) (map snd (somes got) ++ map snd dropped ++ stored after) /\
    (f = Returned -> length got = length sched /\ Forall (fun o => o = None) after) /\
    (forall w, f = Unwound w -> exists a b, (a < b <= length before)%nat /\ left_between a b before after /\
       ((length got < length sched)%nat -> b = S a)) /\
    (fails_at_most from (length before) 0 u -> f = Returned) /\ (fails_at_most from (length before) 1 u -> f <> Aborted).
  Proof.
    unfold drain_map, drain_use. intros E.
    destruct (drain_calls from sched (u, Drain_new before (TIterMut_new (slots (length before))))) as [[l [u1 s1]] r1] eqn:E1.
    destruct (calls_wide wide_start E1) as [H1 P1]. clear E1. cbn [fst snd] in *.
    destruct (drain_drop_resume from (u1, s1)) as [[l2 [u2 [storage2 it2]]] r2] eqn:E2. injection E as <- <- <- <-.
    unfold drain_drop_resume in E2. cbn [snd] in E2.
    assert (L : forall hole s a k, wide hole s a k -> length (fst s) = length before) by (intros hole s a k H; apply H).
    assert (PP : forall hole a k, unmarked hole a k -> wide hole s1 a k ->
      match r2 with
      | Val _ => exists a', wide hole (storage2, it2) a' 0 /\ forall n, fails_at_most from (length before) n u1 -> fails_at_most from (length before) n u2
      | Panic _ => exists k' p, (a <= p < a + k)%nat /\ (S p + k' = a + k)%nat /\ wide (also hole p) (storage2, it2) (S p) k' /\
          forall n, fails_at_most from (length before) n u1 -> exists m, n = S m /\ fails_at_most from (length before) m u2
      | _ => False
      end /\ length storage2 = length before /\
      Permutation (stored before) (map snd (somes l) ++ map snd l2 ++ stored storage2)).
    { intros hole a k Hu Hw. rewrite (wide_fuel Hw) in E2.
      destruct (@drop_wide (S k) hole u1 s1 a k (PeanoNat.Nat.lt_succ_diag_r k) Hu Hw _ _ _ E2) as [G1 G2]. cbn [fst snd] in *.
      split; [exact G1|]. split.
      - destruct r2 as [[]|w| | |]; try contradiction G1.
        + destruct G1 as (a' & W & _). exact (L _ _ _ _ W).
        + destruct G1 as (k' & p & _ & _ & W & _). exact (L _ _ _ _ W).
      - eapply Permutation_trans; [exact P1|]. apply Permutation_app_head. exact G2. }
    destruct r1 as [[]|w1| | |]; try contradiction H1.
    - destruct H1 as (HL & a & k & B & W & F).
      destruct (PP (fun _ => false) a k) as (G & Gl & Gp); [intros j Hj; discriminate Hj|exact W|].
      destruct r2 as [[]|w2| | |]; try contradiction G.
      + destruct G as (a' & W' & F'). split; [discriminate|]. split; [exact Gl|]. split; [exact Gp|].
        split; [|split; [discriminate|split; [reflexivity|discriminate]]].
        intros _. split; [exact HL|]. apply Forall_forall. intros o Ho. apply In_nth_error in Ho. destruct Ho as [j Hj].
        assert (Hb : (j < length before)%nat).
        { rewrite <- Gl. apply nth_error_Some. rewrite Hj. discriminate. }
        destruct W' as (_ & _ & _ & W4). cbn [fst] in W4. specialize (W4 j Hb). rewrite Hj in W4.
        replace (Nat.leb a' j && Nat.ltb j (a' + 0) || false)%bool with false in W4.
        * injection W4 as ->. reflexivity.
        * rewrite Bool.orb_false_r. lebs.
      + destruct G as (k' & p & Bp & _ & W' & F'). split; [discriminate|]. split; [exact Gl|]. split; [exact Gp|].
        split; [discriminate|]. split; [|split; [|discriminate]].
        * intros w Ew. exists p, (S p + k')%nat. pose proof (proj1 (proj2 (proj2 W'))) as Wb.
          split; [lia|]. split; [|lia]. apply (wide_left W'). intros j Hj. unfold also. cbn [orb]. lebs.
        * intros H. destruct (F' 0%nat (F _ H)) as (m & Em & _). discriminate Em.
    - destruct H1 as (HL & a & k & p & M & Bp & W & F).
      destruct (PP _ a k M W) as (G & Gl & Gp).
      destruct r2 as [[]|w2| | |]; try contradiction G.
      + destruct G as (a' & W' & F'). split; [discriminate|]. split; [exact Gl|]. split; [exact Gp|].
        split; [discriminate|]. split; [|split; [|discriminate]].
        * intros w Ew. exists p, (S p). split; [lia|]. split; [|reflexivity].
          apply (wide_left W'). intros j Hj. unfold also. cbn [orb]. lebs.
        * intros H. destruct (F 0%nat H) as (m & Em & _). discriminate Em.
      + destruct G as (k' & p' & Bp' & _ & W' & F'). split; [discriminate|]. split; [exact Gl|]. split; [exact Gp|].
        split; [discriminate|]. split; [discriminate|]. split.
        * intros H. destruct (F 0%nat H) as (m & Em & _). discriminate Em.
        * intros H. exfalso. destruct (F 1%nat H) as (m & Em & H0). injection Em as <-.
          destruct (F' 0%nat H0) as (m & Em & _). discriminate Em.
  Qed.

  Lemma clear_facts u got dropped after f :
    clear_map from u before = (got, dropped, after, f) ->
    got = [] /\ Permutation (stored before) (map snd dropped ++ stored after) /\
    (f = Returned /\ after = repeat None (length before) \/
     exists w a, f = Unwound w /\ (a < length before)%nat /\ left_between a (length before) before after).
  Proof.
    intros E. pose proof (drain_facts E) as (_ & HL & HP & HR & _).
    unfold clear_map, drain_map, drain_use in E. cbn [drain_calls] in E. unfold drain_drop_resume in E. cbn [snd] in E.
    rewrite (wide_fuel wide_start) in E.
    destruct (drain_drop_loop from (S (length before)) (u, Drain_new before (TIterMut_new (slots (length before)))))
      as [[l [u2 [storage2 it2]]] r] eqn:E2.
    assert (Hu : unmarked (fun _ => false) 0 (length before)) by (intros j H; discriminate H).
    destruct (@drop_wide (S (length before)) _ u _ _ _ (PeanoNat.Nat.lt_succ_diag_r _) Hu wide_start _ _ _ E2)
      as [G _].
    injection E as <- <- <- Ef. split; [reflexivity|]. split; [exact HP|].
    destruct r as [[]|w| | |]; try contradiction G; subst f.
    - left. split; [reflexivity|]. destruct (HR eq_refl) as [_ H]. rewrite <- HL. clear - H.
      induction H as [|o l -> H IH]; [reflexivity|]. cbn [length repeat]. f_equal. exact IH.
    - right. destruct G as (k' & p & Bp & Bk & W & _). exists w, p. split; [reflexivity|]. split; [lia|].
      apply (wide_left W). intros j Hj. unfold also. cbn [orb]. lebs.
  Qed.
End Window.
