(** * UnwindProofs2: IterMut after a caught panic; the models agree. *)
From Verif Require Import Base BaseProofs Spec SpecMem SpecMap SpecValues SpecIter SpecResume SpecUnwind ModelOrdinal ModelValues ModelIter
  ModelResume ModelUnwind IterLib ResumeProofs UnwindProofs ResumeCases.
From Coq Require Import List Lia Permutation. Import ListNotations.
Set Implicit Arguments.
Unset Strict Implicit.

Section Agree.
  Context {cfg : Config} {K V : Type} (O : Ordinal K).

  Lemma iter_mut_loop_agree (storage : list (option V)) d fuel : forall s,
    sparse_loop (TIterMut_step O d)
      (fun i => o <- deref storage i ;; Val (match o with Some _ => Some i | None => None end)) fuel s =
    forget (iter_mut_resume (pure_from O) storage d fuel (tt, s)).
  Proof.
    induction fuel as [|fuel IH]; intros s; [reflexivity|]. cbn [sparse_loop iter_mut_resume].
    unfold TIterMut_step. rewrite enumerate_agree. unfold forget at 1.
    destruct (enumerate_resume (pure_from O) d (tt, s)) as [[[] s1] [[[k i]|]|w| | |]]; try reflexivity. cbn [bind fst snd].
    destruct (deref storage i) as [[v|]|w| | |]; try reflexivity. cbn [bind]. apply IH.
  Qed.
  Lemma iter_mut_agree (storage : list (option V)) d s :
    IterMut_step O storage d s = forget (iter_mut_resume_step (pure_from O) storage d (tt, s)).
  Proof. apply iter_mut_loop_agree. Qed.

  Lemma drop_loop_agree fuel : forall s : @Drain V,
    collect (Drain_step O Front) fuel s =
    (let '(l, (_, s'), r) := drain_drop_loop (pure_from O) fuel (tt, s) in r ;;; Val (l, s')).
  Proof.
    induction fuel as [|fuel IH]; intros s; [reflexivity|]. cbn [collect drain_drop_loop]. rewrite drain_agree. unfold forget.
    destruct (drain_resume_step (pure_from O) Front (tt, s)) as [[[] s1] [[e|]|w| | |]]; try reflexivity. cbn [bind fst snd].
    rewrite IH. destruct (drain_drop_loop (pure_from O) fuel (tt, s1)) as [[l [[] s2]] [[]|w| | |]]; reflexivity.
  Qed.
  Lemma drain_drop_agree (s : @Drain V) : Drain_drop O s =
    (let '(l, (_, s'), r) := drain_drop_resume (pure_from O) (tt, s) in r ;;; Val (fst s', l)).
  Proof.
    unfold Drain_drop, drain_drop_resume. rewrite drop_loop_agree. cbn [snd].
    destruct (drain_drop_loop _ _ _) as [[l [[] s2]] [[]|w| | |]]; reflexivity.
  Qed.
End Agree.

Section Mut.
  Context {cfg : Config} {U K V : Type} (from : U -> N -> U * res (option K)) (storage : list (option V)).

  Definition reads (is : list N) (vs : list (option V)) : Prop := Forall2 (fun i o => slice_get storage i = Some o) is vs.
  Definition paired (s : enumerate N) (s' : enumerate (option V)) : Prop :=
    e_next s = e_next s' /\ reads (e_items s) (e_items s').

  Definition item_rel (a : res (option (K * N))) (b : res (option (K * option V))) : Prop :=
    match a, b with
    | Val (Some (k, i)), Val (Some (k', o)) => k = k' /\ slice_get storage i = Some o
    | Val None, Val None => True
    | Panic w, Panic w' => w = w'
    | NoCompile, NoCompile | UB, UB | OutOfFuel, OutOfFuel => True
    | _, _ => False
    end.

  Lemma enum_paired d u s s' : paired s s' ->
    exists u1 s1 s1' r r', enumerate_resume from d (u, s) = ((u1, s1), r) /\
      enumerate_resume from d (u, s') = ((u1, s1'), r') /\ paired s1 s1' /\ item_rel r r'.
  Proof.
    destruct s as [x is], s' as [x' vs]. intros [H1 H2]. cbn [e_next e_items] in *. subst x'.
    destruct d; cbn [enumerate_resume]; unfold enumerate_resume_next, enumerate_resume_back; cbn [e_next e_items].
    - destruct H2 as [|i o is vs Hi H2]; cbn [pop_front].
      { do 5 eexists. split; [reflexivity|]. split; [reflexivity|]. split; [split; [reflexivity|constructor]|exact I]. }
      destruct (ask from u x) as [u1 [k|w| | |]].
      1: destruct (uadd x 1) as [y|w| | |].
      all: do 5 eexists; (split; [reflexivity|]); (split; [reflexivity|]); (split; [split; [reflexivity|exact H2]|]); cbn; auto.
    - destruct is as [|i is _] using rev_ind.
      { inversion H2; subst. cbn [pop_back]. do 5 eexists. split; [reflexivity|]. split; [reflexivity|]. split; [split; [reflexivity|constructor]|exact I]. }
      apply Forall2_app_inv_l in H2. destruct H2 as (vs1 & vs2 & H2 & H3 & ->).
      inversion H3 as [|? o ? ? Hi H4]; subst. inversion H4; subst. rewrite !pop_back_rev.
      assert (L : llen is = llen vs1) by (unfold llen; rewrite (Forall2_length H2); reflexivity). rewrite L.
      destruct (uadd x (llen vs1)) as [y|w| | |].
      1: destruct (ask from u y) as [u1 [k|w| | |]].
      all: do 5 eexists; (split; [reflexivity|]); (split; [reflexivity|]); (split; [split; [reflexivity|exact H2]|]); cbn; auto.
  Qed.

  Lemma mut_paired d fuel : forall u s s', paired s s' ->
    exists u1 s1 s1' r r', iter_mut_resume from storage d fuel (u, s) = ((u1, s1), r) /\
      sparse_resume from d fuel (u, s') = ((u1, s1'), r') /\ paired s1 s1' /\ same_entry storage r r'.
  Proof.
    induction fuel as [|fuel IH]; intros u s s' H.
    - cbn. do 5 eexists. split; [reflexivity|]. split; [reflexivity|]. split; [exact H|exact I].
    - cbn [iter_mut_resume sparse_resume].
      destruct (enum_paired d u H) as (u1 & s1 & s1' & r & r' & E & E' & H1 & R). rewrite E, E'.
      destruct r as [[[k i]|]|w| | |], r' as [[[k' o]|]|w'| | |]; try contradiction R.
      + destruct R as [<- R]. unfold deref. rewrite R. destruct o as [v|]; [|apply IH, H1].
        do 5 eexists. split; [reflexivity|]. split; [reflexivity|]. split; [exact H1|]. cbn. auto.
      + do 5 eexists. split; [reflexivity|]. split; [reflexivity|]. split; [exact H1|exact I].
      + do 5 eexists. split; [reflexivity|]. split; [reflexivity|]. split; [exact H1|]. cbn. exact R.
      + do 5 eexists. split; [reflexivity|]. split; [reflexivity|]. split; [exact H1|exact I].
      + do 5 eexists. split; [reflexivity|]. split; [reflexivity|]. split; [exact H1|exact I].
      + do 5 eexists. split; [reflexivity|]. split; [reflexivity|]. split; [exact H1|exact I].
  Qed.

  Lemma run_paired sched : forall u s s', paired s s' ->
    Forall2 (same_entry storage) (fst (run_caught (iter_mut_resume_step from storage) sched (u, s)))
      (fst (run_caught (sparse_resume_step from) sched (u, s'))).
  Proof.
    induction sched as [|d ds IH]; intros u s s' H; [constructor|]. cbn [run_caught].
    destruct (@mut_paired d (S (length (e_items s))) u s s' H) as (u1 & s1 & s1' & r & r' & E & E' & H1 & R).
    unfold iter_mut_resume_step at 1, sparse_resume_step at 1. cbn [snd]. rewrite E.
    rewrite <- (Forall2_length (proj2 H)), E'. specialize (IH u1 s1 s1' H1).
    destruct (run_caught (iter_mut_resume_step from storage) ds (u1, s1)) as [rs st2].
    destruct (run_caught (sparse_resume_step from) ds (u1, s1')) as [rs' st2']. constructor; assumption.
  Qed.

  (** No slot twice. *)
  Lemma enum_shrinks d u (s : enumerate N) st' r : NoDup (e_items s) -> enumerate_resume from d (u, s) = (st', r) ->
    NoDup (e_items (snd st')) /\ incl (e_items (snd st')) (e_items s) /\
    forall k i, r = Val (Some (k, i)) -> In i (e_items s) /\ ~ In i (e_items (snd st')).
  Proof.
    destruct s as [x is]. cbn [e_items]. intros H.
    destruct d; cbn [enumerate_resume]; unfold enumerate_resume_next, enumerate_resume_back; cbn [e_next e_items].
    - destruct is as [|i is]; cbn [pop_front].
      { intros E. injection E as <- <-. split; [exact H|]. split; [apply incl_refl|discriminate]. }
      inversion H as [|? ? Hi Hn]; subst.
      destruct (ask from u x) as [u1 [k|w| | |]].
      1: destruct (uadd x 1) as [y|w| | |].
      all: intros E; injection E as <- <-; cbn [snd e_items]; (split; [exact Hn|]); (split; [intros j Hj; right; exact Hj|]);
        intros k0 i0 E0; try discriminate E0; injection E0 as <- <-; (split; [left; reflexivity|exact Hi]).
    - destruct is as [|i is _] using rev_ind.
      { intros E. injection E as <- <-. split; [exact H|]. split; [apply incl_refl|discriminate]. }
      rewrite pop_back_rev.
      assert (Hn : NoDup is /\ ~ In i is).
      { apply NoDup_remove in H. rewrite app_nil_r in H. exact H. }
      destruct Hn as [Hn Hi].
      destruct (uadd x (llen is)) as [y|w| | |].
      1: destruct (ask from u y) as [u1 [k|w| | |]].
      all: intros E; injection E as <- <-; cbn [snd e_items]; (split; [exact Hn|]); (split; [intros j Hj; apply in_or_app; left; exact Hj|]);
        intros k0 i0 E0; try discriminate E0; injection E0 as <- <-; (split; [apply in_or_app; right; left; reflexivity|exact Hi]).
  Qed.

  Lemma mut_shrinks d fuel : forall u (s : enumerate N) st' r, NoDup (e_items s) ->
    iter_mut_resume from storage d fuel (u, s) = (st', r) ->
    NoDup (e_items (snd st')) /\ incl (e_items (snd st')) (e_items s) /\
    forall k i, r = Val (Some (k, i)) -> In i (e_items s) /\ ~ In i (e_items (snd st')).
  Proof.
    induction fuel as [|fuel IH]; intros u s st' r H E.
    - injection E as <- <-. split; [exact H|]. split; [apply incl_refl|discriminate].
    - cbn [iter_mut_resume] in E. destruct (enumerate_resume from d (u, s)) as [[u1 s1] r1] eqn:E1.
      destruct (enum_shrinks H E1) as (H1 & H2 & H3). cbn [snd] in *.
      destruct r1 as [[[k i]|]|w| | |]; try (injection E as <- <-; split; [exact H1|split; [exact H2|discriminate]]).
      destruct (deref storage i) as [[v|]|w| | |]; try (injection E as <- <-; split; [exact H1|split; [exact H2|discriminate]]).
      + injection E as <- <-. split; [exact H1|]. split; [exact H2|]. intros k0 i0 E0. injection E0 as <- <-. exact (H3 _ _ eq_refl).
      + destruct (IH _ _ _ _ H1 E) as (G1 & G2 & G3). split; [exact G1|]. split; [intros j Hj; apply H2, G2, Hj|].
        intros k0 i0 E0. destruct (G3 _ _ E0) as [G4 G5]. split; [apply H2, G4|exact G5].
  Qed.

  Lemma mut_no_dup sched : forall u s, NoDup (e_items s) ->
    NoDup (map snd (yielded (fst (run_caught (iter_mut_resume_step from storage) sched (u, s))))) /\
    incl (map snd (yielded (fst (run_caught (iter_mut_resume_step from storage) sched (u, s))))) (e_items s).
  Proof.
    induction sched as [|d ds IH]; intros u s H; [split; [constructor|intros i []]|]. cbn [run_caught].
    destruct (iter_mut_resume_step from storage d (u, s)) as [[u1 s1] r] eqn:E.
    destruct (mut_shrinks H E) as (H1 & H2 & H3). cbn [snd] in *. specialize (IH u1 s1 H1).
    destruct (run_caught (iter_mut_resume_step from storage) ds (u1, s1)) as [rs st2]. cbn [fst] in *. destruct IH as [I1 I2].
    assert (I3 : incl (map snd (yielded rs)) (e_items s)) by (intros j Hj; apply H2, I2, Hj).
    destruct r as [[[k i]|]|w| | |]; cbn [yielded]; try (split; [exact I1|exact I3]).
    destruct (H3 _ _ eq_refl) as [H4 H5]. cbn [map snd]. split.
    - constructor; [|exact I1]. intros Hi. apply H5, I2, Hi.
    - intros j [<-|Hj]; [exact H4|exact (I3 j Hj)].
  Qed.

  Lemma iter_mut_caught sched u :
    let slots_run := run_caught (iter_mut_resume_step from storage) sched (u, TIterMut_new (slots (length storage))) in
    Forall2 (same_entry storage) (fst slots_run)
      (fst (run_caught (sparse_resume_step from) sched (u, enumerate_new storage 0))) /\
    NoDup (map snd (yielded (fst slots_run))).
  Proof.
    cbv zeta. split.
    - apply run_paired. split; [reflexivity|]. cbn [e_items TIterMut_new enumerate_new]. unfold reads, slots.
      assert (G : forall pre l : list (option V), storage = pre ++ l ->
        Forall2 (fun i o => slice_get storage i = Some o) (map N.of_nat (seq (length pre) (length l))) l).
      { intros pre l. revert pre. induction l as [|o l IH]; intros pre E; [constructor|]. cbn [length seq map]. constructor.
        - unfold slice_get. replace (N.to_nat (N.of_nat (length pre))) with (length pre) by lia.
          rewrite E, nth_error_app2, PeanoNat.Nat.sub_diag by lia. reflexivity.
        - replace (S (length pre)) with (length (pre ++ [o])) by (rewrite app_length; cbn; lia). apply IH. rewrite <- app_assoc. exact E. }
      exact (G [] storage eq_refl).
    - apply mut_no_dup. cbn [e_items TIterMut_new enumerate_new]. unfold slots.
      apply FinFun.Injective_map_NoDup; [intros x y; lia|apply seq_NoDup].
  Qed.
End Mut.

(** ** Drain, one fact at a time. *)
Section Parts.
  Context {cfg : Config} {U K V : Type} (from : U -> N -> U * res (option K)).
  Variables (before : list (option V)) (sched : list dir) (u : U) (got : list (option (K * V))) (dropped : list (K * V))
    (after : list (option V)) (f : fate).
  Hypothesis Hsafe : forall u i, safe (snd (from u i)).
  Hypothesis Hlen : llen before <= usize_max.
  Hypothesis E : drain_map from sched u before = (got, dropped, after, f).

  Lemma drain_no_loss : f <> Wrong /\ length after = length before /\
    Permutation (stored before) (map snd (somes got) ++ map snd dropped ++ stored after).
  Proof. destruct (drain_facts Hsafe Hlen E) as (H1 & H2 & H3 & _). auto. Qed.
  Lemma drain_returned : f = Returned -> length got = length sched /\ Forall (fun o => o = None) after.
  Proof. destruct (drain_facts Hsafe Hlen E) as (_ & _ & _ & H & _). exact H. Qed.
  Lemma drain_unwound w : f = Unwound w -> exists a b, (a < b <= length before)%nat /\ left_between a b before after /\
    ((length got < length sched)%nat -> b = S a).
  Proof. destruct (drain_facts Hsafe Hlen E) as (_ & _ & _ & _ & H & _). apply H. Qed.
  Lemma drain_never_fails : fails_at_most from (length before) 0 u -> f = Returned.
  Proof. destruct (drain_facts Hsafe Hlen E) as (_ & _ & _ & _ & _ & H & _). exact H. Qed.
  Lemma drain_fails_once : fails_at_most from (length before) 1 u -> f <> Aborted.
  Proof. destruct (drain_facts Hsafe Hlen E) as (_ & _ & _ & _ & _ & _ & H). exact H. Qed.
End Parts.

(** ** The impls of the examples. *)
Lemma ordering_safe i : safe (from_ordinal Ordinal_Ordering i).
Proof. destruct i as [|[p|[p|p|]|]]; exact I. Qed.
Lemma fails_once_safe u i : safe (snd (fails_once u i)).
Proof. destruct u; [exact I|apply ordering_safe]. Qed.
Lemma no_zero_safe (u : unit) i : safe (snd (pure_from no_zero u i)).
Proof. unfold pure_from. cbn. destruct (i =? 0); [exact I|apply ordering_safe]. Qed.
Lemma ordering_some i : i < 3 -> exists k, from_ordinal Ordinal_Ordering i = Val (Some k).
Proof. intros H. destruct i as [|[p|[p|p|]|]]; try (eexists; reflexivity); lia. Qed.

Lemma ordering_never : fails_at_most (pure_from Ordinal_Ordering) 3 0 tt.
Proof.
  intros qs H. induction H as [|q qs Hq H IH]; [apply le_n|]. cbn [map answers]. unfold answer at 1, pure_from at 1.
  destruct (ordering_some Hq) as [k E]. rewrite E. cbn [bind].
  destruct (answers (pure_from Ordinal_Ordering) tt (map Some qs)) as [rs u]. exact IH.
Qed.
Lemma fails_once_later qs : Forall (fun q => q < N.of_nat 3) qs ->
  length (filter failed (fst (answers fails_once false (map Some qs)))) = 0%nat.
Proof.
  intros H. induction H as [|q qs Hq H IH]; [reflexivity|]. cbn [map answers]. unfold answer at 1, fails_once at 1.
  destruct (ordering_some Hq) as [k E]. rewrite E. cbn [bind]. destruct (answers fails_once false (map Some qs)) as [rs u]. exact IH.
Qed.
Lemma fails_once_at_most : fails_at_most fails_once 3 1 true.
Proof.
  intros [|q qs] H; [cbn; lia|]. inversion H as [|? ? _ Hq]; subst. cbn [map answers]. unfold answer at 1, fails_once at 1. cbn [bind].
  pose proof (fails_once_later Hq) as E. destruct (answers fails_once false (map Some qs)) as [rs u]. cbn [fst filter failed res_map bind length] in *. lia.
Qed.
