(** * ResumeCases: the wrong impls of PropResume.v. *)
From Verif Require Import Base Spec SpecResume ModelOrdinal ModelValues ModelIter ModelResume.
From Coq Require Import List. Import ListNotations.

(** An impl for [Ordering] that panics for ordinal 0 and is right otherwise, and one that
    panics in the first call only. *)
Definition no_zero : Ordinal comparison := {|
  ORDINAL_SIZE := Val 3; ordinal := ordinal Ordinal_Ordering;
  from_ordinal := fun i => if i =? 0 then Panic PUser else from_ordinal Ordinal_Ordering i |}.
Definition fails_once (first : bool) (i : N) : bool * res (option comparison) :=
  (false, if first then Panic PUser else from_ordinal Ordinal_Ordering i).


Lemma pairs_refuted : forall cfg : Config,
  exists r, In r (fst (run_caught (enumerate_resume (pure_from no_zero)) [Front; Back] (tt, enumerate_new [10; 20; 30] 0))) /\
    ~ pair_right no_zero [10; 20; 30] r.
Proof.
  intros cfg. exists (Val (Some (Eq, 30))). split.
  - destruct cfg as [[] [] []]; vm_compute; right; left; reflexivity.
  - intros H. destruct (H Eq 30 eq_refl) as (i & H1 & H2). vm_compute in H1. inversion H1. subst i. discriminate.
Qed.
Lemma sparse_pairs_refuted : forall cfg : Config,
  exists r, In r (fst (run_caught (sparse_resume_step fails_once) [Front; Front]
                    (true, enumerate_new [Some 10; Some 20; None] 0))) /\
    ~ some_right Ordinal_Ordering [Some 10; Some 20; None] r.
Proof.
  intros cfg. exists (Val (Some (Lt, 20))). split.
  - destruct cfg as [[] [] []]; vm_compute; right; left; reflexivity.
  - intros H. destruct (H Lt 20 eq_refl) as (i & H1 & H2). vm_compute in H1. inversion H1. subst i. discriminate.
Qed.
Lemma fails_once_right u i u' k : fails_once u i = (u', Val (Some k)) -> ordinal Ordinal_Ordering k = Val i.
Proof.
  unfold fails_once. destruct u; intros H; inversion H as [[H1 H2]]. clear H H1. revert H2.
  cbn [from_ordinal Ordinal_Ordering].
  destruct i as [|[p|[p|p|]|]]; intros E; inversion E; reflexivity.
Qed.
Lemma drain_refuted : forall cfg : Config, exists (outcomes : list (res (option (comparison * N)))) st,
  run_caught (drain_resume_step fails_once) [Front; Front; Front; Front] (true, ([Some 10; Some 20; Some 30], {| e_next := 0; e_items := [0; 1; 2] |}))
    = (outcomes, st) /\
  outcomes = [Panic PUser; Val (Some (Lt, 20)); Val (Some (Eq, 30)); Val None] /\
  fst (snd st) = [Some 10; None; None].
Proof. intros [[] [] []]; eexists; eexists; (split; [vm_compute; reflexivity|split; reflexivity]). Qed.
