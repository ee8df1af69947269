(** * IterLib: generic lemmas about double-ended iteration. *)
From Verif Require Import Base Spec ModelValues BaseProofs.

Section Deque.
  Context {A : Type}.

  Lemma deque_front (x : A) l : deque_step Front (x :: l) = (Some x, l).
  Proof. reflexivity. Qed.
  Lemma deque_back (l : list A) x : deque_step Back (l ++ [x]) = (Some x, l).
  Proof. cbn [deque_step]. rewrite rev_unit, rev_involutive. reflexivity. Qed.
  Lemma deque_nil d : deque_step d (@nil A) = (None, []).
  Proof. destruct d; reflexivity. Qed.

  Lemma deque_run_cons d s (l : list A) :
    deque_run (d :: s) l =
    (fst (deque_step d l) :: fst (deque_run s (snd (deque_step d l))),
     snd (deque_run s (snd (deque_step d l)))).
  Proof. cbn [deque_run]. destruct (deque_step d l) as [o l']. cbn [fst snd].
    destruct (deque_run s l') as [os l'']. reflexivity. Qed.

  Lemma deque_run_app s1 s2 (l : list A) :
    deque_run (s1 ++ s2) l =
    (fst (deque_run s1 l) ++ fst (deque_run s2 (snd (deque_run s1 l))),
     snd (deque_run s2 (snd (deque_run s1 l)))).
  Proof.
    revert l. induction s1 as [|d s1 IH]; intros l.
    - cbn [app deque_run fst snd]. apply surjective_pairing.
    - cbn [app]. rewrite !deque_run_cons. cbn [fst snd app]. rewrite IH. reflexivity.
  Qed.

  (** What is left is always a contiguous part of the sequence. *)
  Lemma deque_run_infix s (l : list A) : exists a b, l = a ++ snd (deque_run s l) ++ b.
  Proof.
    revert l. induction s as [|d s IH]; intros l.
    - exists [], []. cbn. rewrite app_nil_r. reflexivity.
    - rewrite deque_run_cons. cbn [snd]. destruct (IH (snd (deque_step d l))) as (a & b & H).
      destruct d.
      + destruct l as [|x l]; cbn [deque_step snd] in *.
        * exists a, b. exact H.
        * exists (x :: a), b. cbn [app]. f_equal. exact H.
      + destruct l as [|x l] using rev_ind; [exists a, b; exact H|].
        rewrite deque_back in *. cbn [snd] in *. exists a, (b ++ [x]).
        rewrite H at 1. rewrite <- !app_assoc. reflexivity.
  Qed.

  (** The last element of [l]. *)
  Definition last_opt (l : list A) : option A := fst (deque_step Back l).

  Lemma pop_back_rev (l : list A) x : pop_back (l ++ [x]) = Some (x, l).
  Proof. induction l as [|y l IH]; [reflexivity|]. cbn [app pop_back]. rewrite IH. reflexivity. Qed.

  Lemma pop_back_deque (l : list A) :
    match pop_back l with
    | None => l = []
    | Some (x, r) => l = r ++ [x]
    end.
  Proof.
    destruct l as [|x l] using rev_ind; [reflexivity|]. rewrite pop_back_rev. reflexivity.
  Qed.
End Deque.

Section Drive.
  Context {St A : Type} (step : dir -> St -> res (option A * St)) (R : St -> list A -> Prop).

  (** One call hands out the corresponding end of the remaining sequence. *)
  Definition refines : Prop := forall d s l, R s l ->
    exists s', step d s = Val (fst (deque_step d l), s') /\ R s' (snd (deque_step d l)).

  Hypothesis Hstep : refines.

  Lemma drive_refines sched s l : R s l ->
    exists s', drive step sched s = Val (fst (deque_run sched l), s') /\ R s' (snd (deque_run sched l)).
  Proof.
    revert s l. induction sched as [|d sched IH]; intros s l H.
    - exists s. split; [reflexivity|exact H].
    - destruct (Hstep d H) as (s1 & E1 & H1). destruct (IH _ _ H1) as (s2 & E2 & H2).
      exists s2. rewrite deque_run_cons. cbn [fst snd drive]. rewrite E1. cbn [bind].
      rewrite E2. split; [reflexivity|exact H2].
  Qed.

  Lemma collect_refines fuel s l : R s l -> (length l < fuel)%nat ->
    exists s', collect (step Front) fuel s = Val (l, s') /\ R s' [].
  Proof.
    revert s l. induction fuel as [|fuel IH]; intros s l H Hf; [lia|].
    destruct (Hstep Front H) as (s1 & E1 & H1). cbn [collect]. rewrite E1. cbn [bind].
    destruct l as [|x l]; cbn [deque_step fst snd] in *.
    - exists s1. split; [reflexivity|exact H1].
    - destruct (IH _ _ H1) as (s2 & E2 & H2); [cbn in Hf; lia|].
      exists s2. rewrite E2. split; [reflexivity|exact H2].
  Qed.
End Drive.
