(** * StdProofs: the provided iterator methods (C66). *)
From Verif Require Import Base Spec SpecIter ModelValues ModelStd SpecStd BaseProofs IterLib.
From Coq Require Import List. Import ListNotations.
Unset Strict Implicit.

Lemma opt_rel_eq {A} (a b : option A) : opt_rel eq a b <-> a = b.
Proof. destruct a, b; cbn; split; congruence || tauto. Qed.

Lemma Forall2_opt_eq {A} (l1 l2 : list (option A)) : Forall2 (opt_rel eq) l1 l2 <-> l1 = l2.
Proof.
  split.
  - induction 1 as [|x y l1 l2 H _ IH]; [reflexivity|]. apply opt_rel_eq in H. congruence.
  - intros <-. induction l1; constructor; [now apply opt_rel_eq|assumption].
Qed.

Lemma double_ended_eq {St A} (step : dir -> St -> res (option A * St)) s l P :
  double_ended step s l P <-> double_ended_rel eq step s l P.
Proof.
  split; intros H sched.
  - destruct (H sched) as (s' & E & HP). exists (fst (deque_run sched l)), s'.
    split; [exact E|]. split; [now apply Forall2_opt_eq|exact HP].
  - destruct (H sched) as (got & s' & E & G & HP). apply Forall2_opt_eq in G as ->.
    exists s'. split; assumption.
Qed.

Section Ends.
  Context {cfg : Config} {St A B : Type} (rel : A -> B -> Prop) (step : dir -> St -> res (option A * St))
    (P : St -> list B -> Prop).

  Lemma de_step d s l : double_ended_rel rel step s l P ->
    exists o s', step d s = Val (o, s') /\ opt_rel rel o (fst (deque_step d l)) /\
      double_ended_rel rel step s' (snd (deque_step d l)) P.
  Proof.
    intros H. destruct (H [d]) as (got & s' & E & G & _).
    cbn [drive] in E. destruct (step d s) as [[o s1]| | | |] eqn:Es; try discriminate E.
    cbn [bind] in E. injection E as <- <-. exists o, s1. split; [reflexivity|].
    rewrite deque_run_cons in G. cbn [fst] in G. split; [now inversion G|].
    intros sched. destruct (H (d :: sched)) as (got & s' & E & G' & HP).
    rewrite deque_run_cons in G', HP. cbn [fst snd] in G', HP. cbn [drive] in E. rewrite Es in E. cbn [bind] in E.
    destruct (drive step sched s1) as [[os s2]| | | |]; try discriminate E. cbn [bind] in E. injection E as <- <-.
    exists os, s2. split; [reflexivity|]. inversion G'; subst. split; assumption.
  Qed.

  Lemma de_here s l : double_ended_rel rel step s l P -> P s l.
  Proof. intros H. destruct (H []) as (got & s' & E & _ & HP). cbn in E. injection E as _ <-. exact HP. Qed.

  Lemma de_build (R : St -> list B -> Prop) (HP : forall s l, R s l -> P s l)
      (Hstep : forall d s l, R s l -> exists o s', step d s = Val (o, s') /\
         opt_rel rel o (fst (deque_step d l)) /\ R s' (snd (deque_step d l))) s l :
    R s l -> double_ended_rel rel step s l P.
  Proof.
    intros H sched. revert s l H. induction sched as [|d sched IH]; intros s l H.
    - exists [], s. split; [reflexivity|]. split; [constructor|apply HP, H].
    - destruct (Hstep d s l H) as (o & s1 & E & Ho & H1). destruct (IH _ _ H1) as (got & s2 & E2 & G & H2).
      exists (o :: got), s2. rewrite deque_run_cons. cbn [fst snd drive]. rewrite E. cbn [bind]. rewrite E2.
      split; [reflexivity|]. split; [constructor; assumption|exact H2].
  Qed.
End Ends.

(** One end of the iterator only. *)
Section OneEnd.
  Context {cfg : Config} {St A B : Type} (rel : A -> B -> Prop) (next : St -> res (option A * St))
    (Q : St -> list B -> Prop).
  Hypothesis Hnext : forall s l, Q s l ->
    exists o s', next s = Val (o, s') /\ opt_rel rel o (hd_error l) /\ Q s' (tl l).

  Lemma nth_end n s l : Q s l ->
    exists o s', it_nth next n s = Val (o, s') /\ opt_rel rel o (nth_error l n) /\ Q s' (skipn (S n) l).
  Proof.
    revert s l. induction n as [|n IH]; intros s l H; destruct (Hnext H) as (o & s1 & E & Ho & H1);
      cbn [it_nth]; rewrite E; cbn [bind].
    - exists o, s1. destruct l as [|y l]; cbn in *; destruct o; try contradiction; repeat split; auto.
    - destruct l as [|y l]; cbn [hd_error] in Ho; destruct o as [a|]; try contradiction.
      + exists None, s1. repeat split. exact H1.
      + destruct (IH _ _ H1) as (o & s2 & E2 & Ho2 & H2). exists o, s2. split; [exact E2|]. split; [exact Ho2|exact H2].
  Qed.

  Lemma fold_end {C} (f : C -> A -> C) fuel c s l : Q s l -> (length l < fuel)%nat ->
    exists got, Forall2 rel got l /\ it_fold next f fuel c s = Val (fold_left f got c).
  Proof.
    revert c s l. induction fuel as [|fuel IH]; intros c s l H Hf; [lia|].
    destruct (Hnext H) as (o & s1 & E & Ho & H1). cbn [it_fold]. rewrite E. cbn [bind].
    destruct l as [|y l]; destruct o as [a|]; cbn in Ho; try contradiction.
    - exists []. split; constructor.
    - destruct (IH (f c a) _ _ H1) as (got & G & E2); [cbn in *; lia|].
      exists (a :: got). split; [constructor; assumption|exact E2].
  Qed.

  Lemma collect_end fuel s l : Q s l -> (length l < fuel)%nat ->
    exists got s', collect next fuel s = Val (got, s') /\ Forall2 rel got l.
  Proof.
    revert s l. induction fuel as [|fuel IH]; intros s l H Hf; [lia|].
    destruct (Hnext H) as (o & s1 & E & Ho & H1). cbn [collect]. rewrite E. cbn [bind].
    destruct l as [|y l]; destruct o as [a|]; cbn in Ho; try contradiction.
    - exists [], s1. split; constructor.
    - destruct (IH _ _ H1) as (got & s2 & E2 & G); [cbn in *; lia|].
      exists (a :: got), s2. rewrite E2. split; [reflexivity|constructor; assumption].
  Qed.

  Lemma search_end p fuel i s l : Q s l -> (length l < fuel)%nat ->
    exists found s' rest, it_search next p fuel i s = Val (opt_map (fun x => (i + fst x, snd x)%nat) found, s') /\
      search_ok rel p l found rest /\ Q s' rest.
  Proof.
    revert i s l. induction fuel as [|fuel IH]; intros i s l H Hf; [lia|].
    destruct (Hnext H) as (o & s1 & E & Ho & H1). cbn [it_search]. rewrite E. cbn [bind].
    destruct l as [|y l]; destruct o as [a|]; cbn in Ho; try contradiction.
    - exists None, s1, []. split; [reflexivity|]. split; [|exact H1]. split; [reflexivity|]. exists []. split; constructor.
    - destruct (p a) eqn:Ep.
      + exists (Some (0%nat, a)), s1, l. cbn [opt_map fst snd]. rewrite Nat.add_0_r. split; [reflexivity|].
        split; [|exact H1]. exists [], [], y. repeat split; auto.
      + destruct (IH (S i) _ _ H1) as (found & s2 & rest & E2 & Hs & H2); [cbn in *; lia|].
        cbn [tl] in Hs. destruct found as [[j x]|].
        * exists (Some (S j, x)), s2, rest. rewrite E2. cbn [opt_map fst snd]. rewrite Nat.add_succ_comm. split; [reflexivity|].
          split; [|exact H2]. destruct Hs as (got & before & z & -> & <- & G & Hn & Hx & Hp).
          exists (a :: got), (y :: before), z. repeat split; auto. cbn [forallb]. rewrite Ep. exact Hn.
        * exists None, s2, rest. rewrite E2. split; [reflexivity|]. split; [|exact H2].
          destruct Hs as (-> & got & G & Hn). split; [reflexivity|]. exists (a :: got). split; [constructor; assumption|].
          cbn [forallb]. rewrite Ep. exact Hn.
  Qed.
End OneEnd.

Lemma search_ext {St A} (next : St -> res (option A * St)) p q (Hpq : forall a, p a = q a) fuel i s :
  it_search next p fuel i s = it_search next q fuel i s.
Proof.
  revert i s. induction fuel as [|fuel IH]; intros i s; [reflexivity|]. cbn [it_search].
  destruct (next s) as [[[a|] s1]| | | |]; try reflexivity. cbn [bind]. rewrite Hpq.
  destruct (q a); [reflexivity|apply IH].
Qed.

Lemma fold_last {A} (l : list A) (o : option A) :
  fold_left (fun _ a => Some a) l o = match rev l with [] => o | x :: _ => Some x end.
Proof.
  destruct l as [|x l] using rev_ind; [reflexivity|]. rewrite fold_left_app, rev_unit. reflexivity.
Qed.

Lemma fold_count {cfg : Config} {A} (l : list A) (k : N) : k + llen l <= usize_max ->
  fold_left (fun c (_ : A) => n <- c ;; uadd n 1) l (Val k) = Val (k + llen l).
Proof.
  revert k. induction l as [|x l IH]; intros k H; unfold llen in *; cbn [length fold_left] in *.
  - now rewrite N.add_0_r.
  - cbn [bind]. assert (E : uadd k 1 = Val (k + 1)).
    { unfold uadd, usize_rt.
      replace ((0 <=? Z.of_N k + Z.of_N 1) && (Z.of_N k + Z.of_N 1 <=? Z.of_N usize_max))%Z with true by (symmetry; lia).
      f_equal. lia. }
    rewrite E, IH by lia. f_equal. lia.
Qed.

Lemma Forall2_rev {A B} (rel : A -> B -> Prop) l1 l2 : Forall2 rel l1 l2 -> Forall2 rel (rev l1) (rev l2).
Proof.
  induction 1; [constructor|]. cbn [rev]. apply Forall2_app; [assumption|repeat constructor; assumption].
Qed.

Lemma deque_back_rev {A} (l : list A) : fst (deque_step Back l) = hd_error (rev l) /\
  rev (snd (deque_step Back l)) = tl (rev l).
Proof. cbn [deque_step]. destruct (rev l) as [|x r]; [split; reflexivity|]. cbn [fst snd]. now rewrite rev_involutive. Qed.

Theorem provided_methods_ok {cfg : Config} {St A B : Type} (rel : A -> B -> Prop)
    (step : dir -> St -> res (option A * St)) (s : St) (l : list B) (P : St -> list B -> Prop) :
  double_ended_rel rel step s l P -> provided_methods rel step s l P.
Proof.
  intros H. set (R := fun s l => double_ended_rel rel step s l P).
  assert (HF : forall s l, R s l -> exists o s', step Front s = Val (o, s') /\ opt_rel rel o (hd_error l) /\ R s' (tl l)).
  { intros s0 l0 H0. destruct (de_step Front H0) as (o & s' & E & Ho & H'). exists o, s'.
    destruct l0; repeat split; assumption. }
  set (Q := fun s l => R s (rev l)).
  assert (HB : forall s l, Q s l -> exists o s', step Back s = Val (o, s') /\ opt_rel rel o (hd_error l) /\ Q s' (tl l)).
  { intros s0 l0 H0. destruct (de_step Back H0) as (o & s' & E & Ho & H'). exists o, s'.
    destruct (deque_back_rev (rev l0)) as [E1 E2]. rewrite rev_involutive in E1, E2.
    rewrite E1 in Ho. repeat split; try assumption. unfold Q, R. rewrite <- E2, rev_involutive. exact H'. }
  assert (H' : Q s (rev l)) by (unfold Q; rewrite rev_involutive; exact H).
  assert (Hfuel : forall fuel, (length l < fuel)%nat -> (length (rev l) < fuel)%nat) by (intros; rewrite rev_length; assumption).
  assert (HR : double_ended_rel rel (rev_step step) s (rev l) (fun s r => P s (rev r))).
  { apply (de_build (R := Q)); [intros s0 l0; apply de_here| |exact H'].
    intros d s0 l0 H0. destruct d; cbn [rev_step].
    - destruct (HB _ _ H0) as (o & s' & E & Ho & H1). exists o, s'. destruct l0; repeat split; assumption.
    - destruct (HF _ _ H0) as (o & s' & E & Ho & H1). exists o, s'. split; [exact E|].
      destruct (deque_back_rev l0) as [E1 E2]. rewrite E1. split; [exact Ho|]. unfold Q. rewrite E2. exact H1. }
  constructor.
  - intros n. exact (nth_end HF n H).
  - intros n. exact (nth_end HB n H').
  - intros C f c fuel Hl. exact (fold_end HF f c H Hl).
  - intros C f c fuel Hl. exact (fold_end HB f c H' (Hfuel _ Hl)).
  - intros fuel Hl. destruct (fold_end HF (fun _ a => Some a) None H Hl) as (got & G & E).
    unfold it_last. rewrite E, fold_last. eexists. split; [reflexivity|].
    apply Forall2_rev in G. destruct G; cbn; auto.
  - intros fuel Hl Hm. unfold it_count.
    destruct (fold_end HF (fun c _ => n <- c ;; uadd n 1) (Val 0) H Hl) as (got & G & E).
    assert (EL : llen got = llen l) by (unfold llen; f_equal; eapply Forall2_length; exact G).
    rewrite E. cbn [bind]. rewrite fold_count; rewrite EL, ?N.add_0_l; auto.
  - intros p fuel Hl. destruct (search_end HF p 0 H Hl) as (found & s' & rest & E & Hs & H1).
    assert (E' : it_search (step Front) p fuel 0 s = Val (found, s')).
    { rewrite E. destruct found as [[i x]|]; reflexivity. }
    exists found, s', rest. unfold it_find, it_position, it_any, it_all.
    rewrite (search_ext _ (p := fun a => negb (negb (p a))) (q := p)) by (intros; apply negb_involutive).
    rewrite E'. cbn [bind]. repeat split; assumption.
  - intros p fuel Hl. destruct (search_end HB p 0 H' (Hfuel _ Hl)) as (found & s' & rest & E & Hs & H1).
    exists found, s', rest. unfold it_find. rewrite E. cbn [bind]. split; [|split; assumption].
    destruct found as [[i x]|]; reflexivity.
  - exact HR.
  - exists (S (length l)). eapply (collect_end HF); [exact H|lia].
  - exists (S (length (rev l))). eapply (collect_end (next := rev_step step Front) HB); [exact H'|lia].
Qed.

Corollary provided_methods_eq {cfg : Config} {St A : Type} (step : dir -> St -> res (option A * St))
    (s : St) (l : list A) (P : St -> list A -> Prop) :
  double_ended step s l P -> provided_methods eq step s l P.
Proof. intros H. apply provided_methods_ok, double_ended_eq, H. Qed.
