(** * SetAllocProofs: lemmas for C75 (PropSetAlloc.v). *)
From Verif Require Import Base Spec SpecSet ModelOrdinal ModelValues ModelArrayBuilder ModelSet SetMachine
  BaseProofs FoldProofs MapLib SetProofs.
From Coq Require Import List. Import ListNotations.
Set Implicit Arguments. Unset Strict Implicit.

Section Alloc.
  Context {cfg : Config} {T : Type} (O : Ordinal T) (n : N).
  Hypothesis Hn : ORDINAL_SIZE O = Val n.

  (** What the storage looks like: [filled] tells whether anything was inserted. *)
  Definition storage (filled : bool) (s : OrdinalSet) : Prop :=
    match s with
    | Small _ => n <= 64
    | Large ws => 64 < n /\ llen ws = if filled then (n + 63) / 64 else 0
    end.

  Lemma is_small : IS_SMALL O = Val (n <=? 64).
  Proof. unfold IS_SMALL. now rewrite Hn. Qed.

  Lemma new_storage s : OrdinalSet_new O = Val s -> storage false s.
  Proof.
    unfold OrdinalSet_new. rewrite is_small. cbn [bind]. intros H. apply Val_inj in H. subst s.
    destruct (N.leb_spec n 64); cbn; auto.
  Qed.

  Lemma mut_insert_length ws t b ws' : OrdinalSetMut_insert O ws t = Val (b, ws') -> llen ws' = llen ws.
  Proof.
    unfold OrdinalSetMut_insert. intros H.
    repeat (apply bind_inv in H; destruct H as (? & _ & H)). apply Val_inj in H. injection H as _ <-.
    unfold llen. now rewrite store_at_length.
  Qed.
  Lemma mut_new_same ws ws' : OrdinalSetMut_new O ws = Val ws' -> ws' = ws.
  Proof.
    unfold OrdinalSetMut_new. intros H. repeat (apply bind_inv in H; destruct H as (? & _ & H)).
    apply Val_inj in H. congruence.
  Qed.

  Lemma insert_storage f s t b s' : storage f s -> OrdinalSet_insert O s t = Val (b, s') -> storage true s'.
  Proof.
    unfold OrdinalSet_insert. rewrite is_small. cbn [bind]. intros Hs H.
    destruct (N.leb_spec n 64) as [L|L], s as [w|ws]; try discriminate H.
    - apply bind_inv in H. destruct H as (ws & _ & H). apply bind_inv in H. destruct H as ([r ws'] & _ & H).
      destruct ws' as [|w' [|? ?]]; try discriminate H. apply Val_inj in H. injection H as _ <-. exact L.
    - cbn [storage] in Hs. destruct Hs as [_ Hl].
      apply bind_inv in H. destruct H as (ws1 & H1 & H). apply bind_inv in H. destruct H as (ws2 & H2 & H).
      apply bind_inv in H. destruct H as ([r ws'] & H3 & H). apply Val_inj in H. injection H as _ <-.
      split; [exact L|]. rewrite (mut_insert_length H3), (mut_new_same H2).
      destruct (N.eqb_spec (llen ws) 0) as [E|E].
      + rewrite Hn in H1. cbn [bind] in H1. unfold checked_add in H1.
        destruct (N.leb_spec (n + 64) usize_max) as [M|M]; [|discriminate H1]. cbn [unwrap bind] in H1.
        rewrite usub_ok in H1 by lia. cbn [bind] in H1.
        unfold udiv in H1. cbn [N.eqb bind] in H1. apply Val_inj in H1. subst ws1.
        unfold llen. rewrite repeat_length, N2Nat.id. f_equal. lia.
      + apply Val_inj in H1. subst ws1. destruct f; [exact Hl|lia].
  Qed.

  Lemma insert_all_storage l : forall f s s', storage f s -> OrdinalSet_insert_all O l s = Val s' ->
    storage (match l with [] => f | _ => true end) s'.
  Proof.
    induction l as [|t l IH]; intros f s s' Hs H; cbn [OrdinalSet_insert_all] in H.
    - apply Val_inj in H. now subst.
    - apply bind_inv in H. destruct H as ([b s1] & H1 & H). pose proof (insert_storage Hs H1) as S1.
      specialize (IH _ _ _ S1 H). now destruct l.
  Qed.

  Lemma step_storage op f s o s' : storage f s -> set_step O op s = Val (o, s') -> storage (fills op f) s'.
  Proof.
    intros Hs H. destruct op as [t|t|sched|l| |]; cbn [set_step fills] in *.
    - apply bind_inv in H. destruct H as ([b s1] & H1 & H). apply Val_inj in H. injection H as _ <-. exact (insert_storage Hs H1).
    - apply bind_inv in H. destruct H as (b & _ & H). apply Val_inj in H. injection H as _ <-. exact Hs.
    - apply bind_inv in H. destruct H as (it & _ & H). apply bind_inv in H. destruct H as ([g x] & _ & H).
      apply Val_inj in H. injection H as _ <-. exact Hs.
    - apply bind_inv in H. destruct H as (s1 & H1 & H). apply Val_inj in H. injection H as _ <-.
      unfold OrdinalSet_from_iter in H1. apply bind_inv in H1. destruct H1 as (s0 & H0 & H1).
      pose proof (insert_all_storage (new_storage H0) H1). now destruct l.
    - apply Val_inj in H. injection H as _ <-. now destruct s.
    - apply bind_inv in H. destruct H as (b & _ & H). apply Val_inj in H. injection H as _ <-. exact Hs.
  Qed.

  Lemma run_storage ops : forall f s outs s', storage f s -> set_run O ops s = Val (outs, s') ->
    storage (fold_left (fun f op => fills op f) ops f) s'.
  Proof.
    induction ops as [|op ops IH]; intros f s outs s' Hs H; cbn in H.
    - apply Val_inj in H. injection H as _ <-. exact Hs.
    - apply bind_inv in H. destruct H as ([o s1] & H1 & H). apply bind_inv in H. destruct H as ([os s2] & H2 & H).
      apply Val_inj in H. injection H as _ <-. exact (IH _ _ _ _ (step_storage Hs H1) H2).
  Qed.

  Lemma alloc_law ops s0 outs s : OrdinalSet_new O = Val s0 -> set_run O ops s0 = Val (outs, s) ->
    (n <= 64 -> exists w, s = Small w) /\
    (64 < n -> exists ws, s = Large ws /\ if filled ops then n <= 64 * llen ws < n + 64 else ws = []).
  Proof.
    intros H0 H. pose proof (run_storage (new_storage H0) H) as S. unfold filled. destruct s as [w|ws]; cbn in S.
    - split; [eauto|lia].
    - split; [lia|]. intros _. exists ws. split; [reflexivity|]. destruct S as [_ S].
      destruct (fold_left (fun b op => fills op b) ops false); [|now apply length_zero_iff_nil; unfold llen in S; lia].
      rewrite S. pose proof (N.div_mod' (n + 63) 64) as H1. pose proof (N.mod_lt (n + 63) 64) as H2. lia.
  Qed.
End Alloc.
