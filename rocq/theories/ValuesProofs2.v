(** * ValuesProofs2: OrdinalValues over an arbitrary impl (C65). *)
From Verif Require Import Base Spec SpecValues ModelValues BaseProofs IterLib.
From Coq Require Import String List.
Import ListNotations.
Unset Strict Implicit.

Section Any.
  Context {cfg : Config} {T : Type} (O : Ordinal T).

  Definition between (s : OrdinalValues) (l : list N) : Prop :=
    l = map N.of_nat (seq (N.to_nat (r_start s)) (List.length l)) /\ range_len s = llen l.

  Lemma decode_unwrap i s : (r <- from_ordinal O i ;; t <- unwrap r ;; Val (Some t, s)) =
    (x <- decode_opt O (Some i) ;; Val (x, s : OrdinalValues)).
  Proof. unfold decode_opt, decode. destruct (from_ordinal O i) as [[t|]| | | |]; reflexivity. Qed.

  Lemma any_step d s l : between s l -> exists s',
    values_step O d s = (x <- decode_opt O (fst (deque_step d l)) ;; Val (x, s')) /\
    between s' (snd (deque_step d l)).
  Proof.
    intros [H1 H2]. unfold range_len, llen in H2. destruct d; cbn [values_step].
    - unfold values_next, range_next. destruct l as [|i l]; cbn [List.length] in *.
      + destruct (N.ltb_spec (r_start s) (r_end s)); [lia|]. exists s. split; [reflexivity|].
        split; [reflexivity|]. unfold range_len, llen. cbn [List.length snd deque_step]. lia.
      + destruct (N.ltb_spec (r_start s) (r_end s)); [|lia].
        cbn [seq map] in H1. injection H1 as Hi Hl. rewrite N2Nat.id in Hi. subst i.
        cbn [deque_step fst snd]. eexists. split; [apply decode_unwrap|].
        split; unfold range_len, llen; cbn [r_start r_end]; [|lia].
        rewrite N.add_1_r, N2Nat.inj_succ. exact Hl.
    - unfold values_next_back, range_next_back. destruct l as [|i l] using rev_ind.
      + cbn [List.length] in *. destruct (N.ltb_spec (r_start s) (r_end s)); [lia|]. exists s. split; [reflexivity|].
        split; [reflexivity|]. unfold range_len, llen. cbn. lia.
      + clear IHl. rewrite deque_back. cbn [fst snd]. rewrite app_length in *. cbn [List.length] in *.
        destruct (N.ltb_spec (r_start s) (r_end s)); [|lia].
        rewrite Nat.add_1_r, seq_S, map_app in H1. cbn [map] in H1.
        apply app_inj_tail in H1 as [Hl Hi]. replace (r_end s - 1) with i by lia.
        eexists. split; [apply decode_unwrap|]. split; unfold range_len, llen; cbn [r_start r_end]; [exact Hl|lia].
  Qed.

  Lemma any_drive sched s l : between s l -> exists s',
    drive (values_step O) sched s = (os <- decode_each O (fst (deque_run sched l)) ;; Val (os, s')) /\
    between s' (snd (deque_run sched l)).
  Proof.
    revert s l. induction sched as [|d sched IH]; intros s l H.
    - exists s. split; [reflexivity|exact H].
    - destruct (any_step d H) as (s1 & E1 & H1). destruct (IH _ _ H1) as (s2 & E2 & H2).
      exists s2. rewrite deque_run_cons. cbn [fst snd drive decode_each]. split; [|exact H2]. rewrite E1.
      destruct (decode_opt O (fst (deque_step d l))); cbn [bind]; try reflexivity.
      rewrite E2. destruct (decode_each O _); reflexivity.
  Qed.

  Theorem any_values n : ORDINAL_SIZE O = Val n -> exists s, values_new O = Val s /\
    forall sched, exists s',
      drive (values_step O) sched s = (os <- decode_each O (fst (deque_run sched (ordinals n))) ;; Val (os, s')) /\
      let rest := snd (deque_run sched (ordinals n)) in
      values_len s' = llen rest /\ values_size_hint s' = (llen rest, Some (llen rest)) /\ values_count s' = llen rest /\
      values_last O s' = decode_opt O (fst (deque_step Back rest)) /\ values_clone s' = s'.
  Proof.
    intros Hn. unfold values_new. rewrite Hn. cbn [bind]. eexists. split; [reflexivity|]. intros sched.
    assert (H0 : between {| r_start := 0; r_end := n |} (ordinals n)).
    { split; unfold ordinals, range_len, llen; cbn [r_start r_end]; rewrite map_length, seq_length; [reflexivity|lia]. }
    destruct (any_drive sched H0) as (s' & E & H). exists s'. split; [exact E|]. cbv zeta.
    pose proof (proj2 H) as Hl. unfold values_len, values_size_hint, values_count. rewrite Hl.
    repeat (split; [reflexivity|]). split; [|destruct s'; reflexivity].
    destruct (any_step Back H) as (s2 & E2 & _). cbn [values_step] in E2. unfold values_last. rewrite E2.
    destruct (decode_opt O _); reflexivity.
  Qed.

End Any.
