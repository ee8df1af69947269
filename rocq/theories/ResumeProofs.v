(** * ResumeProofs: proofs about iterators after a caught panic. *)
From Verif Require Import Base BaseProofs Spec SpecValues SpecResume ModelOrdinal ModelValues ModelIter ModelSet ModelResume BitProofs.
From Coq Require Import List Lia. Import ListNotations.
Set Implicit Arguments.
Unset Strict Implicit.

Section Generic.
  Context {cfg : Config} {U T : Type} (from : U -> N -> U * res (option T)).

  Lemma ask_answer u i : ask from u i = answer from u i.
  Proof. unfold ask, answer. destruct (from u i) as [u' [[t|]|w| | |]]; reflexivity. Qed.

  Lemma caught_answers {St} (step : dir -> U * St -> (U * St) * res (option T)) (rel : St -> list N -> Prop) :
    (forall d u s l, rel s l ->
       match deque_step d l with
       | (None, _) => step d (u, s) = ((u, s), Val None)
       | (Some i, l') => exists s', rel s' l' /\
           step d (u, s) = ((fst (answer from u i), s'), res_map Some (snd (answer from u i)))
       end) ->
    forall sched u s l, rel s l ->
      exists s', rel s' (snd (deque_run sched l)) /\
        run_caught step sched (u, s) =
          (fst (answers from u (fst (deque_run sched l))), (snd (answers from u (fst (deque_run sched l))), s')).
  Proof.
    intros Hs. induction sched as [|d ds IH]; intros u s l Hl.
    - exists s. split; [exact Hl|reflexivity].
    - specialize (Hs d u s l Hl). cbn [deque_run run_caught].
      destruct (deque_step d l) as [[i|] l'] eqn:E.
      + destruct Hs as (s1 & H1 & H2). rewrite H2.
        destruct (IH (fst (answer from u i)) s1 l' H1) as (s2 & H3 & H4). rewrite H4.
        destruct (deque_run ds l') as [os l2]. cbn [fst snd answers] in *.
        destruct (answer from u i) as [u1 t]. cbn [fst snd].
        destruct (answers from u1 os) as [rs u2]. exists s2. now split.
      + assert (l' = l) as ->.
        { destruct d; cbn in E; [destruct l; now inversion E|].
          destruct (rev l) eqn:Er; inversion E. apply (f_equal (@rev N)) in Er. now rewrite rev_involutive in Er. }
        rewrite Hs. destruct (IH u s l Hl) as (s2 & H3 & H4). rewrite H4.
        destruct (deque_run ds l) as [os l2]. cbn [fst snd answers] in *.
        destruct (answers from u os) as [rs u2]. exists s2. now split.
  Qed.

  Lemma deque_back_app {A} (l : list A) x : deque_step Back (l ++ [x]) = (Some x, l).
  Proof. unfold deque_step. rewrite rev_app_distr. cbn [rev app]. now rewrite rev_involutive. Qed.

  (** ** all_values *)
  Definition rng (s : OrdinalValues) (l : list N) : Prop :=
    exists a k, r_start s = N.of_nat a /\ r_end s = N.of_nat (a + k) /\ l = map N.of_nat (seq a k).

  Lemma values_caught_step d u s l : rng s l ->
    match deque_step d l with
    | (None, _) => values_resume from d (u, s) = ((u, s), Val None)
    | (Some i, l') => exists s', rng s' l' /\
        values_resume from d (u, s) = ((fst (answer from u i), s'), res_map Some (snd (answer from u i)))
    end.
  Proof.
    intros (a & k & H1 & H2 & ->). destruct k as [|k].
    - assert (E : r_start s <? r_end s = false) by lia.
      destruct d; cbn [seq map deque_step rev values_resume]; unfold range_next, range_next_back; now rewrite E.
    - assert (E : r_start s <? r_end s = true) by lia.
      destruct d.
      + cbn [seq map deque_step]. eexists. split; [|cbn [values_resume]; unfold range_next; rewrite E, ask_answer, H1;
          destruct (answer from u (N.of_nat a)); reflexivity].
        exists (S a), k. cbn. repeat split; lia.
      + rewrite seq_S, map_app. cbn [map]. rewrite deque_back_app.
        eexists. split; [|cbn [values_resume]; unfold range_next_back; rewrite E, ask_answer;
          replace (r_end s - 1) with (N.of_nat (a + k)) by lia;
          destruct (answer from u (N.of_nat (a + k))); reflexivity].
        exists a, k. cbn. repeat split; lia.
  Qed.

  Lemma values_caught (n : N) sched u :
    exists s', run_caught (values_resume from) sched (u, {| r_start := 0; r_end := n |}) =
      (fst (answers from u (fst (deque_run sched (ordinals n)))),
       (snd (answers from u (fst (deque_run sched (ordinals n)))), s')) /\
      values_len s' = llen (snd (deque_run sched (ordinals n))).
  Proof.
    destruct (caught_answers values_caught_step sched u (s := {| r_start := 0; r_end := n |}) (l := ordinals n))
      as (s' & (a & k & H1 & H2 & H3) & H4).
    - exists 0%nat, (N.to_nat n). cbn. repeat split. lia.
    - exists s'. split; [exact H4|]. rewrite H3. unfold values_len, range_len, llen.
      rewrite map_length, seq_length. lia.
  Qed.

  (** ** Iter64 *)
  Definition word (w : N) (l : list N) : Prop := (forall k, N.testbit w k = true -> k < 64) /\ l = bits w.

  Lemma shl_one i : i < 64 -> u64_shl 1 i = Val (2 ^ i).
  Proof.
    intros H. unfold u64_shl. replace (i <? 64) with true by lia. f_equal. rewrite N.shiftl_1_l.
    apply N.bits_inj. intros j. rewrite N.land_spec, u64_max_bit, N.pow2_bits_eqb.
    destruct (i =? j) eqn:E; [|reflexivity]. cbn. apply N.eqb_eq in E. subst. now apply N.ltb_lt.
  Qed.

  Lemma iter64_caught_step d u s l : word s l ->
    match deque_step d l with
    | (None, _) => iter64_resume from d (u, s) = ((u, s), Val None)
    | (Some i, l') => exists s', word s' l' /\
        iter64_resume from d (u, s) = ((fst (answer from u i), s'), res_map Some (snd (answer from u i)))
    end.
  Proof.
    intros (Hb & ->).
    assert (Hclr : forall i, i < 64 -> forall k, N.testbit (N.land s (u64_not (2 ^ i))) k = true -> k < 64).
    { intros i Hi k Hk. rewrite clear_bit in Hk by assumption. apply andb_prop in Hk. now apply Hb. }
    destruct d.
    - pose proof (trailing_zeros_bits Hb) as Ht. cbn [iter64_resume].
      destruct (trailing_zeros s =? 64) eqn:E.
      + rewrite Ht. reflexivity.
      + destruct Ht as [Hlt Ht]. rewrite Ht. cbn [deque_step]. rewrite shl_one, ask_answer by exact Hlt.
        destruct (answer from u (trailing_zeros s)) as [u' r]. eexists. split; [|reflexivity].
        split; [now apply Hclr|reflexivity].
    - pose proof (leading_zeros_bits Hb) as Ht. cbn [iter64_resume].
      destruct (checked_sub (64 - 1) (leading_zeros s)) as [i|].
      + destruct Ht as [Hlt Ht]. rewrite Ht. rewrite deque_back_app. rewrite shl_one, ask_answer by exact Hlt.
        destruct (answer from u i) as [u' r]. eexists. split; [|reflexivity].
        split; [now apply Hclr|reflexivity].
      + rewrite Ht. reflexivity.
  Qed.

  Lemma iter64_caught (w : N) sched u : w < 2 ^ 64 ->
    let l := filter (N.testbit w) (ordinals 64) in
    exists s', run_caught (iter64_resume from) sched (u, w) =
      (fst (answers from u (fst (deque_run sched l))), (snd (answers from u (fst (deque_run sched l))), s')).
  Proof.
    intros Hw. cbv zeta.
    assert (Hl : filter (N.testbit w) (ordinals 64) = bits w).
    { unfold bits. f_equal. }
    rewrite Hl. clear Hl.
    assert (Hb : forall k, N.testbit w k = true -> k < 64).
    { intros k Hk. destruct (N.lt_ge_cases k 64) as [|Hge]; [assumption|].
      destruct (N.eq_dec w 0) as [->|Hz]; [now rewrite N.bits_0 in Hk|].
      rewrite N.bits_above_log2 in Hk; [discriminate|].
      apply N.lt_le_trans with 64; [|exact Hge]. apply N.log2_lt_pow2; lia. }
    destruct (caught_answers iter64_caught_step sched u (s := w) (l := bits w)) as (s' & _ & H).
    - now split.
    - exists s'. exact H.
  Qed.
End Generic.

Lemma pop_back_snoc {B} (l : list B) x : pop_back (l ++ [x]) = Some (x, l).
Proof. induction l as [|y l IH]; [reflexivity|]. cbn. now rewrite IH. Qed.
Lemma uadd_small {cfg : Config} a b : a + b <= usize_max -> uadd a b = Val (a + b).
Proof. intros H. unfold uadd, usize_rt. destruct (_ && _)%bool eqn:E; [f_equal; lia|lia]. Qed.

Section Enumerate.
  Context {cfg : Config} {U T A : Type} (from : U -> N -> U * res (option T)).

  Definition at_pos (p : nat) (items : list A) : list (N * A) := combine (map N.of_nat (seq p (length items))) items.
  Lemma at_pos_snoc p items x : at_pos p (items ++ [x]) = at_pos p items ++ [(N.of_nat (p + length items), x)].
  Proof.
    revert p. induction items as [|y r IH]; intros p.
    - cbn. now rewrite Nat.add_0_r.
    - unfold at_pos in *. cbn. f_equal. rewrite IH. now rewrite Nat.add_succ_r.
  Qed.

  Lemma enumerate_caught_from sched : forall u s p lag,
    e_next s + lag = N.of_nat p -> e_next s + llen (e_items s) <= usize_max ->
    fst (run_caught (enumerate_resume from) sched (u, s)) =
      lagging from lag u (combine sched (fst (deque_run sched (at_pos p (e_items s))))).
  Proof.
    induction sched as [|d ds IH]; intros u s p lag H1 H2; [reflexivity|].
    destruct s as [next items]. cbn [e_next e_items] in *. unfold llen in H2.
    destruct d.
    - destruct items as [|x r].
      + cbn [deque_run run_caught enumerate_resume enumerate_resume_next pop_front e_items at_pos length seq map combine deque_step].
        specialize (IH u (Build_enumerate next []) p lag H1 H2). cbn [e_items] in IH. unfold at_pos in IH. cbn [length seq map combine] in IH.
        destruct (run_caught (enumerate_resume from) ds _) as [rs st]. cbn [fst] in *.
        destruct (deque_run ds []) as [os l2]. cbn [fst combine lagging] in *. now rewrite IH.
      + change (at_pos p (x :: r)) with ((N.of_nat p, x) :: at_pos (S p) r).
        cbn [deque_run run_caught enumerate_resume enumerate_resume_next pop_front e_items e_next deque_step].
        rewrite ask_answer. cbn [length] in H2.
        destruct (deque_run ds (at_pos (S p) r)) as [os l2] eqn:Ed.
        cbn [fst combine lagging]. replace (N.of_nat p - lag) with next by lia.
        destruct (answer from u next) as [u1 t]. destruct t as [k|w| | |]; cbn [failed res_map bind].
        * rewrite uadd_small by lia.
          specialize (IH u1 (Build_enumerate (next + 1) r) (S p) lag). cbn [e_next e_items] in IH. rewrite Ed in IH. cbn [fst] in IH.
          destruct (run_caught (enumerate_resume from) ds _) as [rs st]. cbn [fst] in *. rewrite IH; [reflexivity|lia|unfold llen; lia].
        * specialize (IH u1 (Build_enumerate next r) (S p) (lag + 1)). cbn [e_next e_items] in IH. rewrite Ed in IH. cbn [fst] in IH.
          destruct (run_caught (enumerate_resume from) ds _) as [rs st]. cbn [fst] in *. rewrite IH; [reflexivity|lia|unfold llen; lia].
        * specialize (IH u1 (Build_enumerate next r) (S p) (lag + 1)). cbn [e_next e_items] in IH. rewrite Ed in IH. cbn [fst] in IH.
          destruct (run_caught (enumerate_resume from) ds _) as [rs st]. cbn [fst] in *. rewrite IH; [reflexivity|lia|unfold llen; lia].
        * specialize (IH u1 (Build_enumerate next r) (S p) (lag + 1)). cbn [e_next e_items] in IH. rewrite Ed in IH. cbn [fst] in IH.
          destruct (run_caught (enumerate_resume from) ds _) as [rs st]. cbn [fst] in *. rewrite IH; [reflexivity|lia|unfold llen; lia].
        * specialize (IH u1 (Build_enumerate next r) (S p) (lag + 1)). cbn [e_next e_items] in IH. rewrite Ed in IH. cbn [fst] in IH.
          destruct (run_caught (enumerate_resume from) ds _) as [rs st]. cbn [fst] in *. rewrite IH; [reflexivity|lia|unfold llen; lia].
    - destruct items as [|x r _] using rev_ind.
      + cbn [deque_run run_caught enumerate_resume enumerate_resume_back pop_back e_items at_pos length seq map combine deque_step rev].
        specialize (IH u (Build_enumerate next []) p lag H1 H2). cbn [e_items] in IH. unfold at_pos in IH. cbn [length seq map combine] in IH.
        destruct (run_caught (enumerate_resume from) ds _) as [rs st]. cbn [fst] in *.
        destruct (deque_run ds []) as [os l2]. cbn [fst combine lagging] in *. now rewrite IH.
      + rewrite app_length in H2. cbn [length] in H2.
        cbn [deque_run run_caught enumerate_resume enumerate_resume_back e_items e_next].
        rewrite at_pos_snoc, deque_back_app, pop_back_snoc.
        rewrite uadd_small by (unfold llen; lia). rewrite ask_answer.
        destruct (deque_run ds (at_pos p r)) as [os l2] eqn:Ed.
        cbn [fst combine lagging]. replace (N.of_nat (p + length r) - lag) with (next + llen r) by (unfold llen; lia).
        destruct (answer from u (next + llen r)) as [u1 t].
        specialize (IH u1 (Build_enumerate next r) p lag). cbn [e_next e_items] in IH. rewrite Ed in IH. cbn [fst] in IH.
        destruct (run_caught (enumerate_resume from) ds _) as [rs st]. cbn [fst] in *. rewrite IH; [|lia|unfold llen; lia].
        destruct t; reflexivity.
  Qed.

  Lemma enumerate_caught (items : list A) sched u : llen items <= usize_max ->
    fst (run_caught (enumerate_resume from) sched (u, enumerate_new items 0)) = lagging from 0 u (calls sched items).
  Proof. intros H. apply (@enumerate_caught_from sched u (enumerate_new items 0) 0 0); cbn; [reflexivity|exact H]. Qed.
End Enumerate.

(** ** Pairs of keys and values *)
Section Pairs.
  Context {cfg : Config} {U K A : Type} (from : U -> N -> U * res (option K)) (O : Ordinal K).
  Hypothesis Hdec : forall u i u' k, i <= usize_max -> from u i = (u', Val (Some k)) -> ordinal O k = Val i.

  Definition aligned (items : list A) (s : enumerate A) : Prop :=
    exists pre post, items = pre ++ e_items s ++ post /\ e_next s = llen pre.

  Lemma answer_dec u i u' k : i <= usize_max -> answer from u i = (u', Val k) -> ordinal O k = Val i.
  Proof.
    intros Hi. unfold answer. destruct (from u i) as [u1 [[t|]|w| | |]] eqn:E; intros H; inversion H. subst. exact (Hdec Hi E).
  Qed.

  Lemma enumerate_aligned items d u s st' r : aligned items s -> llen items <= usize_max ->
    enumerate_resume from d (u, s) = (st', r) ->
    pair_right O items r /\ (d = Back \/ failed r = false -> aligned items (snd st')).
  Proof.
    intros (pre & post & Hi & Hn) Hmax. destruct s as [next l]. cbn [e_items e_next] in *. destruct d.
    - destruct l as [|x r0].
      + cbn. intros E. inversion E. subst st' r. split; [intros k v F; discriminate|]. intros _.
        exists pre, post. split; assumption.
      + cbn [enumerate_resume enumerate_resume_next e_items pop_front e_next]. rewrite ask_answer.
        destruct (answer from u next) as [u1 t] eqn:Ea.
        assert (Hlen : next + 1 <= usize_max).
        { subst items next. unfold llen in *. rewrite app_length in Hmax. cbn [length app] in Hmax. lia. }
        destruct t as [k|w| | |]; intros E.
        2-5: inversion E; subst; split; [intros k v F; discriminate|intros [F|F]; discriminate].
        rewrite uadd_small in E by exact Hlen. inversion E. subst st' r. split.
        * intros k0 v F. injection F as -> ->. exists next. split; [apply (answer_dec (i := next)) in Ea; [exact Ea|lia]|].
          subst items next. unfold llen. rewrite Nat2N.id, nth_error_app2, Nat.sub_diag by lia. reflexivity.
        * intros _. exists (pre ++ [x]), post. cbn. split; [subst items; now rewrite <- app_assoc|].
          subst next. unfold llen. rewrite app_length. cbn. lia.
    - destruct l as [|x r0 _] using rev_ind.
      + cbn. intros E. inversion E. subst st' r. split; [intros k v F; discriminate|]. intros _.
        exists pre, post. split; assumption.
      + cbn [enumerate_resume enumerate_resume_back e_items e_next]. rewrite pop_back_snoc.
        assert (Hlen : next + llen r0 <= usize_max).
        { subst items next. unfold llen in *. rewrite !app_length in Hmax. cbn [length] in Hmax. lia. }
        rewrite uadd_small by exact Hlen. rewrite ask_answer.
        destruct (answer from u (next + llen r0)) as [u1 t] eqn:Ea. intros E. inversion E. subst st' r. split.
        * intros k0 v F. destruct t as [k| | | |]; try discriminate. cbn in F. injection F as -> ->.
          exists (next + llen r0). split; [now apply (answer_dec Hlen Ea)|].
          subst items next. unfold llen. rewrite nth_error_app2 by lia.
          replace (N.to_nat (N.of_nat (length pre) + N.of_nat (length r0)) - length pre)%nat with (length r0) by lia.
          rewrite <- app_assoc, nth_error_app2, Nat.sub_diag by lia. reflexivity.
        * intros _. exists pre, (x :: post). cbn. split; [|exact Hn]. subst items. now rewrite <- app_assoc.
  Qed.

  Lemma run_aligned {B} (R : list A -> res (option B) -> Prop) (items : list A)
      (step : dir -> U * enumerate A -> (U * enumerate A) * res (option B)) :
    (forall d u s st' r, aligned items s -> step d (u, s) = (st', r) ->
       R items r /\ (d = Back \/ failed r = false -> aligned items (snd st'))) ->
    forall sched u s, aligned items s ->
      front_never_fails sched (fst (run_caught step sched (u, s))) ->
      Forall (R items) (fst (run_caught step sched (u, s))).
  Proof.
    intros Hs. induction sched as [|d ds IH]; intros u s Ha Hf; [constructor|].
    cbn [run_caught] in *. destruct (step d (u, s)) as [[u1 s1] r] eqn:E.
    destruct (Hs d u s _ r Ha E) as [H1 H2].
    specialize (IH u1 s1). destruct (run_caught step ds (u1, s1)) as [rs st2]. cbn [fst snd] in *.
    constructor; [exact H1|]. apply IH.
    - apply H2. destruct d; [right|now left]. destruct (Hf r) as [a ->]; [now left|reflexivity].
    - intros r' Hr. apply Hf. now right.
  Qed.
End Pairs.

Section PairsTop.
  Context {cfg : Config} {U K V : Type} (from : U -> N -> U * res (option K)) (O : Ordinal K).
  Hypothesis Hdec : forall u i u' k, i <= usize_max -> from u i = (u', Val (Some k)) -> ordinal O k = Val i.

  Lemma aligned_new {A} (items : list A) : aligned items (enumerate_new items 0).
  Proof. exists [], []. cbn. split; [now rewrite app_nil_r|reflexivity]. Qed.

  Lemma total_pairs (items : list V) sched u : llen items <= usize_max ->
    front_never_fails sched (fst (run_caught (enumerate_resume from) sched (u, enumerate_new items 0))) ->
    Forall (pair_right O items) (fst (run_caught (enumerate_resume from) sched (u, enumerate_new items 0))).
  Proof.
    intros Hm Hf. apply (run_aligned (R := pair_right O)); [|apply aligned_new|exact Hf].
    intros d u0 s st' r Ha E. now apply (enumerate_aligned Hdec Ha Hm E).
  Qed.

  Lemma sparse_aligned (items : list (option V)) : llen items <= usize_max -> forall d fuel u s st' r,
    aligned items s -> sparse_resume from d fuel (u, s) = (st', r) ->
    some_right O items r /\ (d = Back \/ failed r = false -> aligned items (snd st')).
  Proof.
    intros Hm d. induction fuel as [|fuel IH]; intros u s st' r Ha E.
    - cbn in E. inversion E. subst. split; [intros k v F; discriminate|]. intros _. exact Ha.
    - cbn [sparse_resume] in E. destruct (enumerate_resume from d (u, s)) as [[u1 s1] r1] eqn:E1.
      destruct (enumerate_aligned Hdec Ha Hm E1) as [H1 H2]. cbn [snd] in H2.
      destruct r1 as [[[k [v|]]|]|w| | |].
      + inversion E. subst. split; [|intros _; apply H2; now right].
        intros k0 v0 F. injection F as -> ->. now apply H1.
      + apply (IH _ _ _ _ (H2 (or_intror eq_refl)) E).
      + inversion E. subst. split; [intros k v F; discriminate|intros _; apply H2; now right].
      + inversion E. subst. split; [intros k v F; discriminate|]. intros [F|F]; [apply H2; now left|discriminate].
      + inversion E. subst. split; [intros k v F; discriminate|]. intros [F|F]; [apply H2; now left|discriminate].
      + inversion E. subst. split; [intros k v F; discriminate|]. intros [F|F]; [apply H2; now left|discriminate].
      + inversion E. subst. split; [intros k v F; discriminate|]. intros [F|F]; [apply H2; now left|discriminate].
  Qed.

  Lemma sparse_pairs (items : list (option V)) sched u : llen items <= usize_max ->
    front_never_fails sched (fst (run_caught (sparse_resume_step from) sched (u, enumerate_new items 0))) ->
    Forall (some_right O items) (fst (run_caught (sparse_resume_step from) sched (u, enumerate_new items 0))).
  Proof.
    intros Hm Hf. apply (run_aligned (R := some_right O)); [|apply aligned_new|exact Hf].
    intros d u0 s st' r Ha E. exact (sparse_aligned Hm Ha E).
  Qed.
End PairsTop.

(** ** A lawful impl and an array of any length *)
Section Lawful.
  Context {cfg : Config} {K V : Type} (O : Ordinal K) (n : N).
  Hypothesis HO : lawful O n.

  Lemma pure_dec : forall (u : unit) i u' k, i <= usize_max -> pure_from O u i = (u', Val (Some k)) -> ordinal O k = Val i.
  Proof.
    intros u i u' k Hi E. injection E as _ E. destruct HO as [Hb Hr]. destruct (N.lt_ge_cases i n) as [Hlt|Hge].
    - destruct (bij_from Hb Hlt) as (t & H1 & H2). rewrite H1 in E. now injection E as <-.
    - rewrite (Hr i Hge Hi) in E. discriminate.
  Qed.
  Lemma lawful_answer_high u i : n <= i -> i <= usize_max -> answer (pure_from O) u i = (u, Panic PUnwrap).
  Proof. intros H1 H2. unfold answer, pure_from. destruct HO as [_ Hr]. now rewrite (Hr i H1 H2). Qed.
  Lemma lawful_answer_low u i : i < n -> exists k, answer (pure_from O) u i = (u, Val k).
  Proof.
    intros H. unfold answer, pure_from. destruct HO as [Hb _]. destruct (bij_from Hb H) as (t & -> & _). now exists t.
  Qed.

  Definition dead {A} (s : enumerate A) : Prop := n <= e_next s /\ e_next s + llen (e_items s) <= usize_max.

  Lemma dead_step {A} d u (s : enumerate A) : dead s ->
    dead (snd (fst (enumerate_resume (pure_from O) d (u, s)))) /\
    forall kv, snd (enumerate_resume (pure_from O) d (u, s)) <> Val (Some kv).
  Proof.
    destruct s as [next l]. intros [H1 H2]. unfold llen in *. cbn [e_next e_items] in *. destruct d.
    - destruct l as [|x r]; [now split|].
      cbn [enumerate_resume enumerate_resume_next pop_front e_items e_next length] in *. rewrite ask_answer, lawful_answer_high by lia.
      cbn. split; [split; cbn; unfold llen; lia|discriminate].
    - destruct l as [|x r _] using rev_ind; [now split|]. rewrite app_length in H2. cbn [length] in H2.
      cbn [enumerate_resume enumerate_resume_back e_items e_next]. rewrite pop_back_snoc, uadd_small by (unfold llen; lia).
      rewrite ask_answer, lawful_answer_high by (unfold llen; lia).
      cbn. split; [split; cbn; unfold llen; lia|discriminate].
  Qed.

  Lemma aligned_or_dead (items : list V) d u s st' r : aligned items s -> llen items <= usize_max ->
    enumerate_resume (pure_from O) d (u, s) = (st', r) -> aligned items (snd st') \/ dead (snd st').
  Proof.
    intros Ha Hm E. destruct (enumerate_aligned pure_dec Ha Hm E) as [_ H]. destruct d; [|left; apply H; now left].
    destruct (failed r) eqn:F; [|left; apply H; now right]. right.
    destruct Ha as (pre & post & Hi & Hn). destruct s as [next l]. cbn [e_items e_next] in *.
    destruct l as [|x r0]; [cbn in E; inversion E; subst; discriminate|].
    cbn [enumerate_resume enumerate_resume_next pop_front e_items e_next] in E. rewrite ask_answer in E.
    assert (Hlen : next + 1 + llen r0 <= usize_max).
    { subst items next. unfold llen in *. rewrite !app_length in Hm. cbn [length] in Hm. lia. }
    destruct (N.lt_ge_cases next n) as [Hlt|Hge].
    - destruct (lawful_answer_low u Hlt) as (k & Ek). rewrite Ek, uadd_small in E by lia. inversion E. subst. discriminate.
    - rewrite lawful_answer_high in E by lia. inversion E. subst st'. split; cbn; lia.
  Qed.

  Lemma lawful_pairs (items : list V) : llen items <= usize_max -> forall sched u s, aligned items s \/ dead s ->
    Forall (pair_right O items) (fst (run_caught (enumerate_resume (pure_from O)) sched (u, s))).
  Proof.
    intros Hm. induction sched as [|d ds IH]; intros u s Hs; [constructor|].
    cbn [run_caught]. destruct (enumerate_resume (pure_from O) d (u, s)) as [[u1 s1] r] eqn:E.
    assert (H : pair_right O items r /\ (aligned items s1 \/ dead s1)).
    { destruct Hs as [Ha|Hd].
      - split; [now apply (enumerate_aligned pure_dec Ha Hm E)|exact (aligned_or_dead Ha Hm E)].
      - destruct (dead_step d u Hd) as [H1 H2]. rewrite E in H1, H2. cbn in H1, H2.
        split; [|now right]. intros k v F. now apply H2 in F. }
    destruct H as [H1 H2]. specialize (IH u1 s1 H2). destruct (run_caught _ ds (u1, s1)) as [rs st2]. cbn [fst] in *.
    now constructor.
  Qed.
  Lemma lawful_pairs_new (items : list V) sched u : llen items <= usize_max ->
    Forall (pair_right O items) (fst (run_caught (enumerate_resume (pure_from O)) sched (u, enumerate_new items 0))).
  Proof. intros Hm. apply (lawful_pairs Hm). left. apply aligned_new. Qed.
End Lawful.

(** ** Agreement with the other model files *)
Section Agree.
  Context {cfg : Config} {K : Type} (O : Ordinal K).

  Lemma values_agree d s : values_step O d s = forget (values_resume (pure_from O) d (tt, s)).
  Proof.
    destruct d; cbn [values_step values_resume]; unfold values_next, values_next_back;
      [destruct (range_next s) as [[i s']|]|destruct (range_next_back s) as [[i s']|]]; try reflexivity;
      cbn; destruct (from_ordinal O i) as [[t|]|w| | |]; reflexivity.
  Qed.
  Lemma iter64_agree d s : Iter64_step O d s = forget (iter64_resume (pure_from O) d (tt, s)).
  Proof.
    destruct d; cbn [Iter64_step iter64_resume]; unfold Iter64_next, Iter64_next_back; cbv zeta;
      [destruct (trailing_zeros s =? 64)|destruct (checked_sub (64 - 1) (leading_zeros s)) as [i|]]; try reflexivity;
      [set (i := trailing_zeros s)|]; destruct (u64_shl 1 i) as [b|w| | |]; try reflexivity;
      cbn; destruct (from_ordinal O i) as [[t|]|w| | |]; reflexivity.
  Qed.
  Lemma enumerate_agree {A} d (s : enumerate A) : enumerate_step O d s = forget (enumerate_resume (pure_from O) d (tt, s)).
  Proof.
    destruct d; cbn [enumerate_step enumerate_resume]; unfold enumerate_next, enumerate_next_back, enumerate_resume_next, enumerate_resume_back.
    - destruct (pop_front (e_items s)) as [[v rest]|]; [|reflexivity]. cbn.
      destruct (from_ordinal O (e_next s)) as [[t|]|w| | |]; try reflexivity. cbn. destruct (uadd (e_next s) 1); reflexivity.
    - destruct (pop_back (e_items s)) as [[v rest]|]; [|reflexivity]. cbn.
      destruct (uadd (e_next s) (llen rest)) as [i|w| | |]; try reflexivity. cbn.
      destruct (from_ordinal O i) as [[t|]|w| | |]; reflexivity.
  Qed.
  Lemma sparse_agree {V} d fuel : forall s : enumerate (option V),
    sparse_loop (enumerate_step O d) (fun o => Val o) fuel s = forget (sparse_resume (pure_from O) d fuel (tt, s)).
  Proof.
    induction fuel as [|fuel IH]; intros s; [reflexivity|].
    cbn [sparse_loop sparse_resume]. rewrite enumerate_agree.
    destruct (enumerate_resume (pure_from O) d (tt, s)) as [[[] s1] [[[k [v|]]|]|w| | |]]; try reflexivity.
    cbn. apply IH.
  Qed.
  Lemma iter_agree {V} d (s : enumerate (option V)) : Iter_step O d s = forget (sparse_resume_step (pure_from O) d (tt, s)).
  Proof. apply sparse_agree. Qed.
End Agree.

(** ** set::Iter and Drain *)
From Coq Require Import Permutation.

Section SetIterResume.
  Context {cfg : Config} {U T : Type} (from : U -> N -> U * res (option T)) (O : Ordinal T) (contains : T -> res bool).
  Hypothesis Hdec : forall u i u' k, from u i = (u', Val (Some k)) -> ordinal O k = Val i.

  Definition within (s : OrdinalValues) (i : N) : Prop := r_start s <= i < r_end s.

  Lemma values_shrink d u s st' r : values_resume from d (u, s) = (st', r) ->
    (forall i, within (snd st') i -> within s i) /\
    forall t, r = Val (Some t) -> exists i, ordinal O t = Val i /\ within s i /\ ~ within (snd st') i.
  Proof.
    unfold within. cbn [values_resume]. unfold range_next, range_next_back.
    destruct (r_start s <? r_end s) eqn:E.
    2: { destruct d; intros F; inversion F; subst; cbn; (split; [tauto|discriminate]). }
    apply N.ltb_lt in E.
    destruct d; rewrite ask_answer; destruct (answer from u _) as [u1 x] eqn:Ea; intros F; inversion F; subst; cbn;
      (split; [intros i; lia|]); intros t Ht; destruct x as [t0| | | |]; try discriminate; injection Ht as ->;
      unfold answer in Ea; destruct (from u _) as [u2 [[t1|]| | | |]] eqn:Ef; inversion Ea; subst;
      eexists; (split; [exact (Hdec Ef)|lia]).
  Qed.

  Lemma set_shrink d fuel : forall u s st' r, set_resume from contains d fuel (u, s) = (st', r) ->
    (forall i, within (snd st') i -> within s i) /\
    forall t, r = Val (Some t) -> contains t = Val true /\ exists i, ordinal O t = Val i /\ within s i /\ ~ within (snd st') i.
  Proof.
    induction fuel as [|fuel IH]; intros u s st' r E.
    - cbn in E. inversion E. subst. split; [tauto|discriminate].
    - cbn [set_resume] in E. destruct (values_resume from d (u, s)) as [[u1 s1] r1] eqn:E1.
      destruct (values_shrink E1) as [H1 H2]. cbn [snd] in *.
      destruct r1 as [[t1|]|w| | |]; try (inversion E; subst; split; [exact H1|discriminate]).
      destruct (contains t1) as [[]|w| | |] eqn:Ec; try (inversion E; subst; split; [exact H1|discriminate]).
      + inversion E. subst. split; [exact H1|]. intros t Ht. injection Ht as <-. split; [exact Ec|]. now apply H2.
      + destruct (IH _ _ _ _ E) as [H3 H4]. split; [intros i Hi; now apply H1, H3|].
        intros t Ht. destruct (H4 t Ht) as (H5 & i & H6 & H7 & H8). split; [exact H5|].
        exists i. split; [exact H6|]. split; [now apply H1|exact H8].
  Qed.

  Lemma set_caught sched : forall u s,
    let ts := yielded (fst (run_caught (set_resume_step from contains) sched (u, s))) in
    NoDup ts /\ forall t, In t ts -> contains t = Val true /\ exists i, ordinal O t = Val i /\ within s i.
  Proof.
    induction sched as [|d ds IH]; intros u s; cbv zeta.
    - split; [constructor|intros t []].
    - cbn [run_caught]. destruct (set_resume_step from contains d (u, s)) as [[u1 s1] r] eqn:E.
      destruct (set_shrink E) as [H1 H2]. cbn [snd] in *. specialize (IH u1 s1). cbv zeta in IH.
      destruct (run_caught (set_resume_step from contains) ds (u1, s1)) as [rs st2]. cbn [fst] in *.
      destruct IH as [H3 H4].
      assert (H5 : forall t, In t (yielded rs) -> contains t = Val true /\ exists i, ordinal O t = Val i /\ within s i).
      { intros t Ht. destruct (H4 t Ht) as (H6 & i & H7 & H8). split; [exact H6|]. exists i. split; [exact H7|now apply H1]. }
      destruct r as [[t|]|w| | |]; cbn [yielded]; try (split; [exact H3|exact H5]).
      destruct (H2 t eq_refl) as (H6 & i & H7 & H8 & H9). split.
      + constructor; [|exact H3]. intros Ht. destruct (H4 t Ht) as (_ & j & H10 & H11). rewrite H7 in H10.
        injection H10 as <-. now apply H9.
      + intros t' [<-|Ht']; [|now apply H5]. split; [exact H6|]. now exists i.
  Qed.
End SetIterResume.

Section DrainResume.
  Context {cfg : Config} {U K V : Type} (from : U -> N -> U * res (option K)).

  Lemma stored_take (l : list (option V)) : forall j,
    (forall v, nth_error l j = Some (Some v) -> Permutation (stored l) (v :: stored (list_set l j None))) /\
    (nth_error l j = Some None -> stored (list_set l j None) = stored l).
  Proof.
    induction l as [|x l IH]; intros j; [destruct j; split; discriminate|].
    destruct j as [|j]; cbn [nth_error list_set].
    - split; [intros v H; injection H as ->; cbn; apply Permutation_refl|intros H; injection H as ->; reflexivity].
    - destruct (IH j) as [H1 H2]. split.
      + intros v H. specialize (H1 v H). destruct x as [x|]; cbn [stored]; [|exact H1].
        eapply Permutation_trans; [apply perm_skip, H1|apply perm_swap].
      + intros H. destruct x as [x|]; cbn [stored]; now rewrite H2.
  Qed.

  Lemma drain_keeps d fuel : forall u (storage : list (option V)) iter st' r, drain_resume from d fuel (u, (storage, iter)) = (st', r) ->
    Permutation (stored storage) (handed_out [r] ++ stored (fst (snd st'))).
  Proof.
    induction fuel as [|fuel IH]; intros u storage iter st' r E.
    - cbn in E. inversion E. apply Permutation_refl.
    - cbn [drain_resume] in E. destruct (enumerate_resume from d (u, iter)) as [[u1 it1] r1].
      destruct r1 as [[[k i]|]|w| | |]; try (inversion E; apply Permutation_refl).
      unfold deref, slice_get in E. destruct (stored_take storage (N.to_nat i)) as [H1 H2].
      destruct (nth_error storage (N.to_nat i)) as [[v|]|] eqn:En.
      + inversion E. cbn. now apply H1.
      + apply IH in E. unfold store_at in E. now rewrite H2 in E by reflexivity.
      + inversion E. apply Permutation_refl.
  Qed.

  Lemma drain_caught sched : forall u (s : @Drain V),
    Permutation (stored (fst s))
      (handed_out (fst (run_caught (drain_resume_step from) sched (u, s))) ++
       stored (fst (snd (snd (run_caught (drain_resume_step from) sched (u, s)))))).
  Proof.
    induction sched as [|d ds IH]; intros u s; [apply Permutation_refl|].
    cbn [run_caught]. destruct (drain_resume_step from d (u, s)) as [[u1 s1] r] eqn:E.
    destruct s as [storage iter]. apply drain_keeps in E. cbn [fst snd] in E. specialize (IH u1 s1).
    destruct (run_caught (drain_resume_step from) ds (u1, s1)) as [rs st2]. cbn [fst snd] in *.
    eapply Permutation_trans; [exact E|].
    assert (H : handed_out (r :: rs) = handed_out [r] ++ handed_out rs) by (destruct r as [[[k v]|]|w| | |]; reflexivity).
    rewrite H, <- app_assoc. now apply Permutation_app_head.
  Qed.
End DrainResume.

Section Agree2.
  Context {cfg : Config} {K : Type} (O : Ordinal K).
  Lemma set_loop_agree set d fuel : forall s,
    set_loop O (values_step O d) set fuel s = forget (set_resume (pure_from O) (OrdinalSetRef_contains O set) d fuel (tt, s)).
  Proof.
    induction fuel as [|fuel IH]; intros s; [reflexivity|]. cbn [set_loop set_resume]. rewrite values_agree.
    destruct (values_resume (pure_from O) d (tt, s)) as [[[] s1] [[t|]|w| | |]]; try reflexivity. cbn [forget bind fst snd].
    destruct (OrdinalSetRef_contains O set t) as [[]|w| | |]; try reflexivity. apply IH.
  Qed.
  Lemma set_agree d (s : SetIter) : SetIter_step O d s =
    ('(o, it) <- forget (set_resume_step (pure_from O) (OrdinalSetRef_contains O (si_set s)) d (tt, si_iter s)) ;;
     Val (o, {| si_iter := it; si_set := si_set s |})).
  Proof. unfold SetIter_step. now rewrite set_loop_agree. Qed.
  Lemma drain_loop_agree {V} d fuel : forall s : @Drain V,
    Drain_loop O d fuel s = forget (drain_resume (pure_from O) d fuel (tt, s)).
  Proof.
    induction fuel as [|fuel IH]; intros [storage iter]; [reflexivity|]. cbn [Drain_loop drain_resume].
    unfold TIterMut_step, TIterMut in *. rewrite enumerate_agree.
    destruct (enumerate_resume (pure_from O) d (tt, iter)) as [[[] s1] [[[k i]|]|w| | |]]; try reflexivity. cbn [forget bind fst snd].
    destruct (deref storage i) as [[v|]|w| | |]; try reflexivity. apply IH.
  Qed.
  Lemma drain_agree {V} d (s : @Drain V) : Drain_step O d s = forget (drain_resume_step (pure_from O) d (tt, s)).
  Proof. apply drain_loop_agree. Qed.
End Agree2.
