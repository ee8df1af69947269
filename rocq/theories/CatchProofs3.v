(** * CatchProofs3: lemmas for C96, sets. *)
From Verif Require Import Base Spec SpecMap SpecTotal SpecSet SpecCatch ModelOrdinal ModelValues ModelArrayBuilder
  ModelIter ModelTotal ModelMap ModelSet MapMachine TotalMachine SetMachine ModelCatch
  OrdinalProofs ArrayProofs SetProofs CatchProofs.
From Coq Require Import List. Import ListNotations.
Set Implicit Arguments. Unset Strict Implicit.

(** ** Agreement and what is left behind *)
Section Agree.
  Context {cfg : Config} {T : Type} (O : Ordinal T).

  Ltac split3 := unfold good_act, erases, same_panics; repeat apply conj;
    [intros m a m'|intros m w|intros m m' w].
  Ltac close := first
    [ split; intros [=]; subst; reflexivity
    | split; [intros [=]; subst; eauto|intros (? & [=]); subst; reflexivity]
    | intros [=]; subst; eauto; now left ].

  Lemma words_act t ws : OrdinalSetMut_insert_act O t ws =
    match (ws <- OrdinalSetMut_new O ws ;; OrdinalSetMut_insert O ws t) with
    | Val (b, ws') => (ws', Ended b)
    | Panic w => (ws, Unwinds w)
    | NoCompile | UB | OutOfFuel => (ws, Stuck)
    end.
  Proof.
    unfold OrdinalSetMut_insert_act, OrdinalSetMut_insert, abind, look, put, ret.
    assert (H : OrdinalSetMut_new O ws = Val ws \/ forall x, OrdinalSetMut_new O ws <> Val x).
    { unfold OrdinalSetMut_new. destruct (ordinal_array_set_s O); cbn; try (right; discriminate).
      destruct (debug_assert _); cbn; auto; right; discriminate. }
    destruct (OrdinalSetMut_new O ws) as [x| | | |]; cbn; try reflexivity.
    destruct H as [[= ->]|H]; [|now elim (H x)].
    destruct (OrdinalSetRef_new O ws) as [r| | | |]; cbn; try reflexivity.
    destruct (OrdinalSetRef_contains O r t) as [b| | | |]; cbn; try reflexivity.
    destruct (ordinal O t) as [i| | | |]; cbn; try reflexivity.
    destruct (u64_shl 1 (i mod 64)) as [bit| | | |]; cbn; try reflexivity.
    destruct (index ws (i / 64)); reflexivity.
  Qed.

  (** What a caught panic leaves behind: the words that were there, or new zeros. *)
  Definition left_words (s s' : OrdinalSet) : Prop :=
    s' = s \/ s = Large [] /\ exists n, ORDINAL_SIZE O = Val n /\ s' = Large (repeat 0 (N.to_nat ((n + 63) / 64))).
  Lemma alloc_words size c d e : unwrap (checked_add size 64) = Val c -> usub c 1 = Val d -> udiv d 64 = Val e ->
    e = (size + 63) / 64.
  Proof.
    unfold checked_add. destruct (size + 64 <=? usize_max) eqn:E; [|discriminate]. intros [= <-].
    unfold usub, usize_rt. replace ((0 <=? Z.of_N (size + 64) - Z.of_N 1) && (Z.of_N (size + 64) - Z.of_N 1 <=? Z.of_N usize_max))%Z
      with true by lia. intros [= <-]. unfold udiv. intros [= <-].
    f_equal. lia.
  Qed.

  Local Opaque OrdinalSetMut_insert_act OrdinalSetMut_insert OrdinalSetMut_new unwrap usub udiv IS_SMALL ArraySet_ASSERT.
  Lemma set_insert_good t : good_act left_words (b <! OrdinalSet_insert_act O t ;; ret (SBool b)) (set_step O (SInsert t)).
  Proof.
    unfold set_step, OrdinalSet_insert, OrdinalSet_insert_act. split3;
    unfold abind, look, put, ret, on_words;
    (destruct (IS_SMALL O) as [small| | | |]; cbn; [|close..]); destruct small, m as [x|ws]; try (cbn; close).
    1,3,5: rewrite words_act; destruct (OrdinalSetMut_new O [x]) as [ws| | | |]; cbn; try close;
      destruct (OrdinalSetMut_insert O ws t) as [[b ws']| | | |]; cbn; try close;
      destruct ws' as [|y [|]]; cbn; close.
    all: destruct (llen ws =? 0) eqn:E0.
    2,4,6: cbn; rewrite words_act; destruct (OrdinalSetMut_new O ws) as [ws1| | | |]; cbn; try close;
      destruct (OrdinalSetMut_insert O ws1 t) as [[b ws']| | | |]; cbn; close.
    all: assert (ws = []) as -> by (destruct ws; [reflexivity|apply N.eqb_eq in E0; discriminate E0]).
    all: destruct (ORDINAL_SIZE O) as [size| | | |] eqn:Es; cbn; try close;
      destruct (unwrap (checked_add size 64)) as [c| | | |] eqn:Ec; cbn; try close;
      destruct (usub c 1) as [d| | | |] eqn:Ed; cbn; try close;
      destruct (udiv d 64) as [e| | | |] eqn:Ee; cbn; try close;
      rewrite words_act; destruct (OrdinalSetMut_new O (repeat 0 (N.to_nat e))) as [ws1| | | |]; cbn;
      try (destruct (OrdinalSetMut_insert O ws1 t) as [[b ws']| | | |]; cbn);
      first [close|intros [=]; subst; right; rewrite (alloc_words Ec Ed Ee); eauto].
  Qed.
  Lemma set_good op : good_act left_words (set_act O op) (set_step O op).
  Proof. destruct op; try (apply good_replaces; now left). apply set_insert_good. Qed.

  Lemma try_words (S : nat) (a : arr N S) : try_arr S (arr_list a) = Some a.
  Proof.
    destruct (@try_arr_ok _ S (arr_list a)) as (b & E & Eb); [apply arr_length|]. rewrite E. f_equal. now apply arr_ext.
  Qed.
  Lemma array_set_good (S : nat) op : good_act eq (array_set_act O (S := S) op) (array_set_step O op).
  Proof.
    destruct op; try (apply good_replaces; reflexivity).
    unfold array_set_act, array_set_step, OrdinalArraySet_insert, OrdinalArraySet_insert_act. split3;
    unfold abind, look, put, ret, on_words;
    (destruct (ArraySet_ASSERT O S); cbn; [|close..]); rewrite words_act;
    (destruct (OrdinalSetMut_new O (arr_list m)) as [ws| | | |]; cbn; [|rewrite ?try_words; close..]);
    (destruct (OrdinalSetMut_insert O ws t) as [[b ws']| | | |]; cbn; [|rewrite ?try_words; close..]);
    unfold as_array; (destruct (try_arr S ws'); cbn; close).
  Qed.
  Lemma set64_good op : good_act eq (set64_act O op) (set64_step O op).
  Proof.
    destruct op; try (apply good_replaces; reflexivity).
    unfold set64_act, set64_step, OrdinalSet64_insert, OrdinalSet64_insert_act. split3; unfold abind, look, put, ret;
    (destruct (Set64_ASSERT O); cbn; [|close..]);
    (destruct (OrdinalSet64_contains O m t); cbn; [|close..]);
    (destruct (ordinal O t) as [i| | | |]; cbn; [|close..]);
    (destruct (u64_shl 1 i); cbn; close).
  Qed.
End Agree.
