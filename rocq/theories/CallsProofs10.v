(** * CallsProofs10: what changing answers can do to sets and atomics. *)
From Verif Require Import Base Spec SpecMap SpecTotal SpecSet SpecAtomic SpecSafety SpecCalls ModelOrdinal ModelValues ModelArrayBuilder
  ModelIter ModelTotal ModelMap ModelSet ModelAtomic MapMachine TotalMachine SetMachine ModelCalls BaseProofs BitProofs MapProofs5.
From Coq Require Import List Lia. Import ListNotations.
Set Implicit Arguments. Unset Strict Implicit.

(** User code whose impl is that of [Ordering], as long as the number in its state is not 0. *)
Definition tired {C X : Type} (x : X) : world comparison C (fun _ => X) nat := fun u q =>
  match u, q return nat * res (answer (R := fun _ => X) q) with
  | 0%nat, _ => (0%nat, Panic PUser)
  | S u', QOrdinal k => (u', ordinal Ordinal_Ordering k)
  | S u', QFrom i => (u', from_ordinal Ordinal_Ordering i)
  | S u', QUser _ => (u', Val x)
  end.

(** User code with one key that answers [ordinal] with the numbers of a list, one after another. *)
Definition telling {C} : world unit C (fun _ => unit) (list N) := fun u q =>
  match q return list N * res (answer (R := fun _ => unit) q) with
  | QOrdinal _ => match u with [] => ([], Panic PUser) | i :: u' => (u', Val i) end
  | QFrom _ => (u, Val (Some tt))
  | QUser _ => (u, Val tt)
  end.
Lemma telling_safe C : safe_world (@telling C).
Proof. intros u q. destruct q; [destruct u|..]; exact I. Qed.

Lemma lor_same w b : N.land w b = 0 -> N.lor w b = w -> b = 0.
Proof.
  intros H1 H2. apply N.bits_inj. intros i. rewrite N.bits_0.
  assert (E1 : N.testbit (N.land w b) i = false) by (rewrite H1; apply N.bits_0).
  assert (E2 : N.testbit (N.lor w b) i = N.testbit w i) by now rewrite H2.
  rewrite N.land_spec in E1. rewrite N.lor_spec in E2. destruct (N.testbit w i), (N.testbit b i); cbn in *; congruence.
Qed.
Lemma shl_nonzero {cfg : Config} i b : u64_shl 1 (i mod 64) = Val b -> b <> 0.
Proof.
  intros E. rewrite shl_one in E by (apply N.mod_lt; lia). injection E as <-. apply N.pow_nonzero. lia.
Qed.

Lemma shl_power {cfg : Config} i b : u64_shl 1 i = Val b -> b = 2 ^ (i mod 64).
Proof.
  intros E. unfold u64_shl in E. destruct (N.ltb_spec i 64) as [L|L].
  - pose proof (shl_one L) as H. unfold u64_shl in H. apply N.ltb_lt in L as L'. rewrite L' in H. rewrite N.mod_small by exact L. congruence.
  - destruct overflow_checks; [discriminate E|]. assert (L2 : i mod 64 < 64) by (apply N.mod_lt; lia).
    pose proof (shl_one L2) as H. unfold u64_shl in H. apply N.ltb_lt in L2. rewrite L2 in H. congruence.
Qed.
Lemma lor_present s k : N.land s (2 ^ k) <> 0 -> N.lor s (2 ^ k) = s.
Proof.
  intros H. assert (B : N.testbit s k = true).
  { destruct (N.testbit s k) eqn:E; [reflexivity|]. exfalso. apply H. apply N.bits_inj. intros i. rewrite N.bits_0, N.land_spec, N.pow2_bits_eqb.
    destruct (N.eqb_spec k i) as [<-|_]; [now rewrite E|apply Bool.andb_false_r]. }
  apply N.bits_inj. intros i. rewrite N.lor_spec, N.pow2_bits_eqb. destruct (N.eqb_spec k i) as [<-|_]; [now rewrite B|apply Bool.orb_false_r].
Qed.

Section Insert.
  Context {cfg : Config} {T : Type} (O : Ordinal T).

  (** With a fixed impl, [insert] returns [true] only if it adds the element. *)
  Lemma mut_insert_grows w t : OrdinalSetMut_insert O [w] t <> Val (true, [w]).
  Proof.
    intros E. unfold OrdinalSetMut_insert in E. apply bind_inv in E. destruct E as (r & Er & E).
    assert (r = [w]).
    { unfold OrdinalSetRef_new in Er. apply bind_inv in Er. destruct Er as (s & _ & Er). apply bind_inv in Er. destruct Er as (? & _ & Er). congruence. }
    subst r. apply bind_inv in E. destruct E as (prev & Ep & E). apply bind_inv in E. destruct E as (i & Ei & E).
    unfold OrdinalSetRef_contains in Ep. rewrite Ei in Ep, E. cbn [bind] in Ep, E.
    change (udiv i 64) with (Val (i / 64)) in *. change (urem i 64) with (Val (i mod 64)) in *. cbn [bind] in *.
    apply bind_inv in E. destruct E as (b & Eb & E). rewrite Eb in Ep. cbn [bind] in Ep. unfold index, slice_get in *.
    destruct (N.to_nat (i / 64)) as [|q] eqn:Eq; cbn [nth_error] in *.
    - cbn [bind] in E. injection E as E1 E2. cbn in Ep. unfold store_at in E2. rewrite Eq in E2. cbn in E2. injection E2 as E2.
      destruct prev; [discriminate E1|]. injection Ep as Ep. destruct (N.eqb_spec (N.land w b) 0) as [Z|Z]; [|discriminate Ep].
      exact (shl_nonzero Eb (lor_same Z E2)).
    - destruct q; cbn in E; discriminate E.
  Qed.
  Lemma set_insert_grows t w : set_step O (SInsert t) (Small w) <> Val (SBool true, Small w).
  Proof.
    intros E. cbn [set_step] in E. apply bind_inv in E. destruct E as ([b s] & E & Es). injection Es as -> ->.
    unfold OrdinalSet_insert in E. apply bind_inv in E. destruct E as ([|] & _ & E); [|discriminate E].
    apply bind_inv in E. destruct E as (ws & En & E). unfold OrdinalSetMut_new in En.
    apply bind_inv in En. destruct En as (? & _ & En). apply bind_inv in En. destruct En as (? & _ & En). injection En as <-.
    apply bind_inv in E. destruct E as ([r ws'] & E1 & E). destruct ws' as [|w' [|? ?]]; try discriminate E. injection E as -> ->.
    exact (mut_insert_grows E1).
  Qed.
  (** ... and [false] only if it is there already. *)
  Lemma set64_insert_same t s s' : set64_step O (SInsert t) s = Val (SBool false, s') -> s' = s.
  Proof.
    intros E. cbn [set64_step] in E. apply bind_inv in E. destruct E as ([b x] & E & Es). injection Es as -> ->.
    unfold OrdinalSet64_insert in E. apply bind_inv in E. destruct E as ([] & _ & E). apply bind_inv in E. destruct E as (c & Ec & E).
    cbv zeta in E. unfold OrdinalSet64_contains in Ec. apply bind_inv in Ec. destruct Ec as ([] & _ & Ec).
    apply bind_inv in Ec. destruct Ec as (i & Ei & Ec). rewrite Ei in E. cbn [bind] in E.
    apply bind_inv in Ec. destruct Ec as (m & Em & Ec). rewrite Em in E. cbn [bind] in E. injection E as E1 E2.
    injection Ec as Ec. destruct c; [|discriminate E1].
    apply shl_power in Em. subst m. rewrite <- E2. apply lor_present. intros Z. now rewrite Z in Ec.
  Qed.
End Insert.

(** Swapping a value for itself leaves the cell as it is. *)
Lemma cas_same T (O : Ordinal T) t s f cell : snd (call_alone O (CCas t t s f) cell) = cell.
Proof.
  unfold call_alone, call_method, AtomicOrdinal_compare_exchange, method_map. destruct (ordinal O t) as [i| | | |]; cbn [bind]; try reflexivity.
  unfold sc_apply. destruct (illegal_request (RCas i i s f)); [reflexivity|]. cbn [perform]. destruct (N.eqb_spec cell i); cbn; auto.
Qed.

(** If every ordinal is decoded to the same key, either all or none of them are visited. *)
Lemma iter_all_or_none (O : Ordinal unit) : ORDINAL_SIZE O = Val 2 ->
  @set_step debug64 unit O (SIter [Front; Front]) (Small 1) <> Val (SItems [Some tt; None], Small 1).
Proof.
  intros H E. cbn [set_step] in E. unfold OrdinalSet_iter, OrdinalSet_as_ref, IS_SMALL, OrdinalSetRef_new, ordinal_array_set_s, OrdinalSetRef_iter, SetIter_new, values_new in E.
  rewrite H in E. cbn [bind N.leb] in E. revert E.
  cbv -[OrdinalSetRef_contains from_ordinal debug64]. generalize (@OrdinalSetRef_contains debug64 unit O). intros c.
  generalize (from_ordinal O). intros f.
  destruct (f 0) as [[[]|]| | | |] eqn:F0; cbv; rewrite ?F0; cbv; try discriminate. destruct (c [1] tt) as [[|]| | | |] eqn:Ec; cbv; try discriminate;
    cbv; destruct (f 1) as [[[]|]| | | |] eqn:F1; repeat (first [rewrite Ec|rewrite F1|rewrite F0]; cbv); try discriminate.
Qed.

(** ** The witnesses *)
Lemma insert_lies : exists U (w : world unit Empty_set (fun _ => unit) U) u s, safe_world w /\
  snd (run w u (@set_step_p debug64 unit Empty_set (fun _ => unit) (Val 2) (SInsert tt) s)) = Val (SBool true, s) /\
  forall O, @set_step debug64 unit O (SInsert tt) s <> Val (SBool true, s).
Proof.
  exists (list N), telling, [0; 0; 1; 0], (Small 2). split; [apply telling_safe|]. split; [vm_compute; reflexivity|].
  intros O. apply set_insert_grows.
Qed.
Lemma insert64_lies : exists U (w : world unit Empty_set (fun _ => unit) U) u s s', safe_world w /\ s' <> s /\
  snd (run w u (@set64_step_p debug64 unit Empty_set (fun _ => unit) (Val 64) (SInsert tt) s)) = Val (SBool false, s') /\
  forall O, @set64_step debug64 unit O (SInsert tt) s <> Val (SBool false, s').
Proof.
  exists (list N), telling, [5; 7], 32, 160. split; [apply telling_safe|]. split; [discriminate|]. split; [vm_compute; reflexivity|].
  intros O E. apply set64_insert_same in E. discriminate E.
Qed.
Lemma iter_differs : exists U (w : world unit Empty_set (fun _ => unit) U) u s, safe_world w /\
  snd (run w u (@set_step_p debug64 unit Empty_set (fun _ => unit) (Val 2) (SIter [Front; Front]) s)) = Val (SItems [Some tt; None], s) /\
  forall O, ORDINAL_SIZE O = Val 2 -> @set_step debug64 unit O (SIter [Front; Front]) s <> Val (SItems [Some tt; None], s).
Proof.
  exists (list N), telling, [0; 0; 1; 1], (Small 1). split; [apply telling_safe|]. split; [vm_compute; reflexivity|].
  intros O. apply iter_all_or_none.
Qed.
Lemma cas_differs : exists U (w : world unit Empty_set (fun _ => unit) U) u, safe_world w /\
  snd (run w u (call_alone_p (CCas tt tt SeqCst SeqCst) 0)) = Val (Val (OOk tt), 1) /\
  forall O, call_alone O (CCas tt tt SeqCst SeqCst) 0 <> (Val (OOk tt), 1).
Proof.
  exists (list N), telling, [0; 1]. split; [apply telling_safe|]. split; [vm_compute; reflexivity|].
  intros O E. pose proof (cas_same O tt SeqCst SeqCst 0) as H. rewrite E in H. discriminate H.
Qed.
