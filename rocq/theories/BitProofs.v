(** * BitProofs: words of bits. *)
From Verif Require Import Base Spec ModelOrdinal ModelValues ModelArrayBuilder ModelSet BaseProofs.
From Coq Require Import List.
Import ListNotations.
Unset Strict Implicit.

Lemma u64_max_ones : u64_max = N.ones 64.
Proof. reflexivity. Qed.
Lemma u64_max_bit i : N.testbit u64_max i = (i <? 64).
Proof.
  rewrite u64_max_ones. destruct (N.ltb_spec i 64) as [H|H].
  - now apply N.ones_spec_low.
  - now apply N.ones_spec_high.
Qed.

Lemma shl_one {cfg : Config} i : i < 64 -> u64_shl 1 i = Val (2 ^ i).
Proof.
  intros H. unfold u64_shl. apply N.ltb_lt in H as H'. rewrite H'. f_equal.
  rewrite N.shiftl_1_l, u64_max_ones, N.land_ones. apply N.mod_small.
  apply N.pow_lt_mono_r; lia.
Qed.

Lemma mask_test w i : negb (N.land w (2 ^ i) =? 0) = N.testbit w i.
Proof.
  destruct (N.testbit w i) eqn:E.
  - destruct (N.eqb_spec (N.land w (2 ^ i)) 0) as [H|H]; [|reflexivity].
    assert (H' : N.testbit (N.land w (2 ^ i)) i = true).
    { rewrite N.land_spec, E, N.pow2_bits_eqb, N.eqb_refl. reflexivity. }
    rewrite H, N.bits_0 in H'. discriminate H'.
  - replace (N.land w (2 ^ i)) with 0; [reflexivity|]. apply N.bits_inj. intros j.
    rewrite N.bits_0, N.land_spec, N.pow2_bits_eqb. destruct (N.eqb_spec i j) as [<-|_].
    + rewrite E. reflexivity.
    + rewrite andb_false_r. reflexivity.
Qed.

Lemma set_bit w i j : N.testbit (N.lor w (2 ^ i)) j = N.testbit w j || (i =? j).
Proof. rewrite N.lor_spec, N.pow2_bits_eqb. reflexivity. Qed.

Lemma clear_bit w i j : (forall k, N.testbit w k = true -> k < 64) -> i < 64 ->
  N.testbit (N.land w (u64_not (2 ^ i))) j = N.testbit w j && negb (i =? j).
Proof.
  intros Hw Hi. unfold u64_not. rewrite N.land_spec, N.lxor_spec, N.pow2_bits_eqb, u64_max_bit.
  destruct (N.testbit w j) eqn:E; [|reflexivity]. apply Hw in E. apply N.ltb_lt in E. rewrite E.
  cbn. apply xorb_true_r.
Qed.

(** The set bits of a word, in increasing order. *)
Definition bits (w : N) : list N := filter (N.testbit w) (slots 64).

Lemma slots_In n i : In i (slots n) <-> i < N.of_nat n.
Proof.
  unfold slots. rewrite in_map_iff. split.
  - intros (k & <- & Hk). apply in_seq in Hk. lia.
  - intros H. exists (N.to_nat i). split; [lia|]. apply in_seq. lia.
Qed.

Lemma bits_In w i : In i (bits w) <-> i < 64 /\ N.testbit w i = true.
Proof. unfold bits. rewrite filter_In, slots_In. reflexivity. Qed.

Lemma filter_none {A} (f : A -> bool) l : (forall x, In x l -> f x = false) -> filter f l = [].
Proof.
  induction l as [|x l IH]; intros H; [reflexivity|]. cbn. rewrite (H x) by (left; reflexivity).
  apply IH. intros y Hy. apply H. right. exact Hy.
Qed.
Lemma filter_same {A} (f g : A -> bool) l : (forall x, In x l -> f x = g x) -> filter f l = filter g l.
Proof.
  induction l as [|x l IH]; intros H; [reflexivity|]. cbn. rewrite (H x) by (left; reflexivity).
  rewrite IH; [reflexivity|]. intros y Hy. apply H. right. exact Hy.
Qed.

(** Splitting the positions at [i]. *)
Lemma slots_split n i : i < N.of_nat n -> exists r, slots n = slots (N.to_nat i) ++ i :: r /\
  forall j, In j r <-> i < j < N.of_nat n.
Proof.
  intros H. exists (map N.of_nat (seq (Datatypes.S (N.to_nat i)) (n - Datatypes.S (N.to_nat i)))).
  split.
  - unfold slots. replace n with (N.to_nat i + Datatypes.S (n - Datatypes.S (N.to_nat i)))%nat at 1 by lia.
    rewrite seq_app, map_app. cbn [seq map]. rewrite Nat.add_0_l, N2Nat.id. reflexivity.
  - intros j. rewrite in_map_iff. split.
    + intros (k & <- & Hk). apply in_seq in Hk. lia.
    + intros Hj. exists (N.to_nat j). split; [lia|]. apply in_seq. lia.
Qed.

Lemma bits_first w i : (forall k, N.testbit w k = true -> k < 64) -> N.testbit w i = true ->
  (forall j, j < i -> N.testbit w j = false) ->
  bits w = i :: bits (N.land w (u64_not (2 ^ i))).
Proof.
  intros Hw Hi Hlow. pose proof (Hw _ Hi) as H64. unfold bits.
  destruct (@slots_split 64 i) as (r & -> & Hr); [exact H64|]. rewrite !filter_app. cbn [filter].
  rewrite !clear_bit, Hi, N.eqb_refl by assumption. cbn [andb negb].
  rewrite (@filter_none _ (N.testbit w) (slots (N.to_nat i))).
  2:{ intros x Hx. apply slots_In in Hx. apply Hlow. lia. }
  rewrite (@filter_none _ (N.testbit (N.land w (u64_not (2 ^ i)))) (slots (N.to_nat i))).
  2:{ intros x Hx. apply slots_In in Hx. rewrite clear_bit by assumption. rewrite Hlow by lia. reflexivity. }
  cbn [app]. f_equal. apply filter_same. intros x Hx. apply Hr in Hx.
  rewrite clear_bit by assumption. replace (i =? x) with false by lia. rewrite andb_true_r. reflexivity.
Qed.

Lemma bits_last w i : (forall k, N.testbit w k = true -> k < 64) -> N.testbit w i = true ->
  (forall j, i < j -> N.testbit w j = false) ->
  bits w = bits (N.land w (u64_not (2 ^ i))) ++ [i].
Proof.
  intros Hw Hi Hhigh. pose proof (Hw _ Hi) as H64. unfold bits.
  destruct (@slots_split 64 i) as (r & -> & Hr); [exact H64|]. rewrite !filter_app. cbn [filter].
  rewrite !clear_bit, Hi, N.eqb_refl by assumption. cbn [andb negb].
  rewrite (@filter_none _ (N.testbit w) r).
  2:{ intros x Hx. apply Hr in Hx. apply Hhigh. lia. }
  rewrite (@filter_none _ (N.testbit (N.land w (u64_not (2 ^ i)))) r).
  2:{ intros x Hx. apply Hr in Hx. rewrite clear_bit by assumption. rewrite Hhigh by lia. reflexivity. }
  rewrite app_nil_r. f_equal. apply filter_same. intros x Hx. apply slots_In in Hx.
  rewrite clear_bit by assumption. replace (i =? x) with false by lia. rewrite andb_true_r. reflexivity.
Qed.

Lemma pos_tz_bit p : N.testbit (Npos p) (pos_trailing_zeros p) = true /\
  forall j, j < pos_trailing_zeros p -> N.testbit (Npos p) j = false.
Proof.
  induction p as [p IH|p IH|]; cbn [pos_trailing_zeros].
  - split; [reflexivity|intros j Hj; lia].
  - destruct IH as [H1 H2]. change (Npos p~0) with (2 * Npos p). split.
    + rewrite N.add_1_l, N.testbit_even_succ by lia. exact H1.
    + intros j Hj. destruct (N.eq_dec j 0) as [->|Hj0]; [apply N.testbit_even_0|].
      replace j with (N.succ (N.pred j)) by lia. rewrite N.testbit_even_succ by lia.
      apply H2. lia.
  - split; [reflexivity|intros j Hj; lia].
Qed.

Lemma bits_nil_iff w : (forall k, N.testbit w k = true -> k < 64) -> (bits w = [] <-> w = 0).
Proof.
  intros Hw. split.
  - intros H. apply N.bits_inj. intros i. rewrite N.bits_0. destruct (N.testbit w i) eqn:E; [|reflexivity].
    exfalso. assert (Hin : In i (bits w)) by (apply bits_In; split; [apply Hw; exact E|exact E]).
    rewrite H in Hin. destruct Hin.
  - intros ->. apply filter_none. intros i _. apply N.bits_0.
Qed.

Lemma trailing_zeros_bits w : (forall k, N.testbit w k = true -> k < 64) ->
  if trailing_zeros w =? 64 then bits w = []
  else trailing_zeros w < 64 /\ bits w = trailing_zeros w :: bits (N.land w (u64_not (2 ^ trailing_zeros w))).
Proof.
  intros Hw. destruct w as [|p].
  - cbn [trailing_zeros]. rewrite N.eqb_refl. apply bits_nil_iff; [exact Hw|reflexivity].
  - cbn [trailing_zeros]. destruct (pos_tz_bit p) as [H1 H2]. pose proof (Hw _ H1) as H64.
    replace (pos_trailing_zeros p =? 64) with false by lia. split; [exact H64|].
    now apply bits_first.
Qed.

Lemma leading_zeros_bits w : (forall k, N.testbit w k = true -> k < 64) ->
  match checked_sub (64 - 1) (leading_zeros w) with
  | None => bits w = []
  | Some i => i < 64 /\ bits w = bits (N.land w (u64_not (2 ^ i))) ++ [i]
  end.
Proof.
  intros Hw. destruct w as [|p].
  - apply bits_nil_iff; [exact Hw|reflexivity].
  - unfold leading_zeros. assert (H1 : N.testbit (Npos p) (N.log2 (Npos p)) = true) by (apply N.bit_log2; discriminate).
    pose proof (Hw _ H1) as H64. unfold checked_sub.
    replace (63 - N.log2 (Npos p) <=? 64 - 1) with true by lia.
    replace (64 - 1 - (63 - N.log2 (Npos p))) with (N.log2 (Npos p)) by lia.
    split; [exact H64|]. apply bits_last; [exact Hw|exact H1|]. intros j Hj. now apply N.bits_above_log2.
Qed.

Lemma filter_map_comm {A B} (f : B -> bool) (g : A -> B) l :
  filter f (map g l) = map g (filter (fun a => f (g a)) l).
Proof. induction l as [|x l IH]; [reflexivity|]. cbn. destruct (f (g x)); cbn; rewrite IH; reflexivity. Qed.

Lemma slots_succ k : slots (Datatypes.S k) = 0 :: map N.succ (slots k).
Proof.
  unfold slots. cbn [seq map]. f_equal. rewrite <- seq_shift, !map_map. apply map_ext. intros a. lia.
Qed.

Lemma count_bits p : forall k, (forall i, N.testbit (Npos p) i = true -> i < N.of_nat k) ->
  llen (filter (N.testbit (Npos p)) (slots k)) = pos_count_ones p.
Proof.
  induction p as [p IH|p IH|]; intros [|k] Hk.
  - specialize (Hk 0 eq_refl). lia.
  - rewrite slots_succ. cbn [filter]. change (Npos p~1) with (2 * Npos p + 1) at 1.
    rewrite N.testbit_odd_0. rewrite filter_map_comm. unfold llen in *. cbn [length]. rewrite map_length.
    cbn [pos_count_ones]. rewrite <- (IH k).
    + rewrite (@filter_same _ (fun a => N.testbit (Npos p~1) (N.succ a)) (N.testbit (Npos p))); [lia|].
      intros x _. change (Npos p~1) with (2 * Npos p + 1). apply N.testbit_odd_succ. lia.
    + intros i Hi. assert (H : N.testbit (Npos p~1) (N.succ i) = true).
      { change (Npos p~1) with (2 * Npos p + 1). rewrite N.testbit_odd_succ by lia. exact Hi. }
      apply Hk in H. lia.
  - exfalso. assert (H : N.testbit (Npos p~0) (N.log2 (Npos p~0)) = true) by (apply N.bit_log2; discriminate).
    apply Hk in H. lia.
  - rewrite slots_succ. cbn [filter]. change (Npos p~0) with (2 * Npos p) at 1.
    rewrite N.testbit_even_0. rewrite filter_map_comm. unfold llen in *. rewrite map_length.
    cbn [pos_count_ones]. rewrite <- (IH k).
    + rewrite (@filter_same _ (fun a => N.testbit (Npos p~0) (N.succ a)) (N.testbit (Npos p))); [lia|].
      intros x _. change (Npos p~0) with (2 * Npos p). apply N.testbit_even_succ. lia.
    + intros i Hi. assert (H : N.testbit (Npos p~0) (N.succ i) = true).
      { change (Npos p~0) with (2 * Npos p). rewrite N.testbit_even_succ by lia. exact Hi. }
      apply Hk in H. lia.
  - specialize (Hk 0 eq_refl). lia.
  - rewrite slots_succ. cbn [filter]. change (N.testbit 1 0) with true. cbn iota.
    rewrite filter_map_comm. rewrite filter_none; [reflexivity|].
    intros x _. change 1 with (2 * 0 + 1). rewrite N.testbit_odd_succ by lia. apply N.bits_0.
Qed.

Lemma count_ones_bits w : (forall k, N.testbit w k = true -> k < 64) -> count_ones w = llen (bits w).
Proof.
  intros Hw. destruct w as [|p].
  - replace (bits 0) with (@nil N); [reflexivity|]. symmetry. now apply bits_nil_iff.
  - cbn [count_ones]. symmetry. apply (@count_bits p 64). exact Hw.
Qed.

Lemma filter_Forall2 {A B} (P : A -> B -> Prop) (f : A -> bool) (g : B -> bool) la lb :
  Forall2 P la lb -> (forall a b, In a la -> In b lb -> P a b -> f a = g b) -> Forall2 P (filter f la) (filter g lb).
Proof.
  induction 1 as [|a b la lb Hab H IH]; intros Hfg; [constructor|]. cbn.
  rewrite (Hfg a b) by (try (left; reflexivity); exact Hab).
  assert (IH' : Forall2 P (filter f la) (filter g lb)).
  { apply IH. intros x y Hx Hy. apply Hfg; right; assumption. }
  destruct (g b); [constructor; assumption|exact IH'].
Qed.
