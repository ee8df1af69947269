(** * ArrayProofs: array builder, array ordinals (C08, C49). *)
From Verif Require Import Base Spec BaseProofs ModelOrdinal ModelValues ModelArrayBuilder.
From Coq Require Import Permutation.

(** ** Mixed radix *)
Lemma product_of_app a b : product_of (a ++ b) = product_of a * product_of b.
Proof. unfold product_of. induction a as [|x a IH]; cbn [app fold_right]; [lia|]. rewrite IH. lia. Qed.

Lemma product_of_repeat n k : product_of (repeat n k) = n ^ N.of_nat k.
Proof.
  induction k as [|k IH]; [reflexivity|].
  cbn [repeat product_of fold_right]. fold (product_of (repeat n k)). rewrite IH.
  rewrite Nat2N.inj_succ, N.pow_succ_r'. reflexivity.
Qed.

Lemma mixed_radix_snoc ns ds n d :
  length ns = length ds -> mixed_radix (ns ++ [n]) (ds ++ [d]) = mixed_radix ns ds * n + d.
Proof.
  revert ds. induction ns as [|x ns IH]; intros [|y ds] H; try discriminate H.
  - cbn. lia.
  - cbn [app mixed_radix]. rewrite IH by (injection H; auto).
    rewrite product_of_app. unfold product_of at 2. cbn [fold_right]. lia.
Qed.

Lemma mixed_radix_lt ns ds :
  Forall2 N.lt ds ns -> mixed_radix ns ds < product_of ns.
Proof.
  induction 1 as [|d n ds ns Hd H IH].
  - reflexivity.
  - cbn [mixed_radix product_of fold_right]. fold (product_of ns). nia.
Qed.

Lemma mixed_radix_inj ns ds es :
  Forall2 N.lt ds ns -> Forall2 N.lt es ns ->
  mixed_radix ns ds = mixed_radix ns es -> ds = es.
Proof.
  intros H. revert es. induction H as [|d n ds ns Hd H IH]; intros es He E.
  - inversion He. reflexivity.
  - inversion He as [|e ? es' ? He1 He2]; subst. cbn [mixed_radix] in E.
    pose proof (mixed_radix_lt H). pose proof (mixed_radix_lt He2).
    assert (d = e /\ mixed_radix ns ds = mixed_radix ns es') as [-> E'].
    { apply (N.div_mod_unique (product_of ns)); [assumption|assumption|lia]. }
    f_equal. apply IH; assumption.
Qed.

(** ** Builder *)
Section BuilderFacts.
  Context {T : Type} (S : nat).

  (** The builder after pushing the values [l]. *)
  Definition builder_of (l : list T) : builder T :=
    {| b_cells := map Some l ++ repeat None (S - length l); b_filled := length l |}.

  Lemma builder_new_of : builder_new S = builder_of [].
  Proof. unfold builder_new, builder_of. cbn. rewrite Nat.sub_0_r. reflexivity. Qed.

  Lemma list_set_app {A} (l1 l2 : list A) x y :
    list_set (l1 ++ x :: l2) (length l1) y = l1 ++ y :: l2.
  Proof. induction l1 as [|z l1 IH]; cbn; [reflexivity|]. rewrite IH. reflexivity. Qed.

  Lemma push_ok l v : (length l < S)%nat ->
    builder_push S (builder_of l) v = Val (builder_of (l ++ [v])).
  Proof.
    intros H. unfold builder_push, builder_of. cbn [b_filled b_cells].
    destruct (Nat.ltb_spec (length l) S); [|lia]. cbn [assert_rt bind].
    rewrite app_length, map_length, repeat_length.
    destruct (Nat.ltb_spec (length l) (length l + (S - length l))); [|lia].
    f_equal. f_equal.
    - replace (S - length l)%nat with (Datatypes.S (S - Datatypes.S (length l))) by lia.
      cbn [repeat]. rewrite <- (map_length Some l) at 2. rewrite list_set_app.
      rewrite map_app, <- app_assoc. cbn. do 3 f_equal. rewrite app_length. cbn. f_equal. lia.
    - rewrite app_length. cbn. lia.
  Qed.

  Lemma push_full l v : (S <= length l)%nat ->
    builder_push S (builder_of l) v = Panic PAssert.
  Proof.
    intros H. unfold builder_push, builder_of. cbn [b_filled b_cells].
    destruct (Nat.ltb_spec (length l) S); [lia|]. reflexivity.
  Qed.

  Lemma drop_loop_ok (pre l : list T) tail :
    builder_drop_loop (map Some (pre ++ l) ++ tail) (length l) (length pre) = Val l.
  Proof.
    revert pre. induction l as [|x l IH]; intros pre; [reflexivity|].
    cbn [length builder_drop_loop].
    rewrite map_app, <- app_assoc, nth_error_app2 by (rewrite map_length; lia).
    rewrite map_length, Nat.sub_diag. cbn [map nth_error app].
    specialize (IH (pre ++ [x])). rewrite <- app_assoc in IH. cbn [app] in IH.
    rewrite app_length in IH. cbn [length] in IH. rewrite Nat.add_1_r in IH.
    rewrite map_app, <- app_assoc in IH. cbn [map app] in IH. rewrite IH. reflexivity.
  Qed.

  Lemma drop_ok l : builder_drop (builder_of l) = Val l.
  Proof. exact (drop_loop_ok [] l _). Qed.

  Lemma all_init_map (l : list T) : all_init (map Some l) = Some l.
  Proof. induction l as [|x l IH]; cbn; [reflexivity|]. rewrite IH. reflexivity. Qed.

  Lemma try_arr_ok (l : list T) : length l = S -> exists a, try_arr S l = Some a /\ arr_list a = l.
  Proof.
    intros H. unfold try_arr.
    destruct (Sumbool.sumbool_of_bool (Nat.eqb (length l) S)) as [E|E].
    - eexists; split; reflexivity.
    - apply Nat.eqb_neq in E. contradiction.
  Qed.

  Lemma finish_ok l : length l = S ->
    exists a, builder_finish S (builder_of l) = {| returned := Val a; dropped := [] |} /\
              arr_list a = l.
  Proof.
    intros H. unfold builder_finish, builder_try_finish. cbn [b_filled b_cells builder_of].
    rewrite H, Nat.eqb_refl. cbn [negb]. rewrite Nat.sub_diag. cbn [repeat].
    rewrite app_nil_r, all_init_map. destruct (try_arr_ok l H) as (a & -> & Ha).
    exists a. split; [reflexivity|exact Ha].
  Qed.

  Lemma finish_short l : (length l < S)%nat ->
    builder_finish S (builder_of l) = {| returned := Panic PUnwrap; dropped := l |}.
  Proof.
    intros H. unfold builder_finish, builder_try_finish.
    replace (b_filled (builder_of l)) with (length l) by reflexivity.
    destruct (Nat.eqb_spec (length l) S); [lia|]. cbn [negb].
    destruct (Nat.leb_spec (length l) S); [|lia]. rewrite drop_ok. reflexivity.
  Qed.

  Lemma leave_ok {R} (r : res R) l also :
    leave r (builder_of l) also = {| returned := r; dropped := also ++ l |}.
  Proof. unfold leave. rewrite drop_ok. reflexivity. Qed.
End BuilderFacts.

Lemma arr_ext {T S} (a b : arr T S) : arr_list a = arr_list b -> a = b.
Proof. destruct a as [a Ha], b as [b Hb]. cbn. intros <-. f_equal. apply bool_uip. Qed.

Lemma arr_length {T S} (a : arr T S) : length (arr_list a) = S.
Proof. destruct a as [a Ha]. cbn. apply Nat.eqb_eq. exact Ha. Qed.

(** ** Array ordinals *)
Section ArrayLaw.
  Context {cfg : Config} {T : Type} (O : Ordinal T) (n : N) (len : nat).
  Hypothesis HO : ordinal_bijection O n.

  Definition npow (k : nat) : N := n ^ N.of_nat k.
  Lemma npow_S k : npow (S k) = n * npow k.
  Proof. unfold npow. rewrite Nat2N.inj_succ, N.pow_succ_r'. reflexivity. Qed.
  Lemma npow_pos k : 0 < n -> 0 < npow k.
  Proof. intros H. induction k as [|k IH]; [reflexivity|]. rewrite npow_S. nia. Qed.
  Lemma npow_add a b : npow (a + b) = npow a * npow b.
  Proof. unfold npow. rewrite Nat2N.inj_add, N.pow_add_r. reflexivity. Qed.

  Lemma size_loop_ok k s : s * npow k <= usize_max -> s <= usize_max ->
    array_size_loop n k s = Val (s * npow k).
  Proof.
    revert s. induction k as [|k IH]; intros s H Hs.
    - cbn. f_equal. unfold npow. cbn. lia.
    - cbn [array_size_loop]. rewrite npow_S in *.
      assert (s * n <= usize_max).
      { destruct (N.eq_dec n 0) as [->|Hn]; [lia|].
        assert (0 < npow k) by (apply npow_pos; lia). nia. }
      rewrite checked_mul_ok by assumption. rewrite IH; [f_equal; lia| lia|assumption].
  Qed.

  Lemma size_loop_inv k s r :
    array_size_loop n k s = Val r -> s <= usize_max -> r = s * npow k /\ r <= usize_max.
  Proof.
    revert s. induction k as [|k IH]; intros s.
    - cbn. intros [= <-] H. unfold npow. cbn. lia.
    - cbn [array_size_loop]. destruct (checked_mul s n) as [s'|] eqn:E; [|discriminate].
      intros H Hs. apply checked_mul_inv in E. destruct E as [-> E].
      apply IH in H; [|exact E]. rewrite npow_S. lia.
  Qed.

  Lemma size_loop_over k s : usize_max < s * npow k ->
    s <= usize_max -> array_size_loop n k s = NoCompile.
  Proof.
    intros H Hs. assert (D : (exists r, array_size_loop n k s = Val r) \/
      array_size_loop n k s = NoCompile).
    { clear H Hs. revert s. induction k as [|k IH]; intros s; cbn; [eauto|].
      destruct (checked_mul s n); eauto. }
    destruct D as [[r Hr]|D]; [|exact D]. apply size_loop_inv in Hr; [|exact Hs]. lia.
  Qed.

  Lemma array_size : npow len <= usize_max -> ORDINAL_SIZE (Ordinal_array O len) = Val (npow len).
  Proof.
    intros H. cbn. rewrite (bij_size HO). cbn [bind].
    pose proof (@usize_max_ge cfg). rewrite size_loop_ok; [f_equal; lia|lia|lia].
  Qed.

  Lemma array_size_over : usize_max < npow len -> ORDINAL_SIZE (Ordinal_array O len) = NoCompile.
  Proof.
    intros H. cbn. rewrite (bij_size HO). cbn [bind].
    pose proof (@usize_max_ge cfg). apply size_loop_over; lia.
  Qed.

  (** The ordinals of a list of elements. *)
  Definition ordinals (l : list T) (ds : list N) : Prop :=
    Forall2 (fun t d => ordinal O t = Val d /\ d < n) l ds.

  Lemma ordinals_exist l : exists ds, ordinals l ds.
  Proof.
    induction l as [|t l (ds & IH)].
    - exists []. constructor.
    - destruct (bij_to HO t) as (i & H1 & H2 & _). exists (i :: ds). constructor; auto.
  Qed.

  Lemma ordinals_length l ds : ordinals l ds -> length l = length ds.
  Proof. induction 1; cbn; congruence. Qed.

  Lemma ordinals_lt l ds : ordinals l ds -> Forall2 N.lt ds (repeat n (length l)).
  Proof. induction 1 as [|t d l ds [H1 H2] H IH]; cbn; constructor; auto. Qed.

  Lemma ordinals_inj l1 l2 ds : ordinals l1 ds -> ordinals l2 ds -> l1 = l2.
  Proof.
    intros H. revert l2. induction H as [|t d l ds [H1 H2] H IH]; intros l2 H'.
    - inversion H'. reflexivity.
    - inversion H' as [|t2 ? l2' ? [G1 G2] H'']; subst. f_equal; [|apply IH; exact H''].
      eapply bij_inj; eauto.
  Qed.

  Definition array_value (ds : list N) : N := mixed_radix (repeat n (length ds)) ds.

  Lemma array_ordinal_loop_ok l ds r :
    ordinals l ds -> r * npow (length l) + array_value ds <= usize_max ->
    array_ordinal_loop O n l r = Val (r * npow (length l) + array_value ds).
  Proof.
    intros H. revert r. induction H as [|t d l ds [H1 H2] H IH]; intros r Hm.
    - cbn. unfold npow. cbn. f_equal. unfold array_value. cbn. lia.
    - cbn [array_ordinal_loop length]. cbn [length] in Hm. rewrite npow_S in *.
      unfold array_value in *. cbn [length repeat mixed_radix] in *.
      rewrite product_of_repeat in *. pose proof (ordinals_length H) as E. rewrite <- E in *.
      fold (npow (length l)) in *.
      assert (0 < npow (length l)) by (apply npow_pos; lia).
      assert (r * n + d <= usize_max) by nia.
      rewrite checked_mul_ok by lia. cbn [unwrap bind]. rewrite H1. cbn [bind].
      rewrite uadd_ok by lia. cbn [bind]. rewrite IH; [f_equal; lia|lia].
  Qed.

  Lemma array_value_lt l ds : ordinals l ds -> array_value ds < npow (length l).
  Proof.
    intros H. unfold array_value. rewrite <- (ordinals_length H).
    eapply N.lt_le_trans; [apply mixed_radix_lt, ordinals_lt, H|].
    rewrite product_of_repeat. reflexivity.
  Qed.

  Lemma array_ordinal_ok (a : arr T len) ds :
    npow len <= usize_max -> ordinals (arr_list a) ds ->
    ordinal (Ordinal_array O len) a = Val (array_value ds).
  Proof.
    intros Hm H. cbn. rewrite (bij_size HO). cbn [bind].
    pose proof (array_value_lt H) as L. rewrite (arr_length a) in L.
    rewrite array_ordinal_loop_ok with (ds := ds); [f_equal; lia|exact H|lia].
  Qed.

  (** The decoding loop. *)
  Lemma array_from_loop_ok turns l m :
    0 < n -> (length l + turns = len)%nat ->
    exists l', length l' = turns /\ exists ds, ordinals (rev l') ds /\
      array_value ds = m mod npow turns /\
      if m / npow turns =? 0
      then exists a, arr_list a = rev (l ++ l') /\
             array_from_loop O len n turns m (builder_of len l) =
             {| returned := Val (Some a); dropped := [] |}
      else array_from_loop O len n turns m (builder_of len l) =
             {| returned := Val None; dropped := l ++ l' |}.
  Proof.
    intros Hn. revert l m. induction turns as [|turns IH]; intros l m Hl.
    - exists []. split; [reflexivity|]. exists []. split; [constructor|].
      change (npow 0) with 1. rewrite N.mod_1_r, N.div_1_r. split; [reflexivity|].
      cbn [array_from_loop]. destruct (N.eqb_spec m 0) as [->|Hm]; cbn [negb].
      + destruct (@finish_ok T len l) as (a & Hf & Ha); [lia|]. rewrite Hf.
        cbn [returned dropped bind]. rewrite Ha.
        destruct (@try_arr_ok T len (rev l)) as (a' & -> & Ha').
        { rewrite rev_length. lia. }
        exists a'. rewrite app_nil_r. auto.
      + rewrite leave_ok, app_nil_r. reflexivity.
    - cbn [array_from_loop]. unfold checked_rem.
      destruct (N.eqb_spec n 0) as [->|Hn0]; [lia|].
      destruct (@bij_from _ _ _ _ HO (m mod n)) as (v & H1 & H2); [apply N.mod_lt; lia|].
      rewrite H1. cbn [bind unwrap]. rewrite push_ok by lia. rewrite udiv_ok by lia.
      destruct (IH (l ++ [v]) (m / n)) as (l' & Hl' & ds & Hds & Hval & Hres).
      { rewrite app_length. cbn. lia. }
      exists (v :: l'). split; [cbn; lia|]. exists (ds ++ [m mod n]).
      split; [|split].
      + cbn [rev]. apply Forall2_app; [exact Hds|]. constructor; [|constructor].
        split; [exact H2|]. apply N.mod_lt. lia.
      + unfold array_value in *. rewrite app_length. cbn [length].
        rewrite Nat.add_comm. cbn [plus repeat]. rewrite repeat_cons.
        rewrite mixed_radix_snoc by apply repeat_length.
        rewrite Hval, npow_S.
        rewrite N.mod_mul_r; [lia|lia|]. pose proof (npow_pos turns Hn). lia.
      + rewrite npow_S, <- N.div_div; [|lia| pose proof (npow_pos turns Hn); lia].
        rewrite <- app_assoc in Hres. cbn [app] in Hres. exact Hres.
  Qed.

  Lemma array_from_small m :
    m < npow len ->
    exists a ds, array_from_ordinal O len m = {| returned := Val (Some a); dropped := [] |} /\
      ordinals (arr_list a) ds /\ array_value ds = m.
  Proof.
    intros Hlt. unfold array_from_ordinal. rewrite (bij_size HO), builder_new_of.
    destruct len as [|len'] eqn:El.
    - (* no elements: nothing is decoded, even if T is empty *)
      assert (m = 0) by (unfold npow in Hlt; cbn in Hlt; lia). subst m.
      destruct (@finish_ok T 0 []) as (a & Hf & Ha); [reflexivity|].
      cbn [array_from_loop N.eqb negb]. rewrite Hf. cbn [returned dropped bind]. rewrite Ha.
      destruct (@try_arr_ok T 0 (rev [])) as (a' & -> & Ha'); [reflexivity|].
      exists a', []. split; [reflexivity|]. rewrite Ha'. split; [constructor|reflexivity].
    - rewrite <- El in *.
      assert (0 < n) by (rewrite El, npow_S in Hlt; lia).
      destruct (@array_from_loop_ok len [] m) as (l' & Hl' & ds & Hds & Hval & Hres);
        [assumption|reflexivity|].
      rewrite N.div_small in Hres by assumption. cbn [N.eqb] in Hres.
      destruct Hres as (a & Ha & Hres). exists a, ds. split; [exact Hres|].
      rewrite Ha. split; [exact Hds|]. rewrite Hval. apply N.mod_small. assumption.
  Qed.

  Lemma array_from_ok m :
    npow len <= usize_max -> m < npow len ->
    exists a ds, array_from_ordinal O len m = {| returned := Val (Some a); dropped := [] |} /\
      ordinals (arr_list a) ds /\ array_value ds = m.
  Proof. intros _. apply array_from_small. Qed.

  Lemma array_from_reject m :
    npow len <= m -> exists l, array_from_ordinal O len m = {| returned := Val None; dropped := l |}.
  Proof.
    intros Hge. unfold array_from_ordinal. rewrite (bij_size HO), builder_new_of.
    destruct (N.eq_dec n 0) as [->|Hn].
    - destruct len as [|len'].
      + cbn [array_from_loop]. destruct (N.eqb_spec m 0) as [->|]; [unfold npow in Hge; cbn in Hge; lia|].
        cbn [negb]. exists []. rewrite leave_ok. reflexivity.
      + cbn [array_from_loop]. unfold checked_rem. cbn [N.eqb]. exists []. rewrite leave_ok. reflexivity.
    - destruct (@array_from_loop_ok len [] m) as (l' & Hl' & ds & Hds & Hval & Hres);
        [lia|reflexivity|].
      assert (0 < npow len) by (apply npow_pos; lia).
      destruct (N.eqb_spec (m / npow len) 0) as [E|E].
      + apply N.div_small_iff in E; lia.
      + eexists. exact Hres.
  Qed.

  Lemma array_bijection : npow len <= usize_max -> ordinal_bijection (Ordinal_array O len) (npow len).
  Proof.
    intros Hm. split.
    - apply array_size, Hm.
    - exact Hm.
    - intros a. destruct (ordinals_exist (arr_list a)) as (ds & Hds).
      exists (array_value ds). split; [apply array_ordinal_ok; assumption|].
      pose proof (array_value_lt Hds) as L. rewrite (arr_length a) in L. split; [exact L|].
      destruct (array_from_ok Hm L) as (a' & ds' & Hf & Hds' & Hv).
      cbn [from_ordinal Ordinal_array]. rewrite Hf. cbn [returned]. do 2 f_equal.
      apply arr_ext. apply ordinals_inj with (ds := ds); [|exact Hds].
      replace ds with ds'; [exact Hds'|].
      pose proof (ordinals_length Hds') as E1. pose proof (ordinals_length Hds) as E2.
      rewrite arr_length in E1, E2.
      unfold array_value in Hv. rewrite <- E1, <- E2 in Hv.
      apply mixed_radix_inj with (ns := repeat n len); [| |exact Hv].
      + pose proof (ordinals_lt Hds') as L'. rewrite arr_length in L'. exact L'.
      + pose proof (ordinals_lt Hds) as L'. rewrite arr_length in L'. exact L'.
    - intros i Hi. destruct (array_from_ok Hm Hi) as (a & ds & Hf & Hds & Hv).
      exists a. cbn [from_ordinal Ordinal_array]. rewrite Hf. cbn [returned].
      split; [reflexivity|]. rewrite <- Hv. apply array_ordinal_ok; assumption.
  Qed.

  Lemma array_rejects : rejects_out_of_range (Ordinal_array O len) (npow len).
  Proof.
    intros i H1 H2. destruct (array_from_reject H1) as (l & Hl).
    cbn [from_ordinal Ordinal_array]. rewrite Hl. reflexivity.
  Qed.
End ArrayLaw.
