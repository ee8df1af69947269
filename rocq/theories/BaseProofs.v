(** * BaseProofs: facts about the definitions of Base and Spec. *)
From Verif Require Import Base Spec.
From Coq Require Import Eqdep_dec.

Lemma bind_Val {A B} (a : A) (k : A -> res B) : bind (Val a) k = k a.
Proof. reflexivity. Qed.

Lemma bind_inv {A B} (m : res A) (k : A -> res B) b :
  bind m k = Val b -> exists a, m = Val a /\ k a = Val b.
Proof. destruct m; simpl; intros H; try discriminate; eauto. Qed.

Ltac bind_inv H :=
  let a := fresh "a" in let Ha := fresh "Ha" in
  apply bind_inv in H; destruct H as (a & Ha & H).

Section Arith.
  Context {cfg : Config}.

  Lemma usize_max_ge : 4294967295 <= usize_max.
  Proof. unfold usize_max. destruct usize_width; lia. Qed.

  Lemma uadd_ok a b : a + b <= usize_max -> uadd a b = Val (a + b).
  Proof.
    intros H. unfold uadd, usize_rt.
    destruct ((0 <=? Z.of_N a + Z.of_N b) && (Z.of_N a + Z.of_N b <=? Z.of_N usize_max))%Z eqn:E.
    - f_equal. lia.
    - lia.
  Qed.

  Lemma usub_ok a b : b <= a -> a <= usize_max -> usub a b = Val (a - b).
  Proof.
    intros H1 H2. unfold usub, usize_rt.
    destruct ((0 <=? Z.of_N a - Z.of_N b) && (Z.of_N a - Z.of_N b <=? Z.of_N usize_max))%Z eqn:E.
    - f_equal. lia.
    - lia.
  Qed.

  Lemma umul_ok a b : a * b <= usize_max -> umul a b = Val (a * b).
  Proof.
    intros H. unfold umul, usize_rt.
    destruct ((0 <=? Z.of_N a * Z.of_N b) && (Z.of_N a * Z.of_N b <=? Z.of_N usize_max))%Z eqn:E.
    - f_equal. lia.
    - lia.
  Qed.

  Lemma cadd_ok a b : a + b <= usize_max -> cadd a b = Val (a + b).
  Proof.
    intros H. unfold cadd, usize_const.
    destruct ((0 <=? Z.of_N a + Z.of_N b) && (Z.of_N a + Z.of_N b <=? Z.of_N usize_max))%Z eqn:E.
    - f_equal. lia.
    - lia.
  Qed.

  Lemma cadd_inv a b n : cadd a b = Val n -> n = a + b /\ a + b <= usize_max.
  Proof.
    unfold cadd, usize_const.
    destruct ((0 <=? Z.of_N a + Z.of_N b) && (Z.of_N a + Z.of_N b <=? Z.of_N usize_max))%Z eqn:E.
    - intros [= <-]. lia.
    - discriminate.
  Qed.

  Lemma cadd_over a b : usize_max < a + b -> cadd a b = NoCompile.
  Proof.
    intros H. unfold cadd, usize_const.
    destruct ((0 <=? Z.of_N a + Z.of_N b) && (Z.of_N a + Z.of_N b <=? Z.of_N usize_max))%Z eqn:E.
    - lia.
    - reflexivity.
  Qed.

  Lemma csub_ok a b : b <= a -> a <= usize_max -> csub a b = Val (a - b).
  Proof.
    intros H1 H2. unfold csub, usize_const.
    destruct ((0 <=? Z.of_N a - Z.of_N b) && (Z.of_N a - Z.of_N b <=? Z.of_N usize_max))%Z eqn:E.
    - f_equal. lia.
    - lia.
  Qed.

  Lemma cmul_ok a b : a * b <= usize_max -> cmul a b = Val (a * b).
  Proof.
    intros H. unfold cmul, usize_const.
    destruct ((0 <=? Z.of_N a * Z.of_N b) && (Z.of_N a * Z.of_N b <=? Z.of_N usize_max))%Z eqn:E.
    - f_equal. lia.
    - lia.
  Qed.

  Lemma cmul_inv a b n : cmul a b = Val n -> n = a * b /\ a * b <= usize_max.
  Proof.
    unfold cmul, usize_const.
    destruct ((0 <=? Z.of_N a * Z.of_N b) && (Z.of_N a * Z.of_N b <=? Z.of_N usize_max))%Z eqn:E.
    - intros [= <-]. lia.
    - discriminate.
  Qed.

  Lemma cmul_over a b : usize_max < a * b -> cmul a b = NoCompile.
  Proof.
    intros H. unfold cmul, usize_const.
    destruct ((0 <=? Z.of_N a * Z.of_N b) && (Z.of_N a * Z.of_N b <=? Z.of_N usize_max))%Z eqn:E.
    - lia.
    - reflexivity.
  Qed.

  Lemma udiv_ok a b : b <> 0 -> udiv a b = Val (a / b).
  Proof. unfold udiv. destruct (N.eqb_spec b 0); congruence. Qed.

  Lemma urem_ok a b : b <> 0 -> urem a b = Val (a mod b).
  Proof. unfold urem. destruct (N.eqb_spec b 0); congruence. Qed.

  Lemma as_usize_ok x : (0 <= x <= Z.of_N usize_max)%Z -> as_usize x = Z.to_N x.
  Proof. intros H. unfold as_usize. rewrite Z.mod_small by lia. reflexivity. Qed.

  Lemma checked_mul_ok a b : a * b <= usize_max -> checked_mul a b = Some (a * b).
  Proof. intros H. unfold checked_mul. destruct (N.leb_spec (a * b) usize_max); [reflexivity|lia]. Qed.

  Lemma checked_mul_inv a b n : checked_mul a b = Some n -> n = a * b /\ a * b <= usize_max.
  Proof.
    unfold checked_mul. destruct (N.leb_spec (a * b) usize_max); [|discriminate].
    intros [= <-]. auto.
  Qed.

  Lemma checked_mul_over a b : usize_max < a * b -> checked_mul a b = None.
  Proof. intros H. unfold checked_mul. destruct (N.leb_spec (a * b) usize_max); [lia|reflexivity]. Qed.
End Arith.

(** ** Bounded types *)

Lemma bool_uip (b c : bool) (p q : b = c) : p = q.
Proof. apply UIP_dec. decide equality. Qed.

Lemma int_ext {lo hi} (a b : int lo hi) : int_val a = int_val b -> a = b.
Proof.
  destruct a as [a Ha], b as [b Hb]. simpl. intros <-. f_equal. apply bool_uip.
Qed.

Lemma int_range {lo hi} (a : int lo hi) : (lo <= int_val a <= hi)%Z.
Proof. destruct a as [a Ha]. simpl. lia. Qed.

Lemma nz_ext {lo hi} (a b : nonzero lo hi) :
  int_val (nz_get a) = int_val (nz_get b) -> a = b.
Proof.
  destruct a as [a Ha], b as [b Hb]. simpl. intros H.
  apply int_ext in H. subst. f_equal. apply bool_uip.
Qed.

Lemma nz_nonzero {lo hi} (a : nonzero lo hi) : int_val (nz_get a) <> 0%Z.
Proof. destruct a as [a Ha]. simpl. lia. Qed.

Lemma nz_range {lo hi} (a : nonzero lo hi) : (lo <= int_val (nz_get a) <= hi)%Z.
Proof. apply int_range. Qed.

Lemma try_int_some lo hi z :
  (lo <= z <= hi)%Z -> exists x, try_int lo hi z = Some x /\ int_val x = z.
Proof.
  intros H. unfold try_int.
  destruct (Sumbool.sumbool_of_bool ((lo <=? z) && (z <=? hi))%Z) as [E|E].
  - eexists; split; [reflexivity|reflexivity].
  - lia.
Qed.

Lemma try_int_none lo hi z : (z < lo \/ hi < z)%Z -> try_int lo hi z = None.
Proof.
  intros H. unfold try_int.
  destruct (Sumbool.sumbool_of_bool ((lo <=? z) && (z <=? hi))%Z) as [E|E].
  - lia.
  - reflexivity.
Qed.

Lemma try_int_val {lo hi} (x : int lo hi) : try_int lo hi (int_val x) = Some x.
Proof.
  destruct (@try_int_some lo hi (int_val x) (int_range x)) as (y & Hy & E).
  rewrite Hy. f_equal. apply int_ext. exact E.
Qed.

Lemma nz_new_some {lo hi} (x : int lo hi) :
  int_val x <> 0%Z -> exists y, nz_new x = Some y /\ nz_get y = x.
Proof.
  intros H. unfold nz_new.
  destruct (Sumbool.sumbool_of_bool (negb (int_val x =? 0)%Z)) as [E|E].
  - eexists; split; reflexivity.
  - lia.
Qed.

Lemma nz_new_none {lo hi} (x : int lo hi) : int_val x = 0%Z -> nz_new x = None.
Proof.
  intros H. unfold nz_new.
  destruct (Sumbool.sumbool_of_bool (negb (int_val x =? 0)%Z)) as [E|E].
  - lia.
  - reflexivity.
Qed.

Lemma char_ext (a b : char) : char_val a = char_val b -> a = b.
Proof.
  destruct a as [a Ha], b as [b Hb]. simpl. intros <-. f_equal. apply bool_uip.
Qed.

Lemma char_scalar (c : char) :
  char_val c < 55296 \/ 57344 <= char_val c <= 1114111.
Proof. destruct c as [c Hc]. unfold is_scalar in Hc. simpl. lia. Qed.

Lemma char_from_some c :
  (c < 55296 \/ 57344 <= c <= 1114111) ->
  exists x, char_from_u32 c = Some x /\ char_val x = c.
Proof.
  intros H. unfold char_from_u32.
  destruct (Sumbool.sumbool_of_bool (is_scalar c)) as [E|E].
  - eexists; split; reflexivity.
  - unfold is_scalar in E. lia.
Qed.

Lemma char_from_none c :
  (55296 <= c < 57344 \/ 1114111 < c) -> char_from_u32 c = None.
Proof.
  intros H. unfold char_from_u32.
  destruct (Sumbool.sumbool_of_bool (is_scalar c)) as [E|E].
  - unfold is_scalar in E. lia.
  - reflexivity.
Qed.

(** ** The ordinal law *)

Section Law.
  Context {cfg : Config} {T : Type} (O : Ordinal T).

  Lemma bij_intro (n : N) (f : T -> N) :
    ORDINAL_SIZE O = Val n -> n <= usize_max ->
    (forall t, ordinal O t = Val (f t)) ->
    (forall t, f t < n) ->
    (forall a b, f a = f b -> a = b) ->
    (forall i, i < n -> exists t, from_ordinal O i = Val (Some t) /\ f t = i) ->
    ordinal_bijection O n.
  Proof.
    intros Hs Hm Ho Hr Hinj Hf. split; try assumption.
    - intros t. exists (f t). split; [apply Ho|]. split; [apply Hr|].
      destruct (Hf (f t) (Hr t)) as (t' & Ht' & E). rewrite Ht'.
      do 2 f_equal. apply Hinj. exact E.
    - intros i Hi. destruct (Hf i Hi) as (t & Ht & E).
      exists t. rewrite Ho, E. auto.
  Qed.

  Lemma bij_inj n a b i :
    ordinal_bijection O n -> ordinal O a = Val i -> ordinal O b = Val i -> a = b.
  Proof.
    intros H Ha Hb.
    destruct (bij_to H a) as (i1 & H1 & _ & H1').
    destruct (bij_to H b) as (i2 & H2 & _ & H2').
    congruence.
  Qed.

  Lemma bij_eq_dec n : ordinal_bijection O n -> forall a b : T, {a = b} + {a <> b}.
  Proof.
    intros H a b.
    destruct (ordinal O a) as [i| | | |] eqn:Ea;
      try (exfalso; destruct (bij_to H a) as (i1 & H1 & _); congruence).
    destruct (ordinal O b) as [j| | | |] eqn:Eb;
      try (exfalso; destruct (bij_to H b) as (j1 & H1 & _); congruence).
    destruct (N.eq_dec i j) as [->|N].
    - left. eapply bij_inj; eauto.
    - right. congruence.
  Defined.

  Lemma bij_empty (t : T) : ordinal_bijection O 0 -> False.
  Proof. intros H. destruct (bij_to H t) as (i & _ & Hi & _). lia. Qed.

  Lemma bij_pos n (t : T) : ordinal_bijection O n -> 0 < n.
  Proof. intros H. destruct (bij_to H t) as (i & _ & Hi & _). lia. Qed.

  Lemma bij_from_inv n i t :
    ordinal_bijection O n -> i < n -> from_ordinal O i = Val (Some t) -> ordinal O t = Val i.
  Proof. intros H Hi Ht. destruct (bij_from H Hi) as (t' & E1 & E2). congruence. Qed.

  Lemma bij_lt n t i : ordinal_bijection O n -> ordinal O t = Val i -> i < n.
  Proof. intros H Hi. destruct (bij_to H t) as (j & E & Hj & _). congruence. Qed.

  Lemma bij_back n t i :
    ordinal_bijection O n -> ordinal O t = Val i -> from_ordinal O i = Val (Some t).
  Proof. intros H Hi. destruct (bij_to H t) as (j & E & _ & Hj). congruence. Qed.
End Law.

Lemma Forall2_length {A B} (R : A -> B -> Prop) l l' : Forall2 R l l' -> length l = length l'.
Proof. induction 1; cbn; congruence. Qed.
