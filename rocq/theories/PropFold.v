(** * PropFold: C71, constant folding in the derive macro preserves the value.

    [sval fo ov s]: the value of a size expression, [rval fo ov e]: the value of generated Rust
    code, both in unbounded arithmetic, when the fields have the ordinals [fo] and the
    parameter [ordinal] is [ov]; [two_parts s]: sums and products have at least two operands,
    which the macro asserts; [constants es]: the literal operands (SpecFold.v). *)
From Verif Require Import Base Spec ModelOrdinal ModelDerive SpecFold OrdinalProofs FoldProofs.
From Coq Require Import List. Import ListNotations.

Theorem C71_product : forall es s, product es = Val s ->
  forall fo ov, sval fo ov s = product_of (map (sval fo ov) es).
Proof. exact @product_law. Qed.
Print Assumptions C71_product.
Theorem C71_sum : forall es s, sum es = Val s ->
  forall fo ov, sval fo ov s = sum_of (map (sval fo ov) es).
Proof. exact @sum_law. Qed.
Print Assumptions C71_sum.
(** The macro gives up exactly when the literals multiplied (or added) so far pass u64::MAX. *)
Theorem C71_product_returns : forall es,
  (exists s, product es = Val s) /\ (forall k, product_of (firstn k (constants es)) <= u64_max) \/
  product es = NoCompile /\ (exists k, u64_max < product_of (firstn k (constants es))).
Proof. exact @product_returns. Qed.
Print Assumptions C71_product_returns.
Theorem C71_sum_returns : forall es,
  (exists s, sum es = Val s) /\ sum_of (constants es) <= u64_max \/
  sum es = NoCompile /\ u64_max < sum_of (constants es).
Proof. exact @sum_returns. Qed.
Print Assumptions C71_sum_returns.
(** Folding keeps what the code generator asserts, and the generator then succeeds. *)
Theorem C71_product_parts : forall es s, Forall two_parts es -> product es = Val s -> two_parts s.
Proof. exact @product_wf. Qed.
Print Assumptions C71_product_parts.
Theorem C71_sum_parts : forall es s, Forall two_parts es -> sum es = Val s -> two_parts s.
Proof. exact @sum_wf. Qed.
Print Assumptions C71_sum_parts.
Theorem C71_expr : forall s, two_parts s ->
  exists e, expr s = Val e /\ forall fo ov, rval fo ov e = sval fo ov s.
Proof. exact @expr_val. Qed.
Print Assumptions C71_expr.
Theorem C71_const_expr : forall s, two_parts s ->
  exists e, const_expr s = Val e /\ forall fo ov, rval fo ov e = sval fo ov s.
Proof. exact @const_expr_val. Qed.
Print Assumptions C71_const_expr.
(** The emitted code computes that value or stops, wherever overflow is checked (always in
    constants). *)
Theorem C71_eval : forall (cfg : Config) (ctx : bool) fo ov e v, ctx = true \/ overflow_checks = true ->
  eval ctx fo ov e = Val v -> v = rval fo ov e.
Proof. exact @eval_val. Qed.
Print Assumptions C71_eval.

Definition ty3 : ftype := {| ft_T := comparison; ft_ord := Ordinal_Ordering; ft_lt := fun _ _ => False |}.
Example C71_case :
  let es := [SConst 2; ordinal_size_expr ty3; SProduct [SConst 5; ordinal_size_expr ty3]; SConst 7] in
  let s := SProduct [SConst 14; ordinal_size_expr ty3; SConst 5; ordinal_size_expr ty3] in
  Forall two_parts es /\ product es = Val s /\ sval no_ordinals 0 s = 630 /\
  product [SConst 3; ordinal_size_expr ty3; SConst 0] = Val (SConst 0) /\
  product [SConst u64_max; SConst 2; SConst 0] = NoCompile /\
  sum [SConst 2; SSum [SConst 5; ordinal_size_expr ty3]; SConst 7] =
    Val (SSum [SConst 9; SConst 5; ordinal_size_expr ty3]) /\
  (e <- expr s ;; eval (cfg := debug32) true no_ordinals 0 e) = Val 630.
Proof. cbv zeta. split; [repeat constructor|]. repeat split; vm_compute; reflexivity. Qed.
