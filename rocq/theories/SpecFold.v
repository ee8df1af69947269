(** * SpecFold: the mathematical value of the macro's size expressions (C71). *)
From Verif Require Import Base Spec ModelDerive.

Definition leaf (r : res N) : N := match r with Val n => n | _ => 0 end.

(** The value of a generated Rust expression in unbounded arithmetic. *)
Fixpoint rval (fo : nat -> res N) (ov : N) (e : rexpr) : N :=
  match e with
  | RLit c => c
  | RSizeOf ty => leaf (ORDINAL_SIZE (ft_ord ty))
  | ROrdinalOf i => leaf (fo i)
  | RAdd a b => rval fo ov a + rval fo ov b
  | RMul a b => rval fo ov a * rval fo ov b
  | RSub a b => rval fo ov a - rval fo ov b
  | ROrdinalVar => ov
  | RConst e => rval fo ov e
  end.

(** The value of a size expression. *)
Fixpoint sval (fo : nat -> res N) (ov : N) (s : SizeExpr) : N :=
  match s with
  | SConst c => c
  | SSyn e => rval fo ov e
  | SSum l => sum_of (map (sval fo ov) l)
  | SProduct l => product_of (map (sval fo ov) l)
  end.

(** Sums and products have two parts at least (the macro asserts it). *)
Fixpoint two_parts (s : SizeExpr) : Prop :=
  match s with
  | SConst _ | SSyn _ => True
  | SSum l | SProduct l =>
      (2 <= length l)%nat /\ (fix all (l : list SizeExpr) : Prop :=
         match l with [] => True | x :: r => two_parts x /\ all r end) l
  end.

(** The literal constants among the operands. *)
Fixpoint constants (es : list SizeExpr) : list N :=
  match es with
  | [] => []
  | SConst c :: r => c :: constants r
  | _ :: r => constants r
  end.
