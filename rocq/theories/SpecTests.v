(** * SpecTests: what a test of an [Ordinal] type is meant to establish. *)
From Verif Require Import Base Spec.
From Coq Require Import List. Import ListNotations.

(** [eqb] decides equality. *)
Definition decides_eq {T} (eqb : T -> T -> bool) : Prop := forall a b, eqb a b = true <-> a = b.

(** Neighbours are in order. *)
Definition neighbours {T} (R : T -> T -> Prop) (l : list T) : Prop :=
  forall l1 a b l2, l = l1 ++ a :: b :: l2 -> R a b.

(** The element at position [i] has ordinal [i], and [i] is converted back to it. *)
Definition numbers_of {T} (O : Ordinal T) (l : list T) : Prop :=
  forall i t, nth_error l i = Some t -> ordinal O t = Val (N.of_nat i) /\ from_ordinal O (N.of_nat i) = Val (Some t).
