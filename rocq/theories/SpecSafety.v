(** * SpecSafety: no undefined behaviour and no endless loop, whatever the Ordinal impl does (C64). *)
From Verif Require Import Base Spec.

(** A legal outcome: a value, a panic or a compile-time error. *)
Definition no_ub {A} (r : res A) : Prop :=
  match r with UB | OutOfFuel => False | _ => True end.

(** An Ordinal impl that may be wrong in every respect, but whose functions finish without
    undefined behaviour (Ordinal is a safe trait: this is all the compiler guarantees). *)
Definition any_impl {T : Type} (O : Ordinal T) : Prop :=
  no_ub (ORDINAL_SIZE O) /\ (forall t, no_ub (ordinal O t)) /\ (forall i, no_ub (from_ordinal O i)).
