(** * SpecUnwind: how often user code fails, and what is left in a map. *)
From Verif Require Import Base Spec SpecResume.
From Coq Require Import List. Import ListNotations.

Section Often.
  Context {U T : Type} (from : U -> N -> U * res (option T)).
  (** Whichever ordinals below [size] are asked for, at most [n] of the answers are failures. *)
  Definition fails_at_most (size n : nat) (u : U) : Prop :=
    forall qs, Forall (fun q => q < N.of_nat size) qs ->
      (length (filter failed (fst (answers from u (map Some qs)))) <= n)%nat.
End Often.

(** The slots of a map after: those in [a, b) as before, the others empty. *)
Definition left_between {V} (a b : nat) (before after : list (option V)) : Prop :=
  length after = length before /\
  forall j, (j < length before)%nat ->
    nth_error after j = if (Nat.leb a j && Nat.ltb j b)%bool then nth_error before j else Some None.

(** Two outcomes that are the same, where the first has the slot and the second the value. *)
Definition same_entry {K V} (storage : list (option V)) (a : res (option (K * N))) (b : res (option (K * V))) : Prop :=
  match a, b with
  | Val (Some (k, i)), Val (Some (k', v)) => k = k' /\ nth_error storage (N.to_nat i) = Some (Some v)
  | Val None, Val None => True
  | Panic w, Panic w' => w = w'
  | NoCompile, NoCompile | UB, UB | OutOfFuel, OutOfFuel => True
  | _, _ => False
  end.
