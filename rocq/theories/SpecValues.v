(** * SpecValues: walking the ordinals of an arbitrary [Ordinal] impl. *)
From Verif Require Import Base Spec.

(** The value with ordinal [i]; a panic if the impl has none. *)
Definition decode {T} (O : Ordinal T) (i : N) : res T :=
  match from_ordinal O i with
  | Val (Some t) => Val t
  | Val None => Panic PUnwrap
  | Panic w => Panic w
  | NoCompile => NoCompile
  | UB => UB
  | OutOfFuel => OutOfFuel
  end.

Definition decode_opt {T} (O : Ordinal T) (o : option N) : res (option T) :=
  match o with
  | Some i => t <- decode O i ;; Val (Some t)
  | None => Val None
  end.

(** Decode one by one; the first failure is the outcome. *)
Fixpoint decode_each {T} (O : Ordinal T) (os : list (option N)) : res (list (option T)) :=
  match os with
  | [] => Val []
  | o :: r => x <- decode_opt O o ;; xs <- decode_each O r ;; Val (x :: xs)
  end.

(** [0, 1, ..., n - 1] *)
Definition ordinals (n : N) : list N := map N.of_nat (seq 0 (N.to_nat n)).
