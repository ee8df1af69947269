(** * SpecOverride: what an overridden [all_values] can do to the containers (C97). *)
From Verif Require Import Base Spec ModelOrdinal.

(** The elements of [l] at the positions from [lo] up to, not including, [hi]. *)
Definition slice {A} (l : list A) (lo hi : N) : list A :=
  firstn (N.to_nat (hi - lo)) (skipn (N.to_nat lo) l).

(** The elements of [l] whose ordinal is at least [lo] and less than [hi]. *)
Definition within {K} (O : Ordinal K) (lo hi : N) (l : list K) : list K :=
  filter (fun t => match ordinal O t with Val i => (lo <=? i) && (i <? hi) | _ => false end) l.

(** The range is the one the default [all_values] gives to a type with [n] values; every empty range
    is as good if there are no values. *)
Definition right_range (n lo hi : N) : Prop := (lo = 0 /\ hi = n) \/ (n = 0 /\ hi <= lo).

(** All numbers of the range are ordinals of a type with [n] values. *)
Definition all_decode (n lo hi : N) : bool := (hi <=? n) || (hi <=? lo).

(** The calls' results [r], and then a panic unless a call failed already. *)
Definition then_panics {A B E} (w : panic) (r : res (result A E)) : res (result B E) :=
  x <- r ;; match x with ResOk _ => Panic w | ResErr e => Val (ResErr e) end.
