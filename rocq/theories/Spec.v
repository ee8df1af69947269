(** * Spec: the vocabulary in which the properties are stated.

    Nothing here refers to how the crate works. *)
From Verif Require Import Base.
From Coq Require Export Sorted.

(** The three items of the [Ordinal] trait (ordinal/traits.rs:59-104) of a type [T]. *)
Record Ordinal (T : Type) := {
  ORDINAL_SIZE : res N;
  ordinal : T -> res N;
  from_ordinal : N -> res (option T)
}.
Arguments Build_Ordinal T & _ _ _.

(** The law of the trait's documentation (ordinal/traits.rs:1-6): [T] has exactly [n]
    values (and [n] fits usize), each has a unique number below [n], each number below
    [n] belongs to a unique value, and [ordinal]/[from_ordinal] convert without
    panicking. *)
Record ordinal_bijection {cfg : Config} {T : Type} (O : Ordinal T) (n : N) : Prop := {
  bij_size : ORDINAL_SIZE O = Val n;
  bij_fits : n <= usize_max;
  bij_to : forall t : T, exists i, ordinal O t = Val i /\ i < n /\ from_ordinal O i = Val (Some t);
  bij_from : forall i, i < n -> exists t, from_ordinal O i = Val (Some t) /\ ordinal O t = Val i
}.

(** [from_ordinal] returns [None] for every usize that is not an ordinal. *)
Definition rejects_out_of_range {cfg : Config} {T : Type} (O : Ordinal T) (n : N) : Prop :=
  forall i, n <= i -> i <= usize_max -> from_ordinal O i = Val None.

(** Both together. *)
Definition lawful {cfg : Config} {T : Type} (O : Ordinal T) (n : N) : Prop :=
  ordinal_bijection O n /\ rejects_out_of_range O n.

(** [O]'s numbering agrees with the order [lt] (Rust's [<]). *)
Definition ordinal_monotone {T : Type} (O : Ordinal T) (lt : T -> T -> Prop) : Prop :=
  forall a b i j, ordinal O a = Val i -> ordinal O b = Val j -> (lt a b <-> i < j).

(** [a] comes strictly before [b] in the numbering. *)
Definition ordinal_before {T : Type} (O : Ordinal T) (a b : T) : Prop :=
  exists i j, ordinal O a = Val i /\ ordinal O b = Val j /\ i < j.

(** [l] lists every value of [T] exactly once, in ordinal order. *)
Definition enumeration {T : Type} (O : Ordinal T) (l : list T) : Prop :=
  (forall t : T, In t l) /\ StronglySorted (ordinal_before O) l.

(** Double-ended consumption of a sequence: [Front]/[Back] is one call of
    [next]/[next_back]; the result of a call is [None] when nothing is left. *)
Inductive dir := Front | Back.

Definition deque_step {A} (d : dir) (l : list A) : option A * list A :=
  match d with
  | Front => match l with [] => (None, []) | x :: r => (Some x, r) end
  | Back => match rev l with [] => (None, []) | x :: r => (Some x, rev r) end
  end.

Fixpoint deque_run {A} (s : list dir) (l : list A) : list (option A) * list A :=
  match s with
  | [] => ([], l)
  | d :: s' =>
      let '(o, l') := deque_step d l in
      let '(os, l'') := deque_run s' l' in
      (o :: os, l'')
  end.

(** Mathematical partial and total maps. *)
Definition pmap (K V : Type) := K -> option V.
Definition tmap (K V : Type) := K -> V.

Definition pm_empty {K V} : pmap K V := fun _ => None.
Definition pm_set {K V} (eqd : forall a b : K, {a = b} + {a <> b})
    (m : pmap K V) (k : K) (o : option V) : pmap K V :=
  fun k' => if eqd k k' then o else m k'.
Definition tm_set {K V} (eqd : forall a b : K, {a = b} + {a <> b})
    (m : tmap K V) (k : K) (v : V) : tmap K V :=
  fun k' => if eqd k k' then v else m k'.

(** The entries of a partial map along a list of keys. *)
Fixpoint pm_entries {K V} (keys : list K) (m : pmap K V) : list (K * V) :=
  match keys with
  | [] => []
  | k :: ks => match m k with
               | Some v => (k, v) :: pm_entries ks m
               | None => pm_entries ks m
               end
  end.

Definition tm_entries {K V} (keys : list K) (m : tmap K V) : list (K * V) :=
  map (fun k => (k, m k)) keys.

(** Mathematical sets (as characteristic functions). *)
Definition mset (T : Type) := T -> bool.
Definition ms_empty {T} : mset T := fun _ => false.
Definition ms_add {T} (eqd : forall a b : T, {a = b} + {a <> b}) (m : mset T) (t : T) : mset T :=
  fun t' => if eqd t t' then true else m t'.

(** Positional numbers: [mixed_radix radices digits], most significant digit first. *)
Definition product_of (ns : list N) : N := fold_right N.mul 1 ns.
Definition sum_of (ns : list N) : N := fold_right N.add 0 ns.
Fixpoint mixed_radix (radices digits : list N) : N :=
  match radices, digits with
  | _ :: ns, d :: ds => d * product_of ns + mixed_radix ns ds
  | _, _ => 0
  end.

(** Concrete platforms, used in examples and refutations only. *)
Definition debug64 : Config := {| usize_width := W64; overflow_checks := true; debug_assertions := true |}.
Definition release64 : Config := {| usize_width := W64; overflow_checks := false; debug_assertions := false |}.
Definition debug32 : Config := {| usize_width := W32; overflow_checks := true; debug_assertions := true |}.
Definition release32 : Config := {| usize_width := W32; overflow_checks := false; debug_assertions := false |}.
