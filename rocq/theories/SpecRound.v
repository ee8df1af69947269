(** * SpecRound: rebuilding a collection from the elements listed by another one. *)
From Verif Require Import Base Spec ModelOrdinal ModelArrayBuilder ModelTotal ModelMap ModelSet.

(** Both sparse maps can be built from [l], and their [get] is [get]. *)
Definition rebuilt {cfg : Config} {K V} (O : Ordinal K) (n : N) (get : K -> res (option V)) (l : list (K * V)) : Prop :=
  (exists st, OrdinalMap_from_iter O l = Val st /\ forall k, OrdinalMap_get O st k = get k) /\
  (forall S, N.of_nat S = n ->
     exists a, OrdinalArrayMap_from_iter O S l = Val a /\ forall k, OrdinalArrayMap_get O a k = get k).

(** The same, from a map that has a value for every key. *)
Definition rebuilt_total {cfg : Config} {K V} (O : Ordinal K) (n : N) (get : K -> res V) (l : list (K * V)) : Prop :=
  (exists st, OrdinalMap_from_iter O l = Val st /\
     forall k, exists v, get k = Val v /\ OrdinalMap_get O st k = Val (Some v)) /\
  (forall S, N.of_nat S = n ->
     exists a, OrdinalArrayMap_from_iter O S l = Val a /\
       forall k, exists v, get k = Val v /\ OrdinalArrayMap_get O a k = Val (Some v)).

(** Each set type that can hold the elements (C55, C57, C59 delimit the sizes) can be built
    from [l], and its [contains] is [contains]. *)
Definition refilled {cfg : Config} {T} (O : Ordinal T) (n : N) (contains : T -> res bool) (l : list T) : Prop :=
  (n <= usize_max - 64 ->
     exists s, OrdinalSet_from_iter O l = Val s /\ forall t, OrdinalSet_contains O s t = contains t) /\
  (forall S, ordinal_array_set_s O = Val (N.of_nat S) ->
     exists s : OrdinalArraySet S, OrdinalArraySet_from_iter O S l = Val s /\
       forall t, OrdinalArraySet_contains O s t = contains t) /\
  (n <= 64 ->
     exists s, OrdinalSet64_from_iter O l = Val s /\ forall t, OrdinalSet64_contains O s t = contains t).

(** Two runs of a fallible constructor end alike. *)
Definition ends_alike {A B E} (same : A -> B -> Prop) (x : res (result A E)) (y : res (result B E)) : Prop :=
  match x, y with
  | Val (ResOk m), Val (ResOk a) => same m a
  | Val (ResErr e), Val (ResErr e') => e = e'
  | Panic w, Panic w' => w = w'
  | NoCompile, NoCompile | UB, UB | OutOfFuel, OutOfFuel => True
  | _, _ => False
  end.
