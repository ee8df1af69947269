(** * SpecBuild: one program on two targets, or in two builds. *)
From Verif Require Import Base Spec.

(** The target can count the values: ORDINAL_SIZE is a usize. *)
Definition sized (c : Config) {K : Type} (O : Ordinal K) : Prop :=
  forall n, ORDINAL_SIZE O = Val n -> n <= @usize_max c.
Definition sized_both (c d : Config) {K : Type} (O : Ordinal K) : Prop := sized c O /\ sized d O.

(** The panics of checks that a build may leave out. *)
Definition failed_check (w : panic) : Prop := w = POverflow \/ w = PDebugAssert.

(** A build that leaves out none. *)
Definition all_checks (c : Config) : Prop :=
  @overflow_checks c = true /\ @debug_assertions c = true.

(** For examples: an implementation with [size] values, whose [ordinal] is not below it. *)
Definition sloppy (size : N) : Ordinal N :=
  {| ORDINAL_SIZE := Val size; ordinal := fun t => if t =? 13 then Panic PUser else Val t;
     from_ordinal := fun i => Val (Some i) |}.
