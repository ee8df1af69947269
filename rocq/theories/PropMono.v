(** * PropMono: C79, which types have an [ordinal] and a [from_ordinal] to call, and what
    these do for types with more than usize::MAX values. *)
From Verif Require Import Base Spec SpecDerive SpecUniverse ModelOrdinal ModelArrayBuilder
  ModelDerive ModelUniverse SpecMem ModelMono SpecMono UniverseProofs4 MonoProofs.
From Coq Require Import List.
Import ListNotations.

(** ** C79: whether a call compiles depends on the type only, never on the value or the
    number it is given *)
Theorem C79_ordinal_same_for_all_values : forall (cfg : Config) (t : ty) (v : type_of t),
  compiled_ordinal t v = NoCompile <-> inst_ordinal t = NoCompile.
Proof. exact @compiled_ordinal_const. Qed.
Print Assumptions C79_ordinal_same_for_all_values.

Theorem C79_from_same_for_all_numbers : forall (cfg : Config) (t : ty) i, i <= usize_max ->
  compiled_from t i = NoCompile <-> inst_from t = NoCompile.
Proof. exact @compiled_from_const. Qed.
Print Assumptions C79_from_same_for_all_numbers.

(** The types it compiles for, by counting values. *)
Theorem C79_ordinal_available : forall (cfg : Config) (t : ty), accepted t ->
  (inst_ordinal t = Val tt <-> ordinal_available t).
Proof. exact @ordinal_available_iff. Qed.
Print Assumptions C79_ordinal_available.

Theorem C79_from_available : forall (cfg : Config) (t : ty), accepted t ->
  (inst_from t = Val tt <-> from_available t).
Proof. exact @from_available_iff. Qed.
Print Assumptions C79_from_available.

(** For all others it is a compile error. *)
Theorem C79_all_others_rejected : forall (cfg : Config) (t : ty), accepted t ->
  ~ ordinal_available t -> forall v, compiled_ordinal t v = NoCompile.
Proof. exact @rejected_whole. Qed.
Print Assumptions C79_all_others_rejected.

(** A type with an ORDINAL_SIZE has both functions, whether or not the derive accepts each
    declaration in it. *)
Theorem C79_size_is_enough : forall (cfg : Config) (t : ty) n,
  ORDINAL_SIZE (impl_of t) = Val n -> inst_ordinal t = Val tt /\ inst_from t = Val tt.
Proof. exact @sized_both. Qed.
Print Assumptions C79_size_is_enough.

(** When it compiles, [ordinal] returns or panics ... *)
Theorem C79_ordinal_returns_or_panics : forall (cfg : Config) (t : ty),
  inst_ordinal t = Val tt -> forall v, safe (ordinal (impl_of t) v).
Proof. exact @inst_safe. Qed.
Print Assumptions C79_ordinal_returns_or_panics.

(** ... and [from_ordinal] returns, whatever the number of values. *)
Theorem C79_from_returns : forall (cfg : Config) (t : ty), inst_from t = Val tt ->
  forall i, i <= usize_max -> exists r, from_ordinal (impl_of t) i = Val r.
Proof. exact @from_total. Qed.
Print Assumptions C79_from_returns.

(** Every number below both bounds stands for a value that has this number. *)
Theorem C79_decode : forall (cfg : Config) (t : ty) n i, inst_ordinal t = Val tt ->
  has_values (type_of t) n -> i < n -> i <= usize_max ->
  exists v, from_ordinal (impl_of t) i = Val (Some v) /\ ordinal (impl_of t) v = Val i.
Proof. exact @decodes_count. Qed.
Print Assumptions C79_decode.

(** With overflow checks every number [ordinal] returns leads back to the value.  (Without
    them it may not: C16_no_collisions_refuted.) *)
Theorem C79_encode : forall (cfg : Config) (t : ty) n v i, overflow_checks = true ->
  inst_ordinal t = Val tt -> has_values (type_of t) n -> ordinal (impl_of t) v = Val i ->
  i < n /\ i <= usize_max /\ from_ordinal (impl_of t) i = Val (Some v).
Proof. exact @round_trip_count. Qed.
Print Assumptions C79_encode.

(** *** Examples *)

(** [Result<u8, Option<Option<NonZeroUsize>>>] has more than usize::MAX values, and its
    [ordinal] compiles. *)
Definition spilling : ty := TResult (TPrim Pu8) (TOption (TOption (TPrim PNonZeroUsize))).

Example C79_spilling : forall cfg : Config,
  accepted spilling /\ ordinal_available spilling /\ inst_ordinal spilling = Val tt /\
  inst_from spilling = Val tt /\ usize_max < card spilling /\ ORDINAL_SIZE (impl_of spilling) = NoCompile.
Proof.
  intros [[] [] []]; (split; [cbn; tauto|]); (split; [vm_compute; repeat split; discriminate|]);
    repeat split; vm_compute; reflexivity.
Qed.

(** Put into a tuple or on the left of a Result, the same type is rejected, although
    [ordinal] of [Err(false)] or of [Ok(..)] with a small number would not overflow. *)
Example C79_spilling_inside : forall cfg : Config,
  inst_ordinal (TTuple [spilling]) = NoCompile /\
  inst_ordinal (TResult spilling (TPrim Pbool)) = NoCompile /\
  inst_ordinal (TArray spilling 0) = NoCompile /\
  inst_from (TOption (TBox (TTuple [spilling]))) = NoCompile.
Proof. intros [[] [] []]; repeat split; vm_compute; reflexivity. Qed.

(** [Option<(u16, u16, u16, u16, u16)>]: the run that returns 0 for [None] exists in the
    model of the bodies alone, but the program does not compile. *)
Definition wide_option : ty :=
  TOption (TTuple [TPrim Pu16; TPrim Pu16; TPrim Pu16; TPrim Pu16; TPrim Pu16]).

Example C79_wide_option : forall cfg : Config,
  accepted wide_option /\ ~ ordinal_available wide_option /\
  ordinal (impl_of wide_option) None = Val 0 /\ compiled_ordinal wide_option None = NoCompile.
Proof.
  intros [[] [] []]; (split; [cbn; repeat split; try exact I; repeat constructor|]);
    (split; [intros [H _]; revert H; vm_compute; intros H; apply H; reflexivity|]);
    split; vm_compute; reflexivity.
Qed.

(** [u32] on a 32-bit target: [ordinal] is rejected, [from_ordinal] is not. *)
Example C79_u32 :
  inst_ordinal (cfg := debug32) (TPrim Pu32) = NoCompile /\
  inst_from (cfg := debug32) (TPrim Pu32) = Val tt /\
  inst_from (cfg := debug32) (TPrim Pi32) = NoCompile /\
  inst_ordinal (cfg := debug64) (TPrim Pu32) = Val tt.
Proof. repeat split; vm_compute; reflexivity. Qed.

(** A type within bounds. *)
Example C79_small : forall cfg : Config,
  inst_ordinal (TArray (TTuple [TPrim Pbool; TOption (TPrim Pu8)]) 2) = Val tt /\
  exists n, has_values (type_of (TArray (TTuple [TPrim Pbool; TOption (TPrim Pu8)]) 2)) n /\ 264195 < n.
Proof.
  intros cfg. split; [destruct cfg as [[] [] []]; vm_compute; reflexivity|].
  exists (514 * 514). split; [exact (values_card (TArray (TTuple [TPrim Pbool; TOption (TPrim Pu8)]) 2))|reflexivity].
Qed.

(** A value that [ordinal] numbers in a type with too many, as C79_encode needs. *)
Example C79_encoded : exists v, ordinal (impl_of (cfg := debug64) spilling) v = Val 256 /\
  from_ordinal (impl_of (cfg := debug64) spilling) 256 = Val (Some v) /\
  inst_ordinal (cfg := debug64) spilling = Val tt.
Proof. exists (ResErr None). repeat split; vm_compute; reflexivity. Qed.
