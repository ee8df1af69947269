(** * SpecSite: which surroundings of a derive cannot be confused with the generated code. *)
From Verif Require Import Base Spec ModelDerive ModelSite.
From Coq Require Import String List.
Import ListNotations.

(** Nothing in scope is called like one of [used], like [None], or like the two crates. *)
Definition clear_of (s : site) (used : list string) : Prop :=
  (forall x, In x (s_values s) -> x <> "None"%string /\ ~ In x used) /\
  (forall x, In x (s_modules s) -> x <> "std"%string /\ x <> "ordinal_map"%string).

(** The local variables of the code generated for a struct, for an enum without variants and for
    an enum with variants. *)
Definition struct_locals : list string := ["_check_overflow"; "ordinal"; "rem"]%string.
Definition enum_locals (vs : list variant) : list string :=
  match vs with
  | [] => ["_check_overflow"; "ordinal"; "_ignore"]%string
  | _ => ["_check_overflow"; "ordinal"; "_ignore"; "rem"]%string
  end.
Definition all_field_vars (vs : list variant) : list string := flat_map (fun v => field_vars (v_fields v)) vs.

(** Nothing but the prelude. *)
Definition empty_site : site := {| s_values := []; s_modules := []; s_inherent := None |}.
