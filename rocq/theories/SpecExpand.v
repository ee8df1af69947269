(** * SpecExpand: which declarations the derive macro can expand (C74). *)
From Verif Require Import Base Spec ModelDerive.

(** A variant without fields ([A], [A()] or [A {}]). *)
Definition no_fields_at (v : variant) : bool :=
  match field_types (v_fields v) with [] => true | _ => false end.
