(** * PropExpand: C74, when macro expansion itself succeeds.

    The macro can panic while it runs: a literal may pass u64::MAX ("size overflow"), a sum or
    product may have fewer than two parts, the lists of fields and types may differ in length.
    [no_fields_at v]: the variant has no fields (SpecExpand.v). *)
From Verif Require Import Base Spec ModelOrdinal ModelDerive SpecExpand ExpandProofs.
From Coq Require Import List String. Import ListNotations.

(** Expansion succeeds for every struct and tuple, whatever the number of fields. *)
Theorem C74_struct : forall f, exists size ord block,
  struct_size f = Val size /\ struct_ord f = Val ord /\ struct_block f = Val block.
Proof. exact @struct_expands. Qed.
Print Assumptions C74_struct.
Theorem C74_tuple : forall tys, exists size ord block,
  (s <- struct_ordinal_size tys ;; expr s) = Val size /\ (s <- struct_ordinal tys ;; expr s) = Val ord /\
  struct_from_ordinal ROrdinalVar (tuple_vars 0 tys) tys = Val block.
Proof. exact @tuple_expands. Qed.
Print Assumptions C74_tuple.
(** For an enum it succeeds exactly when the variants without fields can be counted in a u64. *)
Theorem C74_enum : forall vs,
  N.of_nat (List.length (filter no_fields_at vs)) <= u64_max <->
  exists size arms branches,
    enum_size vs = Val size /\ enum_arms vs 0 vs = Val arms /\ enum_branches vs 0 vs = Val branches.
Proof. exact @enum_expands. Qed.
Print Assumptions C74_enum.
Theorem C74_enum_aborts : forall (cfg : Config) vs,
  u64_max < N.of_nat (List.length (filter no_fields_at vs)) ->
  enum_size vs = NoCompile /\ derive_enum vs = rejected _.
Proof. exact @enum_aborts. Qed.
Print Assumptions C74_enum_aborts.
(** An enum of variants without fields becomes literals only: no arithmetic is left for run time. *)
Theorem C74_unit_enum : forall vs,
  forallb no_fields_at vs = true -> N.of_nat (List.length vs) <= u64_max ->
  enum_size vs = Val (RLit (N.of_nat (List.length vs))) /\
  enum_arms vs 0 vs = Val (map (fun k => RLit (N.of_nat k)) (seq 0 (List.length vs))).
Proof. exact @unit_enum. Qed.
Print Assumptions C74_unit_enum.

Definition ty_bool : ftype := {| ft_T := bool; ft_ord := Ordinal_bool; ft_lt := fun _ _ => False |}.
Definition plain (f : fields) : variant := {| v_discriminant := None; v_fields := f |}.
Example C74_case :
  let vs := [plain FUnit; plain (FUnnamed [ty_bool; ty_bool]); plain (FNamed [])] in
  N.of_nat (List.length (filter no_fields_at vs)) = 2 /\
  enum_size vs = Val (RAdd (RLit 2) (RMul (RSizeOf ty_bool) (RSizeOf ty_bool))) /\
  enum_arms vs 0 vs =
    Val [RLit 0; RAdd (RAdd (RLit 1) (RMul (ROrdinalOf 0) (RSizeOf ty_bool))) (ROrdinalOf 1);
         RAdd (RLit 1) (RMul (RSizeOf ty_bool) (RSizeOf ty_bool))] /\
  forallb no_fields_at [plain FUnit; plain (FNamed []); plain (FUnnamed [])] = true.
Proof. repeat split; vm_compute; reflexivity. Qed.
