(** * PropDerive: properties C09 - C12 and C19 (tuple impls and #[derive(Ordinal)]).

    [fields_lawful tys ns]: the types [tys] obey the bijection law with sizes [ns];
    [variants_lawful] the same for each variant; [tuple_digits]/[enum_digits]: the
    ordinals of the fields of a value (SpecDerive.v); [mixed_radix] in Spec.v. *)
From Verif Require Import Base Spec SpecDerive ModelOrdinal ModelArrayBuilder ModelDerive
  OrdinalProofs DeriveProofs3 OrdinalProofs2.
From Coq Require Import String List.
Import ListNotations.

(** Field types for the examples. *)
Definition ex_bool : ftype := {| ft_T := bool; ft_ord := Ordinal_bool; ft_lt := Bool.lt |}.
Definition ex_ord : ftype := {| ft_T := comparison; ft_ord := Ordinal_Ordering; ft_lt := fun _ _ => False |}.
Definition ex_never : ftype := {| ft_T := Empty_set; ft_ord := Ordinal_Infallible; ft_lt := fun _ _ => False |}.
Definition ex_struct : fields := FNamed [("x", ex_bool); ("ordinal", ex_ord); ("f0", ex_bool)]%string.
Definition ex_enum : list variant := [
  {| v_discriminant := Some 7%Z; v_fields := FUnit |};
  {| v_discriminant := None; v_fields := FUnnamed [ex_never; ex_bool] |};
  {| v_discriminant := Some (-3)%Z; v_fields := ex_struct |};
  {| v_discriminant := None; v_fields := FUnnamed [ex_ord] |}].

(** ** C09 *)
Theorem C09_tuple : forall (cfg : Config) (tys : list ftype) (ns : list N) (n : N),
  fields_lawful tys ns ->
  ORDINAL_SIZE (impl_ordinal_for_tuple_n tys) = Val n ->
  lawful (impl_ordinal_for_tuple_n tys) n.
Proof. exact @tuple_law. Qed.
Print Assumptions C09_tuple.
Example C09_hypotheses : @fields_lawful debug64 [ex_ord; ex_bool; ex_ord] [3; 2; 3] /\
  ORDINAL_SIZE (@impl_ordinal_for_tuple_n debug64 [ex_ord; ex_bool; ex_ord]) = Val 18 /\
  ordinal (@impl_ordinal_for_tuple_n debug64 [ex_ord; ex_bool; ex_ord]) (Gt, (false, (Eq, tt))) = Val 13 /\
  ORDINAL_SIZE (@impl_ordinal_for_tuple_n debug64 []) = Val 1.
Proof.
  split; [|repeat split; vm_compute; reflexivity].
  repeat constructor; first [apply (@Ordering_lawful debug64)|apply (@bool_lawful debug64)].
Qed.
(** No bound on the number of elements is needed: the crate emits the impls of 0 to 16
    elements, the macro would make them for up to 26. *)
Example C09_seventeen : @fields_lawful debug64 (repeat ex_bool 17) (repeat 2 17) /\
  ORDINAL_SIZE (@impl_ordinal_for_tuple_n debug64 (repeat ex_bool 17)) = Val 131072 /\
  ORDINAL_SIZE (@impl_ordinal_for_tuple_n debug64 (repeat ex_bool 26)) = Val 67108864 /\
  ORDINAL_SIZE (@impl_ordinal_for_tuple_n debug64 (repeat ex_bool 27)) = NoCompile.
Proof.
  split; [|repeat split; vm_compute; reflexivity].
  repeat constructor; apply (@bool_lawful debug64).
Qed.

(** ** C10 *)
Theorem C10_struct : forall (cfg : Config) (f : fields) (ns : list N) (n : N),
  fields_lawful (field_types f) ns -> ORDINAL_SIZE (derive_struct f) = Val n ->
  lawful (derive_struct f) n.
Proof. exact @struct_law. Qed.
Print Assumptions C10_struct.
Example C10_hypotheses : @fields_lawful debug64 (field_types ex_struct) [2; 3; 2] /\
  ORDINAL_SIZE (@derive_struct debug64 ex_struct) = Val 12 /\
  ORDINAL_SIZE (@derive_struct debug64 FUnit) = Val 1 /\
  from_ordinal (@derive_struct debug64 ex_struct) 7 = Val (Some (true, (Lt, (true, tt)))) /\
  from_ordinal (@derive_struct debug64 ex_struct) 12 = Val None.
Proof.
  split; [|repeat split; vm_compute; reflexivity].
  repeat constructor; first [apply (@Ordering_lawful debug64)|apply (@bool_lawful debug64)].
Qed.

(** ** C11 *)
Theorem C11_enum : forall (cfg : Config) (vs : list variant) (nss : list (list N)) (n : N),
  variants_lawful (variant_types vs) nss -> ORDINAL_SIZE (derive_enum vs) = Val n ->
  lawful (derive_enum vs) n.
Proof. exact @enum_law. Qed.
Print Assumptions C11_enum.
Example C11_hypotheses :
  @variants_lawful debug64 (variant_types ex_enum) [[]; [0; 2]; [2; 3; 2]; [3]] /\
  ORDINAL_SIZE (@derive_enum debug64 ex_enum) = Val 16 /\
  from_ordinal (@derive_enum debug64 ex_enum) 15 = Val (Some (inr (inr (inr (inl (Gt, tt)))))) /\
  from_ordinal (@derive_enum debug64 ex_enum) 16 = Val None /\
  ORDINAL_SIZE (@derive_enum debug64 []) = Val 0.
Proof.
  split; [|repeat split; vm_compute; reflexivity].
  repeat constructor; first [apply (@Ordering_lawful debug64)|apply (@bool_lawful debug64)
    |apply (@Infallible_lawful debug64)].
Qed.

(** ** C12. [enum_position nss k ds] is the number of values of the first [k] variants
    plus the mixed-radix number [ds]; it does not mention the discriminants. *)
Theorem C12_enum : forall (cfg : Config) (vs : list variant) (nss : list (list N)) (n : N)
  (e : enum_val (variant_types vs)) (ds : list N),
  variants_lawful (variant_types vs) nss -> ORDINAL_SIZE (derive_enum vs) = Val n ->
  enum_digits (variant_types vs) e ds ->
  ordinal (derive_enum vs) e = Val (enum_position nss (variant_index (variant_types vs) e) ds).
Proof. exact @derive_enum_number. Qed.
Print Assumptions C12_enum.
Theorem C12_struct : forall (cfg : Config) (f : fields) (ns : list N) (n : N)
  (t : tuple (field_types f)) (ds : list N),
  fields_lawful (field_types f) ns -> ORDINAL_SIZE (derive_struct f) = Val n ->
  tuple_digits (field_types f) t ds ->
  ordinal (derive_struct f) t = Val (mixed_radix ns ds).
Proof. exact @derive_struct_number. Qed.
Print Assumptions C12_struct.
Theorem C12_tuple : forall (cfg : Config) (tys : list ftype) (ns : list N) (n : N)
  (t : tuple tys) (ds : list N),
  fields_lawful tys ns ->
  ORDINAL_SIZE (impl_ordinal_for_tuple_n tys) = Val n ->
  tuple_digits tys t ds ->
  ordinal (impl_ordinal_for_tuple_n tys) t = Val (mixed_radix ns ds).
Proof. exact @tuple_number. Qed.
Print Assumptions C12_tuple.
Theorem C12_array_as_tuple : forall (cfg : Config) (f : ftype) (n : N) (len : nat) (m p : N)
  (a : arr (ft_T f) len) (t : tuple (repeat f len)),
  ordinal_bijection (ft_ord f) n ->
  ORDINAL_SIZE (Ordinal_array (ft_ord f) len) = Val m ->
  ORDINAL_SIZE (impl_ordinal_for_tuple_n (repeat f len)) = Val p ->
  tuple_list f len t = arr_list a ->
  ordinal (Ordinal_array (ft_ord f) len) a = ordinal (impl_ordinal_for_tuple_n (repeat f len)) t.
Proof. exact @array_tuple_agree. Qed.
Print Assumptions C12_array_as_tuple.
Example C12_hypotheses :
  let e : enum_val (variant_types ex_enum) := inr (inr (inl (true, (Eq, (false, tt))))) in
  enum_digits (variant_types ex_enum) e [1; 1; 0] /\
  variant_index (variant_types ex_enum) e = 2%nat /\
  enum_position [[]; [0; 2]; [2; 3; 2]; [3]] 2 [1; 1; 0] = 9 /\
  ordinal (@derive_enum debug64 ex_enum) e = Val 9 /\
  tuple_digits (field_types ex_struct) (true, (Eq, (false, tt))) [1; 1; 0] /\
  ORDINAL_SIZE (@Ordinal_array debug64 _ Ordinal_Ordering 3) = Val 27 /\
  ORDINAL_SIZE (@impl_ordinal_for_tuple_n debug64 (repeat ex_ord 3)) = Val 27 /\
  tuple_list ex_ord 3 (Gt, (Lt, (Eq, tt))) = arr_list (mk_arr 3 [Gt; Lt; Eq] eq_refl).
Proof.
  cbn -[derive_enum Ordinal_array impl_ordinal_for_tuple_n]. repeat split.
  all: try (vm_compute; reflexivity).
  all: eexists _, _; split; [reflexivity|]; split; [reflexivity|];
       eexists _, _; split; [reflexivity|]; split; [reflexivity|];
       eexists _, _; repeat split.
Qed.

(** ** C19. Full statement: for every declaration with distinct field names, lawful field
    types and at most usize::MAX values, ORDINAL_SIZE compiles. False: a field called
    [rem] is captured by the [rem] variable of the generated code, and fields called [None],
    [Some], [Ok] or [Err] cannot be bound by the patterns of the generated code. *)
Theorem C19_field_names_refuted : forall (cfg : Config) (f : ftype) (x : string),
  ordinal_bijection (ft_ord f) 2 -> In x reserved_names ->
  exists d : fields, field_types d = [f] /\ field_vars d = [x] /\
    NoDup (field_vars d) /\ ORDINAL_SIZE (derive_struct d) = NoCompile.
Proof. exact @rem_refuted. Qed.
Print Assumptions C19_field_names_refuted.
(** Missing: the five names (where it is false). [names_ok vars] is
    [NoDup vars] and no reserved name in [vars]. *)
Theorem C19_struct_names_partial : forall (cfg : Config) (f : fields) (ns : list N),
  names_ok (field_vars f) -> fields_lawful (field_types f) ns ->
  Forall (fun n => 0 < n) ns -> product_of ns <= usize_max ->
  ORDINAL_SIZE (derive_struct f) = Val (product_of ns).
Proof. exact @struct_compiles. Qed.
Print Assumptions C19_struct_names_partial.
Theorem C19_enum_names_partial : forall (cfg : Config) (vs : list variant) (nss : list (list N)),
  Forall (fun v => names_ok (field_vars (v_fields v))) vs ->
  variants_lawful (variant_types vs) nss ->
  Forall (Forall (fun n => 0 < n)) nss -> sum_of (map product_of nss) <= usize_max ->
  ORDINAL_SIZE (derive_enum vs) = Val (sum_of (map product_of nss)).
Proof. exact @enum_compiles. Qed.
Print Assumptions C19_enum_names_partial.
Example C19_hypotheses : names_ok (field_vars ex_struct) /\ product_of [2; 3; 2] = 12 /\
  ORDINAL_SIZE (@derive_struct debug64 (FNamed [("rem", ex_bool)]%string)) = NoCompile /\
  ORDINAL_SIZE (@derive_struct debug64 (FNamed [("None", ex_bool)]%string)) = NoCompile.
Proof.
  split; [|split; [|split]; vm_compute; reflexivity].
  split.
  - repeat constructor; cbn; intuition discriminate.
  - intros x Hx Hv. cbn in Hx, Hv. intuition (subst; discriminate).
Qed.
