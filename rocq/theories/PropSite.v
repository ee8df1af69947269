(** * PropSite: properties C72 and C73 (where #[derive(Ordinal)] is used and what the variants are
    called).

    A [site] lists the values and modules in scope and the inherent constant [ORDINAL_SIZE] of the
    type, if any; [clear_of] is in SpecSite.v. *)
From Verif Require Import Base Spec SpecDerive SpecSite ModelOrdinal ModelDerive ModelSite OrdinalProofs
  SiteProofs PropDerive.
From Coq Require Import String List. Import ListNotations.

Definition ex_two : list variant := [
  {| v_discriminant := None; v_fields := FUnit |};
  {| v_discriminant := None; v_fields := FNamed [("flag"%string, ex_bool)] |}].

(** ** C72
    Full statement: an enum that obeys the law under some names of its variants does so under any
    others. False: a variant called [ORDINAL_SIZE] hides the constant of the trait. *)
Theorem C72_variant_names_refuted : forall cfg : Config,
  exists names, NoDup names /\ List.length names = List.length ex_two /\
    lawful (derive_enum_at empty_site ["Low"; "High"]%string ex_two) 3 /\
    ORDINAL_SIZE (derive_enum_at empty_site names ex_two) = NoCompile.
Proof. exact @variant_names_bad. Qed.
Print Assumptions C72_variant_names_refuted.

(** No other name is a problem. *)
Theorem C72_variant_names_partial : forall (cfg : Config) (names : list string) (vs : list variant) (nss : list (list N)) (n : N),
  variants_lawful (variant_types vs) nss -> ORDINAL_SIZE (derive_enum vs) = Val n ->
  (lawful (derive_enum_at empty_site names vs) n <-> ~ In "ORDINAL_SIZE"%string names) /\
  (~ In "ORDINAL_SIZE"%string names -> derive_enum_at empty_site names vs = derive_enum vs).
Proof. exact @variant_names_exact. Qed.
Print Assumptions C72_variant_names_partial.
Example C72_case : @variants_lawful debug64 (variant_types ex_two) [[]; [2]] /\
  ORDINAL_SIZE (@derive_enum debug64 ex_two) = Val 3 /\
  from_ordinal (@derive_enum_at debug64 empty_site ["None"; "Self_"]%string ex_two) 2 = Val (Some (inr (inl (true, tt)))).
Proof.
  split; [|split; vm_compute; reflexivity].
  repeat constructor; apply (@bool_lawful debug64).
Qed.

(** ** C73
    Full statement: what is in scope around the declaration, and which inherent constants the type
    has, makes no difference. False: with an inherent [const ORDINAL_SIZE: usize = 0] the code
    compiles and from_ordinal rejects every ordinal; an item called like a local variable or field
    of the generated code, or like [None], is a compile error. *)
Theorem C73_inherent_refuted : forall cfg : Config, let f := FNamed [("flag"%string, ex_bool)] in
  exists s : site, s_values s = [] /\ s_modules s = [] /\
    lawful (derive_struct_at empty_site f) 2 /\
    ORDINAL_SIZE (derive_struct_at s f) = Val 2 /\
    ordinal (derive_struct_at s f) (true, tt) = Val 1 /\
    from_ordinal (derive_struct_at s f) 1 = Val None.
Proof. exact @inherent_bad. Qed.
Print Assumptions C73_inherent_refuted.
Theorem C73_scope_refuted : forall cfg : Config, let f := FNamed [("flag"%string, ex_bool)] in
  exists s : site, s_modules s = [] /\ s_inherent s = None /\ s_values s = ["None"%string] /\
    lawful (derive_struct_at empty_site f) 2 /\
    ORDINAL_SIZE (derive_struct_at s f) = NoCompile.
Proof. exact @scope_bad. Qed.
Print Assumptions C73_scope_refuted.

(** For a type with too many values, an inherent [const ORDINAL_SIZE: usize = 1] takes the place
    of the constant that the generated [ordinal] mentions in order not to compile: now it does, and
    without overflow checks gives two values the same number. *)
Theorem C73_check_bypassed_refuted : forall cfg : Config, exists (s : site) (f : fields) (t u : tuple (field_types f)),
  s_values s = [] /\ s_modules s = [] /\ s_inherent s = Some 1 /\ t <> u /\
  (forall v, ordinal (derive_struct_at empty_site f) v = NoCompile) /\
  ORDINAL_SIZE (derive_struct_at s f) = NoCompile /\
  ordinal (derive_struct_at s f) t = Val 0 /\
  ordinal (derive_struct_at s f) u = if overflow_checks then Panic POverflow else Val 0.
Proof. exact check_bypassed. Qed.
Print Assumptions C73_check_bypassed_refuted.
Theorem C73_enum_check_bypassed_refuted : forall cfg : Config,
  exists (s : site) (vs : list variant) (t u : enum_val (variant_types vs)),
  s_values s = [] /\ s_modules s = [] /\ s_inherent s = Some 1 /\ t <> u /\
  (forall v, ordinal (derive_enum_at empty_site ["A"%string] vs) v = NoCompile) /\
  ORDINAL_SIZE (derive_enum_at s ["A"%string] vs) = NoCompile /\
  ordinal (derive_enum_at s ["A"%string] vs) t = Val 0 /\
  ordinal (derive_enum_at s ["A"%string] vs) u = if overflow_checks then Panic POverflow else Val 0.
Proof. exact enum_check_bypassed. Qed.
Print Assumptions C73_enum_check_bypassed_refuted.

(** For types with an ORDINAL_SIZE exactly these cases fail. *)
Theorem C73_struct_partial : forall (cfg : Config) (s : site) (f : fields) (ns : list N) (n : N),
  fields_lawful (field_types f) ns -> ORDINAL_SIZE (derive_struct f) = Val n ->
  (lawful (derive_struct_at s f) n <->
   clear_of s (struct_locals ++ field_vars f) /\ forall m, s_inherent s = Some m -> (m = 0 <-> n = 0)).
Proof. exact @struct_at_exact. Qed.
Print Assumptions C73_struct_partial.
Theorem C73_enum_partial : forall (cfg : Config) (s : site) (names : list string) (vs : list variant)
  (nss : list (list N)) (n : N),
  variants_lawful (variant_types vs) nss -> ORDINAL_SIZE (derive_enum vs) = Val n ->
  (lawful (derive_enum_at s names vs) n <->
   clear_of s (enum_locals vs ++ all_field_vars vs) /\ ~ In "ORDINAL_SIZE"%string names /\
   (s_inherent s = Some 0 -> n = 0)).
Proof. exact @enum_at_exact. Qed.
Print Assumptions C73_enum_partial.

(** How they fail: a clash of names is a compile error; otherwise ORDINAL_SIZE and ordinal() are
    not affected, and from_ordinal is wrong as follows. *)
Theorem C73_clash_partial : forall (cfg : Config) (s : site) (f : fields), ~ clear_of s (struct_locals ++ field_vars f) ->
  ORDINAL_SIZE (derive_struct_at s f) = NoCompile /\ (forall t, ordinal (derive_struct_at s f) t = NoCompile) /\
  forall i, from_ordinal (derive_struct_at s f) i = NoCompile.
Proof. exact @struct_clash. Qed.
Print Assumptions C73_clash_partial.
Theorem C73_enum_clash_partial : forall (cfg : Config) (s : site) (names : list string) (vs : list variant),
  ~ clear_of s (enum_locals vs ++ all_field_vars vs) \/ In "ORDINAL_SIZE"%string names ->
  ORDINAL_SIZE (derive_enum_at s names vs) = NoCompile /\ (forall t, ordinal (derive_enum_at s names vs) t = NoCompile) /\
  forall i, from_ordinal (derive_enum_at s names vs) i = NoCompile.
Proof. exact @enum_clash. Qed.
Print Assumptions C73_enum_clash_partial.
Theorem C73_struct_inherent_partial : forall (cfg : Config) (s : site) (f : fields) (ns : list N) (n : N),
  fields_lawful (field_types f) ns -> ORDINAL_SIZE (derive_struct f) = Val n ->
  clear_of s (struct_locals ++ field_vars f) ->
  ORDINAL_SIZE (derive_struct_at s f) = Val n /\
  (forall t, ordinal (derive_struct_at s f) t = ordinal (derive_struct f) t) /\
  forall i, from_ordinal (derive_struct_at s f) i =
    match s_inherent s with
    | None => from_ordinal (derive_struct f) i
    | Some m => if m =? 0 then Val None else if n =? 0 then Panic PDivZero else from_ordinal (derive_struct f) i
    end.
Proof. exact @struct_at_behaves. Qed.
Print Assumptions C73_struct_inherent_partial.
Theorem C73_enum_inherent_partial : forall (cfg : Config) (s : site) (names : list string) (vs : list variant)
  (nss : list (list N)) (n : N),
  variants_lawful (variant_types vs) nss -> ORDINAL_SIZE (derive_enum vs) = Val n ->
  clear_of s (enum_locals vs ++ all_field_vars vs) -> ~ In "ORDINAL_SIZE"%string names ->
  ORDINAL_SIZE (derive_enum_at s names vs) = Val n /\
  (forall t, ordinal (derive_enum_at s names vs) t = ordinal (derive_enum vs) t) /\
  forall i, i <= usize_max -> from_ordinal (derive_enum_at s names vs) i =
    match s_inherent s with
    | Some 0 => Val None
    | _ => from_ordinal (derive_enum vs) i
    end.
Proof. exact @enum_at_behaves. Qed.
Print Assumptions C73_enum_inherent_partial.
Example C73_case :
  let s := {| s_values := ["MAX"; "f1"; "rem_"]%string; s_modules := ["ordinal"]%string; s_inherent := Some 9 |} in
  clear_of s (struct_locals ++ field_vars ex_struct) /\ clear_of s (enum_locals ex_two ++ all_field_vars ex_two) /\
  ~ clear_of s (struct_locals ++ field_vars (FUnnamed [ex_bool; ex_ord])) /\
  from_ordinal (@derive_struct_at debug64 s ex_struct) 7 = Val (Some (true, (Lt, (true, tt)))) /\
  from_ordinal (@derive_struct_at debug64 s (FUnnamed [ex_never])) 0 = Panic PDivZero.
Proof.
  assert (D : forall s l, site_accepts s l = true -> clear_of s l) by (intros s l H; apply accepts_clear, H).
  split; [apply D; vm_compute; reflexivity|]. split; [apply D; vm_compute; reflexivity|].
  split; [|split; vm_compute; reflexivity].
  intros H. apply accepts_clear in H. vm_compute in H. discriminate H.
Qed.
