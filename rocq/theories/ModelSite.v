(** * ModelSite: #[derive(Ordinal)] at a place where other names are in scope.

    ModelDerive.v resolves the names of the generated code with only the prelude around it.
    Here the code stands at a [site]: Rust resolves the identifiers of a derive macro there
    (quote's identifiers have call-site hygiene). *)
From Verif Require Import Base Spec ModelDerive.
From Coq Require Import String List.
Import ListNotations.

(** What is around the declaration.
    - [s_values]: the constants, statics, unit and tuple structs, imported enum variants and
      const parameters in scope, in addition to the prelude. A pattern [x] with such a name does
      not bind a variable: it is a compile error or a constant pattern, which is refutable. (It
      is irrefutable for a constant of a type with one value; treated as rejected all the same.)
    - [s_modules]: modules and types in scope, which take precedence over the crates of the same
      name. (One re-exporting the items of the crate would be harmless; treated as rejected.)
    - [s_inherent]: [Some n] if the type has an inherent [const ORDINAL_SIZE: usize = n]. *)
Record site := {
  s_values : list string;
  s_modules : list string;
  s_inherent : option N
}.

Definition mem (x : string) (l : list string) : bool := existsb (String.eqb x) l.

(** The generated code uses the variant [None] unqualified (ordinal-map-derive/src/ordinal.rs:75
    and 288) and the crates [std] and [ordinal_map] (46, 55, 101, 107, 278, 300, 478); [bound]
    are the names its patterns bind. *)
Definition site_accepts (s : site) (bound : list string) : bool :=
  negb (mem "None" (s_values s)) &&
  forallb (fun x => negb (mem x (s_values s))) bound &&
  negb (mem "std" (s_modules s)) && negb (mem "ordinal_map" (s_modules s)).

(** The names bound by the code for a struct: [_check_overflow] (66), the parameter [ordinal] (12,
    55), [rem] (272) and the fields (278). *)
Definition struct_bound (f : fields) : list string :=
  ["_check_overflow"; "ordinal"; "rem"]%string ++ field_vars f.

(** The same for an enum, which has [_ignore] (477), and per variant [rem] and the fields (395-412,
    272, 278). *)
Definition enum_bound (vs : list variant) : list string :=
  ["_check_overflow"; "ordinal"; "_ignore"]%string ++
  flat_map (fun v => "rem"%string :: field_vars (v_fields v)) vs.

Section Site.
  Context {cfg : Config}.

  (** [Self::ORDINAL_SIZE] (66 and 74): an inherent constant takes precedence over the constant
      of the trait. *)
  Definition self_size (s : site) (size : rexpr) : res N :=
    match s_inherent s with Some n => Val n | None => run_size size end.

  (** [#[derive(Ordinal)] struct S {...}] at [s] (ordinal-map-derive/src/ordinal.rs:4-78). *)
  Definition derive_struct_at (s : site) (f : fields) : Ordinal (tuple (field_types f)) :=
    match struct_size f, struct_ord f, struct_block f with
    | Val size, Val ord, Val block =>
        if resolves block (field_vars f) && site_accepts s (struct_bound f) then {|
          ORDINAL_SIZE := run_size size;
          ordinal := fun self =>
            self_size s size ;;;
            eval false (field_ordinal (field_types f) self) 0 ord;
          from_ordinal := fun o =>
            n <- self_size s size ;;
            if n =? 0 then Val None else run_block (field_types f) o block
        |} else rejected _
    | _, _, _ => rejected _
    end.

  (** [#[derive(Ordinal)] enum E {...}] at [s] (ordinal-map-derive/src/ordinal.rs:4-78, 364-482);
      [names] are the names of the variants. If one of them is [ORDINAL_SIZE] then
      [Self::ORDINAL_SIZE] is that variant, and [Self::ORDINAL_SIZE == 0] does not type-check
      (an [impl PartialEq<i32>] for the enum is not considered). *)
  Definition derive_enum_at (s : site) (names : list string) (vs : list variant)
      : Ordinal (enum_val (variant_types vs)) :=
    match enum_size vs, enum_arms vs 0 vs, enum_branches vs 0 vs with
    | Val size, Val arms, Val bs =>
        if branches_resolve vs bs && site_accepts s (enum_bound vs) && negb (mem "ORDINAL_SIZE" names) then {|
          ORDINAL_SIZE := run_size size;
          ordinal := fun self =>
            self_size s size ;;;
            run_arms (variant_types vs) arms self;
          from_ordinal := fun o =>
            n <- self_size s size ;;
            if n =? 0 then Val None else run_branches (variant_types vs) bs o
        |} else rejected _
    | _, _, _ => rejected _
    end.
End Site.
