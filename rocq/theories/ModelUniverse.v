(** * ModelUniverse: the [Ordinal] impl the compiler picks for a type expression.

    For generic impls (boxed.rs, std.rs, either.rs, array.rs, tuple.rs) trait selection is
    by the outermost type constructor; a derived struct or enum has the impl the derive
    macro generates (ordinal-map-derive/src/ordinal.rs). *)
From Verif Require Import Base Spec ModelOrdinal ModelArrayBuilder ModelDerive SpecDerive SpecUniverse.
From Coq Require Import String List.
Import ListNotations.

Section Denote.
  Context {cfg : Config}.

  Definition of_impl {T} (O : Ordinal T) (lt : T -> T -> Prop) : ftype :=
    {| ft_T := T; ft_ord := O; ft_lt := lt |}.

  Definition int_lt {lo hi} (a b : int lo hi) : Prop := (int_val a < int_val b)%Z.
  Definition nonzero_lt {lo hi} (a b : nonzero lo hi) : Prop :=
    (int_val (nz_get a) < int_val (nz_get b))%Z.
  Definition bool_lt (a b : bool) : Prop := a = false /\ b = true.
  (** [Less < Equal < Greater]. *)
  Definition ordering_lt (a b : comparison) : Prop :=
    match a, b with
    | Lt, Eq | Lt, Gt | Eq, Gt => True
    | _, _ => False
    end.

  (** primitive.rs, non_zero.rs, char.rs, ordering.rs, ordinal/impls/std.rs:43-53 *)
  Definition denote_prim (p : prim) : ftype :=
    match p with
    | Pbool => of_impl Ordinal_bool bool_lt
    | Pu8 => of_impl Ordinal_u8 int_lt
    | Pi8 => of_impl Ordinal_i8 int_lt
    | Pu16 => of_impl Ordinal_u16 int_lt
    | Pi16 => of_impl Ordinal_i16 int_lt
    | Pu32 => of_impl Ordinal_u32 int_lt
    | Pi32 => of_impl Ordinal_i32 int_lt
    | PNonZeroU8 => of_impl Ordinal_NonZeroU8 nonzero_lt
    | PNonZeroI8 => of_impl Ordinal_NonZeroI8 nonzero_lt
    | PNonZeroU16 => of_impl Ordinal_NonZeroU16 nonzero_lt
    | PNonZeroI16 => of_impl Ordinal_NonZeroI16 nonzero_lt
    | PNonZeroU32 => of_impl Ordinal_NonZeroU32 nonzero_lt
    | PNonZeroI32 => of_impl Ordinal_NonZeroI32 nonzero_lt
    | PNonZeroU64 => of_impl Ordinal_NonZeroU64 nonzero_lt
    | PNonZeroI64 => of_impl Ordinal_NonZeroI64 nonzero_lt
    | PNonZeroUsize => of_impl Ordinal_NonZeroUsize nonzero_lt
    | PNonZeroIsize => of_impl Ordinal_NonZeroIsize nonzero_lt
    | Pchar => of_impl Ordinal_char (fun a b => char_val a < char_val b)
    | POrd => of_impl Ordinal_Ordering ordering_lt
    | PInfallible => of_impl Ordinal_Infallible (fun _ _ => False)
    end.

  (** The declaration with its field types replaced by what they denote. *)
  Definition denote_decl {A} (f : A -> ftype) (d : decl A) : fields :=
    match d with
    | DUnit => FUnit
    | DUnnamed l => FUnnamed (map f l)
    | DNamed l => FNamed (map (fun '(x, t) => (x, f t)) l)
    end.

  Definition denote_variant {A} (f : A -> ftype) (v : vdecl A) : variant :=
    let 'VDecl z d := v in {| v_discriminant := z; v_fields := denote_decl f d |}.

  (** ordinal-map/src/ordinal/impls/tuple.rs:3, ordinal-map-derive/src/ordinal.rs:532-541:
      tuples of 0 to 16 elements have an impl, larger ones have none. *)
  Definition tuple_impl (tys : list ftype) : Ordinal (tuple tys) :=
    if Nat.leb (length tys) 16 then impl_ordinal_for_tuple_n tys else rejected _.

  Fixpoint denote (t : ty) : ftype :=
    match t with
    | TPrim p => denote_prim p
    | TBox t =>
        of_impl (Ordinal_Box (ft_ord (denote t)))
                (fun a b => ft_lt (denote t) (unbox a) (unbox b))
    | TOption t => of_impl (Ordinal_Option (ft_ord (denote t))) (option_lt (ft_lt (denote t)))
    | TResult a b =>
        of_impl (Ordinal_Result (ft_ord (denote a)) (ft_ord (denote b)))
                (result_lt (ft_lt (denote a)) (ft_lt (denote b)))
    | TEither a b =>
        of_impl (Ordinal_Either (ft_ord (denote a)) (ft_ord (denote b)))
                (either_lt (ft_lt (denote a)) (ft_lt (denote b)))
    | TArray t len =>
        of_impl (Ordinal_array (ft_ord (denote t)) len)
                (fun a b => words_lt (ft_lt (denote t)) (arr_list a) (arr_list b))
    | TTuple ts => of_impl (tuple_impl (map denote ts)) (tuple_lt (map denote ts))
    | TStruct d =>
        of_impl (derive_struct (denote_decl denote d))
                (tuple_lt (field_types (denote_decl denote d)))
    | TEnum vs =>
        of_impl (derive_enum (map (denote_variant denote) vs))
                (enum_lt (discriminants 0 (map vd_discriminant vs))
                         (variant_types (map (denote_variant denote) vs)))
    end.
End Denote.

(** The type, its impl and its order. *)
Definition type_of {cfg : Config} (t : ty) : Type := ft_T (denote t).
Definition impl_of {cfg : Config} (t : ty) : Ordinal (type_of t) := ft_ord (denote t).
Definition lt_of {cfg : Config} (t : ty) : type_of t -> type_of t -> Prop := ft_lt (denote t).
