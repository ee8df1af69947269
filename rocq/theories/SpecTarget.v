(** * SpecTarget: the same value on two targets.

    A type expression is a Rust type whatever the target, but its values are modelled per
    configuration. [same_value] says that a value in one configuration and a value in another are
    written the same way in Rust: the same number, the same variant, the same fields. It is
    defined by recursion on the type alone and mentions no impl of Ordinal. *)
From Coq Require Import String List.
From Verif Require Import Base Spec ModelOrdinal ModelArrayBuilder ModelDerive SpecDerive SpecUniverse ModelUniverse.
Import ListNotations.

Section Fields.
  Context {A : Type} (f g : A -> ftype) (R : forall a, ft_T (f a) -> ft_T (g a) -> Prop).

  (** Field by field. *)
  Definition same_fields : forall l : list A, tuple (map f l) -> tuple (map g l) -> Prop :=
    fix go l :=
      match l with
      | [] => fun _ _ => True
      | a :: r => fun t u => R a (fst t) (fst u) /\ go r (snd t) (snd u)
      end.

  Definition same_named : forall l : list (string * A),
      tuple (map snd (map (fun '(x, a) => (x, f a)) l)) ->
      tuple (map snd (map (fun '(x, a) => (x, g a)) l)) -> Prop :=
    fix go l :=
      match l with
      | [] => fun _ _ => True
      | (_, a) :: r => fun t u => R a (fst t) (fst u) /\ go r (snd t) (snd u)
      end.

  Definition same_decl (d : decl A)
      : tuple (field_types (denote_decl f d)) -> tuple (field_types (denote_decl g d)) -> Prop :=
    match d with
    | DUnit => fun _ _ => True
    | DUnnamed l => same_fields l
    | DNamed l => same_named l
    end.

  (** The same variant, with the same fields. *)
  Definition same_variant : forall vs : list (vdecl A),
      enum_val (variant_types (map (denote_variant f) vs)) ->
      enum_val (variant_types (map (denote_variant g) vs)) -> Prop :=
    fix go vs :=
      match vs with
      | [] => fun _ _ => False
      | VDecl _ d :: r => fun e h =>
          match e, h with
          | inl t, inl u => same_decl d t u
          | inr e', inr h' => go r e' h'
          | _, _ => False
          end
      end.
End Fields.

Definition same_number {lo hi lo' hi'} (a : int lo hi) (b : int lo' hi') : Prop := int_val a = int_val b.
Definition same_nonzero {lo hi lo' hi'} (a : nonzero lo hi) (b : nonzero lo' hi') : Prop :=
  same_number (nz_get a) (nz_get b).

Section Same.
  Context (c d : Config).

  Definition same_prim (p : prim) : ft_T (@denote_prim c p) -> ft_T (@denote_prim d p) -> Prop :=
    match p with
    | Pbool => fun a b : bool => a = b
    | Pu8 | Pi8 | Pu16 | Pi16 | Pu32 | Pi32 => same_number
    | PNonZeroU8 | PNonZeroI8 | PNonZeroU16 | PNonZeroI16 | PNonZeroU32 | PNonZeroI32
    | PNonZeroU64 | PNonZeroI64 | PNonZeroUsize | PNonZeroIsize => same_nonzero
    | Pchar => fun a b => char_val a = char_val b
    | POrd => fun a b : comparison => a = b
    | PInfallible => fun _ _ => False
    end.

  Fixpoint same (t : ty) : ft_T (@denote c t) -> ft_T (@denote d t) -> Prop :=
    match t with
    | TPrim p => same_prim p
    | TBox t => fun a b => same t (unbox a) (unbox b)
    | TOption t => fun a b =>
        match a, b with Some x, Some y => same t x y | None, None => True | _, _ => False end
    | TResult s t => fun a b =>
        match a, b with ResOk x, ResOk y => same s x y | ResErr x, ResErr y => same t x y | _, _ => False end
    | TEither s t => fun a b =>
        match a, b with Left x, Left y => same s x y | Right x, Right y => same t x y | _, _ => False end
    | TArray t _ => fun a b => Forall2 (same t) (arr_list a) (arr_list b)
    | TTuple ts => same_fields (@denote c) (@denote d) same ts
    | TStruct s => same_decl (@denote c) (@denote d) same s
    | TEnum vs => same_variant (@denote c) (@denote d) same vs
    end.

  Definition same_value (t : ty) (v : @type_of c t) (w : @type_of d t) : Prop := same t v w.
End Same.

(** No part of the type is as wide as the target's pointers. *)
Fixpoint portable (t : ty) : Prop :=
  match t with
  | TPrim p => match p with PNonZeroUsize | PNonZeroIsize => False | _ => True end
  | TBox t | TOption t | TArray t _ => portable t
  | TResult a b | TEither a b => portable a /\ portable b
  | TTuple ts => fold_right and True (map portable ts)
  | TStruct d => fold_right and True (decl_list portable d)
  | TEnum vs => fold_right and True (map (fun '(VDecl _ d) => fold_right and True (decl_list portable d)) vs)
  end.

(** No part of the type is NonZeroIsize. *)
Fixpoint no_isize (t : ty) : Prop :=
  match t with
  | TPrim p => match p with PNonZeroIsize => False | _ => True end
  | TBox t | TOption t | TArray t _ => no_isize t
  | TResult a b | TEither a b => no_isize a /\ no_isize b
  | TTuple ts => fold_right and True (map no_isize ts)
  | TStruct d => fold_right and True (decl_list no_isize d)
  | TEnum vs => fold_right and True (map (fun '(VDecl _ d) => fold_right and True (decl_list no_isize d)) vs)
  end.

(** The pointers of [c] are not wider than those of [d]. *)
Definition not_wider (c d : Config) : Prop := @usize_max c <= @usize_max d.
