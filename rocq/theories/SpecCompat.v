(** * SpecCompat: types that are numbered alike (C67, C68). *)
From Verif Require Import Base Spec ModelOrdinal ModelDerive SpecDerive.
From Coq Require Import String List. Import ListNotations.

(** Both types have [n] values, and [f] takes the value number [i] of the one to the value
    number [i] of the other. *)
Definition same_numbering {A B} (OA : Ordinal A) (OB : Ordinal B) (f : A -> B) (n : N) : Prop :=
  ORDINAL_SIZE OA = Val n /\ ORDINAL_SIZE OB = Val n /\
  (forall a, exists i, i < n /\ ordinal OA a = Val i /\ ordinal OB (f a) = Val i) /\
  forall i, i < n -> exists a, from_ordinal OA i = Val (Some a) /\ from_ordinal OB i = Val (Some (f a)).

(** [enum { None, Some(T) }], with any discriminants. *)
Definition option_decl (d0 d1 : option Z) (f : ftype) : list variant :=
  [{| v_discriminant := d0; v_fields := FUnit |}; {| v_discriminant := d1; v_fields := FUnnamed [f] |}].
Definition option_as d0 d1 (f : ftype) (o : option (ft_T f)) : enum_val (variant_types (option_decl d0 d1 f)) :=
  match o with None => inl tt | Some a => inr (inl (a, tt)) end.

(** [enum { Ok(A), Err(B) }], [enum { Left(A), Right(B) }]. *)
Definition two_decl (d0 d1 : option Z) (f g : ftype) : list variant :=
  [{| v_discriminant := d0; v_fields := FUnnamed [f] |}; {| v_discriminant := d1; v_fields := FUnnamed [g] |}].
Definition result_as d0 d1 (f g : ftype) (o : result (ft_T f) (ft_T g)) : enum_val (variant_types (two_decl d0 d1 f g)) :=
  match o with ResOk a => inl (a, tt) | ResErr b => inr (inl (b, tt)) end.
Definition either_as d0 d1 (f g : ftype) (o : either (ft_T f) (ft_T g)) : enum_val (variant_types (two_decl d0 d1 f g)) :=
  match o with Left a => inl (a, tt) | Right b => inr (inl (b, tt)) end.

(** Enums without fields. *)
Definition unit_decl (ds : list (option Z)) : list variant :=
  map (fun d => {| v_discriminant := d; v_fields := FUnit |}) ds.
Definition bool_as d0 d1 (b : bool) : enum_val (variant_types (unit_decl [d0; d1])) :=
  if b then inr (inl tt) else inl tt.
Definition ordering_as d0 d1 d2 (c : comparison) : enum_val (variant_types (unit_decl [d0; d1; d2])) :=
  match c with Lt => inl tt | Eq => inr (inl tt) | Gt => inr (inr (inl tt)) end.

(** [struct Wrapper(T)]. *)
Definition box_as (f : ftype) (b : box (ft_T f)) : tuple (field_types (FUnnamed [f])) :=
  match b with Box a => (a, tt) end.

(** [enum { Only { .. } }] with the fields of a struct. *)
Definition only_decl (d : option Z) (f : fields) : list variant := [{| v_discriminant := d; v_fields := f |}].
Definition only_as d (f : fields) (t : tuple (field_types f)) : enum_val (variant_types (only_decl d f)) := inl t.

(** The value of an enum as a value of the enum with more variants at the end. *)
Fixpoint extend (vs ws : list variant) : enum_val (variant_types vs) -> enum_val (variant_types (vs ++ ws)) :=
  match vs with
  | [] => fun e => match e with end
  | v :: r => fun e => match e with
                       | inl t => inl t
                       | inr e' => inr (extend r ws e')
                       end
  end.
