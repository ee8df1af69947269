(** * SpecUniverse: the types that can be built from the provided impls and derives, and
    what is said about them: how many values they have and how Rust orders them. *)
From Verif Require Import Base Spec ModelOrdinal ModelArrayBuilder ModelDerive SpecDerive.
From Coq Require Import String List.
Import ListNotations.

(** ** Type expressions *)

(** The types with an impl of their own: primitive.rs, non_zero.rs, char.rs, ordering.rs
    and [Infallible] of std.rs. *)
Inductive prim :=
| Pbool | Pu8 | Pi8 | Pu16 | Pi16 | Pu32 | Pi32
| PNonZeroU8 | PNonZeroI8 | PNonZeroU16 | PNonZeroI16 | PNonZeroU32 | PNonZeroI32
| PNonZeroU64 | PNonZeroI64 | PNonZeroUsize | PNonZeroIsize
| Pchar | POrd | PInfallible.

(** The fields of a declared struct or variant. *)
Inductive decl (A : Type) :=
| DUnit
| DUnnamed (tys : list A)
| DNamed (fs : list (string * A)).
Arguments DUnit {A}.
Arguments DUnnamed {A} tys.
Arguments DNamed {A} fs.

(** A variant: its explicit discriminant, if written, and its fields. *)
Inductive vdecl (A : Type) := VDecl (discriminant : option Z) (fs : decl A).
Arguments VDecl {A} discriminant fs.

Definition vd_discriminant {A} (v : vdecl A) : option Z := let 'VDecl d _ := v in d.
Definition vd_fields {A} (v : vdecl A) : decl A := let 'VDecl _ f := v in f.

(** Finite type expressions: any nesting of the impls and of derived structs and enums. *)
Inductive ty :=
| TPrim (p : prim)
| TBox (t : ty)
| TOption (t : ty)
| TResult (a b : ty)
| TEither (a b : ty)
| TArray (t : ty) (len : nat)
| TTuple (ts : list ty)
| TStruct (d : decl ty)
| TEnum (vs : list (vdecl ty)).

(** The field types of a declaration, mapped by [f]. *)
Definition decl_list {A B} (f : A -> B) (d : decl A) : list B :=
  match d with
  | DUnit => []
  | DUnnamed l => map f l
  | DNamed l => map (fun '(_, t) => f t) l
  end.

(** The names a declaration gives to its fields. *)
Definition decl_names {A} (d : decl A) : list string :=
  match d with
  | DNamed l => map fst l
  | _ => []
  end.

(** ** Number of values *)

(** [T] has exactly [n] values. *)
Definition has_values (T : Type) (n : N) : Prop :=
  exists l : list T, NoDup l /\ (forall t, In t l) /\ N.of_nat (length l) = n.

(** ** Rust's [<] *)

(** [Option]: [None] first. *)
Definition option_lt {A} (lt : A -> A -> Prop) (x y : option A) : Prop :=
  match x, y with
  | None, Some _ => True
  | Some a, Some b => lt a b
  | _, None => False
  end.

(** [Result] ([Ok] is its first variant) and [Either] ([Left] is). *)
Definition result_lt {A B} (la : A -> A -> Prop) (lb : B -> B -> Prop) (x y : result A B) : Prop :=
  match x, y with
  | ResOk a, ResOk b => la a b
  | ResOk _, ResErr _ => True
  | ResErr _, ResOk _ => False
  | ResErr a, ResErr b => lb a b
  end.

Definition either_lt {A B} (la : A -> A -> Prop) (lb : B -> B -> Prop) (x y : either A B) : Prop :=
  match x, y with
  | Left a, Left b => la a b
  | Left _, Right _ => True
  | Right _, Left _ => False
  | Right a, Right b => lb a b
  end.

(** Arrays compare like dictionary words. *)
Fixpoint words_lt {A} (lt : A -> A -> Prop) (x y : list A) : Prop :=
  match x, y with
  | a :: x', b :: y' => lt a b \/ (a = b /\ words_lt lt x' y')
  | _, _ => False
  end.

(** So do tuples, and structs with [#[derive(PartialOrd)]]. *)
Fixpoint tuple_lt (fs : list ftype) : tuple fs -> tuple fs -> Prop :=
  match fs with
  | [] => fun _ _ => False
  | f :: r => fun t u =>
      ft_lt f (fst t) (fst u) \/ (fst t = fst u /\ tuple_lt r (snd t) (snd u))
  end.

(** Discriminants: the explicit one, otherwise the previous one plus one, from zero. *)
Fixpoint discriminants (next : Z) (ds : list (option Z)) : list Z :=
  match ds with
  | [] => []
  | d :: r =>
      let z := match d with Some z => z | None => next end in
      z :: discriminants (z + 1)%Z r
  end.

(** Two values of one variant compare by their fields. *)
Fixpoint same_variant_lt (vs : list (list ftype)) : enum_val vs -> enum_val vs -> Prop :=
  match vs with
  | [] => fun e _ => match e with end
  | v :: r => fun e f =>
      match e, f with
      | inl t, inl u => tuple_lt v t u
      | inr e', inr f' => same_variant_lt r e' f'
      | _, _ => False
      end
  end.

(** Enums with [#[derive(PartialOrd)]]: by discriminant, then by fields. *)
Definition enum_lt (ds : list Z) (vs : list (list ftype)) (e f : enum_val vs) : Prop :=
  (nth (variant_index vs e) ds 0 < nth (variant_index vs f) ds 0)%Z \/
  same_variant_lt vs e f.

(** No enum in the type has an explicit discriminant. *)
Fixpoint no_discriminants (t : ty) : Prop :=
  match t with
  | TPrim _ => True
  | TBox t | TOption t | TArray t _ => no_discriminants t
  | TResult a b | TEither a b => no_discriminants a /\ no_discriminants b
  | TTuple ts => fold_right and True (map no_discriminants ts)
  | TStruct d => fold_right and True (decl_list no_discriminants d)
  | TEnum vs =>
      fold_right and True (map (fun '(VDecl z d) =>
        z = None /\ fold_right and True (decl_list no_discriminants d)) vs)
  end.

(** ** Which types may wrongly accept an out-of-range ordinal: [char], bare or under
    [Option], [Box], the second argument of [Result] or [Either]. *)
Fixpoint exposes_char (t : ty) : bool :=
  match t with
  | TPrim Pchar => true
  | TPrim _ => false
  | TBox t | TOption t => exposes_char t
  | TResult _ b | TEither _ b => exposes_char b
  | TArray _ _ | TTuple _ | TStruct _ | TEnum _ => false
  end.

(** ** Counting *)
Section Counting.
  Context {cfg : Config}.

  Definition prim_card (p : prim) : N :=
    match p with
    | Pbool => 2
    | Pu8 | Pi8 => 256
    | Pu16 | Pi16 => 65536
    | Pu32 | Pi32 => 4294967296
    | PNonZeroU8 | PNonZeroI8 => 255
    | PNonZeroU16 | PNonZeroI16 => 65535
    | PNonZeroU32 | PNonZeroI32 => 4294967295
    | PNonZeroU64 | PNonZeroI64 => 18446744073709551615
    | PNonZeroUsize | PNonZeroIsize => usize_max
    | Pchar => 1112064
    | POrd => 3
    | PInfallible => 0
    end.

  (** The number of values of a type. *)
  Fixpoint card (t : ty) : N :=
    match t with
    | TPrim p => prim_card p
    | TBox t => card t
    | TOption t => card t + 1
    | TResult a b | TEither a b => card a + card b
    | TArray t len => card t ^ N.of_nat len
    | TTuple ts => product_of (map card ts)
    | TStruct d => product_of (decl_list card d)
    | TEnum vs => sum_of (map (fun '(VDecl _ d) => product_of (decl_list card d)) vs)
    end.

  (** Every product of the first few of these numbers is at most usize::MAX. *)
  Definition products_fit (ns : list N) : Prop :=
    forall k, product_of (firstn k ns) <= usize_max.

  (** The type and all types it is made of have at most usize::MAX values, and so has
      every leading part of a product. *)
  Fixpoint fits (t : ty) : Prop :=
    card t <= usize_max /\
    match t with
    | TPrim _ => True
    | TBox t | TOption t | TArray t _ => fits t
    | TResult a b | TEither a b => fits a /\ fits b
    | TTuple ts => fold_right and True (map fits ts) /\ products_fit (map card ts)
    | TStruct d => fold_right and True (decl_list fits d) /\ products_fit (decl_list card d)
    | TEnum vs =>
        fold_right and True (map (fun '(VDecl _ d) =>
          fold_right and True (decl_list fits d) /\ products_fit (decl_list card d)) vs)
    end.

  (** No field or tuple element has an empty type, and no array has length zero. *)
  Fixpoint no_empty_parts (t : ty) : Prop :=
    match t with
    | TPrim _ => True
    | TBox t | TOption t => no_empty_parts t
    | TArray t len => no_empty_parts t /\ len <> O
    | TResult a b | TEither a b => no_empty_parts a /\ no_empty_parts b
    | TTuple ts => fold_right and True (map (fun t => no_empty_parts t /\ card t <> 0) ts)
    | TStruct d => fold_right and True (decl_list (fun t => no_empty_parts t /\ card t <> 0) d)
    | TEnum vs =>
        fold_right and True (map (fun '(VDecl _ d) =>
          fold_right and True (decl_list (fun t => no_empty_parts t /\ card t <> 0) d)) vs)
    end.

  (** Declarations the compiler and the derive accept: tuples of at most 16 elements,
      different names for the fields of a declaration, none of them reserved (see C19). *)
  Definition names_accepted {A} (d : decl A) : Prop :=
    names_ok (decl_names d).
  Fixpoint accepted (t : ty) : Prop :=
    match t with
    | TPrim _ => True
    | TBox t | TOption t | TArray t _ => accepted t
    | TResult a b | TEither a b => accepted a /\ accepted b
    | TTuple ts => (length ts <= 16)%nat /\ fold_right and True (map accepted ts)
    | TStruct d => names_accepted d /\ fold_right and True (decl_list accepted d)
    | TEnum vs =>
        fold_right and True (map (fun '(VDecl _ d) =>
          names_accepted d /\ fold_right and True (decl_list accepted d)) vs)
    end.
End Counting.

(** ** Types whose [ordinal] is tied to their own ORDINAL_SIZE *)
Fixpoint forces_size (t : ty) : bool :=
  match t with
  | TPrim _ | TTuple _ | TStruct _ | TEnum _ => true
  | TBox t => forces_size t
  | TOption _ | TResult _ _ | TEither _ _ | TArray _ _ => false
  end.
