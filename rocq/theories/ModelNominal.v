(** * ModelNominal: declared types by name, with type parameters, constant parameters and
    [Ordinal] bounds, all with [#[derive(Ordinal)]].

    Left out: where-clauses other than [T: Ordinal] for a parameter [T], lifetimes, and
    defaults of parameters (split_for_impl drops them). *)
From Verif Require Import Base Spec SpecUniverse.
From Coq Require Import String List PeanoNat.
Import ListNotations.

(** The length of an array type: a number, or a constant parameter. *)
Inductive glen := LConst (n : nat) | LParam (i : nat).

(** Type expressions inside a declaration. [GForeign]: any type without an [Ordinal] impl,
    such as [String]. *)
Inductive gty :=
| GVar (i : nat)
| GForeign
| GPrim (p : prim)
| GBox (t : gty)
| GOption (t : gty)
| GResult (a b : gty)
| GEither (a b : gty)
| GArray (t : gty) (len : glen)
| GTuple (ts : list gty)
| GNamed (name : nat) (args : list gty) (consts : list glen).

Inductive body := BStruct (d : decl gty) | BEnum (vs : list (vdecl gty)).

(** A declaration: how many type parameters it has, which of them have the bound
    [: Ordinal], and its fields.  Programs are lists of declarations, which may mention
    each other in any order; a name is a position. *)
Record item := { it_params : nat; it_bounds : list nat; it_body : body }.
Definition program := list item.

Definition body_types (b : body) : list gty :=
  match b with
  | BStruct d => decl_list (fun t => t) d
  | BEnum vs => flat_map (fun '(VDecl _ d) => decl_list (fun t => t) d) vs
  end.

(** ** Parameters replaced by arguments *)
Definition inst_len (ns : list nat) (l : glen) : glen :=
  match l with LConst n => LConst n | LParam i => LConst (nth i ns 0%nat) end.
Definition len_value (l : glen) : nat := match l with LConst n => n | LParam _ => 0%nat end.

Fixpoint inst (args : list gty) (ns : list nat) (t : gty) : gty :=
  match t with
  | GVar i => nth i args GForeign
  | GForeign => GForeign
  | GPrim p => GPrim p
  | GBox t => GBox (inst args ns t)
  | GOption t => GOption (inst args ns t)
  | GResult a b => GResult (inst args ns a) (inst args ns b)
  | GEither a b => GEither (inst args ns a) (inst args ns b)
  | GArray t l => GArray (inst args ns t) (inst_len ns l)
  | GTuple ts => GTuple (map (inst args ns) ts)
  | GNamed d ts ls => GNamed d (map (inst args ns) ts) (map (inst_len ns) ls)
  end.

Section Program.
  Variable p : program.

  (** Trait selection: does [t] implement [Ordinal], where the type parameters in [bounds]
      are known to?  For the impls of the crate (boxed.rs:3, impls/std.rs:3 and 24, either.rs:4,
      array.rs:5, tuple.rs:3) each argument has to.  The macro writes
      [impl #impl_generics Ordinal for #ident #ty_generics #where_clause]
      (ordinal-map-derive/src/ordinal.rs:39-46), which repeats the bounds of the declaration
      and adds none, so a declared type does if the arguments satisfy its bounds. *)
  Fixpoint implements (bounds : list nat) (t : gty) : bool :=
    match t with
    | GVar i => existsb (Nat.eqb i) bounds
    | GForeign => false
    | GPrim _ => true
    | GBox t | GOption t | GArray t _ => implements bounds t
    | GResult a b | GEither a b => implements bounds a && implements bounds b
    | GTuple ts => Nat.leb (length ts) 16 && forallb (implements bounds) ts
    | GNamed d ts _ =>
        match nth_error p d with
        | None => false
        | Some it =>
            let oks := map (implements bounds) ts in
            Nat.eqb (length ts) (it_params it) && forallb (fun i => nth i oks false) (it_bounds it)
        end
    end.

  (** The generated impl is checked once, with the parameters left open.  Its constant
      mentions [<#ty as Ordinal>::ORDINAL_SIZE] for the type of every field
      (ordinal-map-derive/src/ordinal.rs:97-101, 217-219, 359-373). *)
  Definition impl_accepted (it : item) : bool :=
    forallb (implements (it_bounds it)) (body_types (it_body it)).
  Definition program_accepted : bool := forallb impl_accepted p.

  (** ** The type expression a type without parameters stands for.

      [Self::ORDINAL_SIZE] of a type needs the constant of every part of it, and every
      derived function mentions it (ordinal-map-derive/src/ordinal.rs:63-78).  The compiler
      evaluates them one inside the other, and gives up at some depth [limit] or as soon as
      a constant needs itself.  [None]: it gave up, and no use of the impl compiles.
      A type that never ends has a declared type on every endless path (the other
      constructors only nest finitely), and the functions of the other impls instantiate
      those of their parts, so this holds of types such as [Option<List>], too. *)
  Fixpoint all_some {A} (l : list (option A)) : option (list A) :=
    match l with
    | [] => Some []
    | Some a :: r => match all_some r with Some r' => Some (a :: r') | None => None end
    | None :: _ => None
    end.

  Definition unfold_decl (f : gty -> option ty) (d : decl gty) : option (decl ty) :=
    match d with
    | DUnit => Some DUnit
    | DUnnamed l => option_map DUnnamed (all_some (map f l))
    | DNamed l =>
        option_map DNamed (all_some (map (fun '(x, t) => option_map (pair x) (f t)) l))
    end.
  Definition unfold_variant (f : gty -> option ty) (v : vdecl gty) : option (vdecl ty) :=
    let 'VDecl z d := v in option_map (VDecl z) (unfold_decl f d).
  Definition unfold_body (f : gty -> option ty) (b : body) : option ty :=
    match b with
    | BStruct d => option_map TStruct (unfold_decl f d)
    | BEnum vs => option_map TEnum (all_some (map (unfold_variant f) vs))
    end.

  Fixpoint unfold (limit : nat) (t : gty) : option ty :=
    match limit with
    | 0%nat => None
    | S n =>
        match t with
        | GVar _ | GForeign => None
        | GPrim q => Some (TPrim q)
        | GBox t => option_map TBox (unfold n t)
        | GOption t => option_map TOption (unfold n t)
        | GResult a b =>
            match unfold n a, unfold n b with Some a', Some b' => Some (TResult a' b') | _, _ => None end
        | GEither a b =>
            match unfold n a, unfold n b with Some a', Some b' => Some (TEither a' b') | _, _ => None end
        | GArray t l => option_map (fun t' => TArray t' (len_value l)) (unfold n t)
        | GTuple ts => option_map TTuple (all_some (map (unfold n) ts))
        | GNamed d ts ls =>
            match nth_error p d with
            | None => None
            | Some it => unfold_body (fun t => unfold n (inst ts (map len_value ls) t)) (it_body it)
            end
        end
    end.
End Program.
