(** * ModelMono: what the compiler evaluates when it instantiates [ordinal] or
    [from_ordinal] of a type.

    The other model files put a failing constant at the place where a run reaches it.  The
    compiler looks at the whole body instead: it evaluates every constant that the body of
    an instantiated function mentions, also on paths that are never taken, and it
    instantiates every function the body mentions.  [inst_ordinal t] is [Val tt] when
    [<t as Ordinal>::ordinal] can be instantiated and [NoCompile] when it cannot;
    [inst_from t] says the same of [from_ordinal]. *)
From Verif Require Import Base Spec ModelOrdinal SpecUniverse ModelUniverse.
From Coq Require Import List.
Import ListNotations.

Section Mono.
  Context {cfg : Config}.

  (** [T::ORDINAL_SIZE] is mentioned. *)
  Definition mentions_size (t : ty) : res unit := ORDINAL_SIZE (impl_of t) ;;; Val tt.

  (** One function after another is instantiated. *)
  Definition inst_all (l : list (res unit)) : res unit :=
    fold_right (fun r acc => r ;;; acc) (Val tt) l.

  (** [const { Self::ORDINAL_SIZE };] at the start of [ordinal]: primitive.rs:81 and 96,
      non_zero.rs:175 and 189.  The other bodies mention no constant of this crate.
      (NonZeroU64 and NonZeroI64 call the functions of NonZeroUsize and NonZeroIsize,
      which are in that position, too.) *)
  Definition inst_ordinal_prim (p : prim) : res unit :=
    match p with
    | Pu32 | Pi32 | PNonZeroU64 | PNonZeroI64 => mentions_size (TPrim p)
    | _ => Val tt
    end.

  (** The same for [from_ordinal]: primitive.rs:102, non_zero.rs:180 and 194.  There is no
      such line in [u32::from_ordinal] (primitive.rs:85-88). *)
  Definition inst_from_prim (p : prim) : res unit :=
    match p with
    | Pi32 | PNonZeroU64 | PNonZeroI64 => mentions_size (TPrim p)
    | _ => Val tt
    end.

  (** - boxed.rs:6-8: [ordinal] of the content;
      - impls/std.rs:8-13: [a.ordinal()];
      - impls/std.rs:27-32, either.rs:10-15: [a.ordinal()], [A::ORDINAL_SIZE], [b.ordinal()];
      - array.rs:15-22: [T::ORDINAL_SIZE], [v.ordinal()], for every length;
      - ordinal-map-derive/src/ordinal.rs:63-68: [let _check_overflow = Self::ORDINAL_SIZE]
        in every derived impl and in those for tuples, then [ordinal] of the fields and
        products and sums of their sizes, which are part of Self::ORDINAL_SIZE. *)
  Fixpoint inst_ordinal (t : ty) : res unit :=
    match t with
    | TPrim p => inst_ordinal_prim p
    | TBox t | TOption t => inst_ordinal t
    | TResult a b | TEither a b => inst_ordinal a ;;; mentions_size a ;;; inst_ordinal b
    | TArray e _ => mentions_size e ;;; inst_ordinal e
    | TTuple ts => mentions_size t ;;; inst_all (map inst_ordinal ts)
    | TStruct d => mentions_size t ;;; inst_all (decl_list inst_ordinal d)
    | TEnum vs =>
        mentions_size t ;;;
        inst_all (map (fun '(VDecl _ d) => inst_all (decl_list inst_ordinal d)) vs)
    end.

  (** - boxed.rs:10-12, impls/std.rs:15-21: [from_ordinal] of the content;
      - impls/std.rs:34-40, either.rs:17-23: [A::ORDINAL_SIZE], both [from_ordinal]s;
      - array.rs:24-42: [T::ORDINAL_SIZE], [T::from_ordinal];
      - ordinal-map-derive/src/ordinal.rs:70-78: [if Self::ORDINAL_SIZE == 0], then
        [from_ordinal] of the fields. *)
  Fixpoint inst_from (t : ty) : res unit :=
    match t with
    | TPrim p => inst_from_prim p
    | TBox t | TOption t => inst_from t
    | TResult a b | TEither a b => mentions_size a ;;; inst_from a ;;; inst_from b
    | TArray e _ => mentions_size e ;;; inst_from e
    | TTuple ts => mentions_size t ;;; inst_all (map inst_from ts)
    | TStruct d => mentions_size t ;;; inst_all (decl_list inst_from d)
    | TEnum vs =>
        mentions_size t ;;;
        inst_all (map (fun '(VDecl _ d) => inst_all (decl_list inst_from d)) vs)
    end.

  (** A program that calls [ordinal] on a value of the type, built and run. *)
  Definition compiled_ordinal (t : ty) (v : type_of t) : res N :=
    inst_ordinal t ;;; ordinal (impl_of t) v.
  Definition compiled_from (t : ty) (o : N) : res (option (type_of t)) :=
    inst_from t ;;; from_ordinal (impl_of t) o.
End Mono.
