(** * SpecMono: for which types [ordinal] and [from_ordinal] can be instantiated, said by
    counting values. *)
From Verif Require Import Base SpecUniverse.
From Coq Require Import List.

Section Mono.
  Context {cfg : Config}.

  (** Only the outermost layers of Box, Option, Result (on the right), Either (on the right)
      and one array around a type that fits may take the type past usize::MAX values. *)
  Fixpoint ordinal_available (t : ty) : Prop :=
    match t with
    | TBox t | TOption t => ordinal_available t
    | TResult a b | TEither a b => fits a /\ ordinal_available b
    | TArray e _ => fits e
    | TPrim _ | TTuple _ | TStruct _ | TEnum _ => fits t
    end.

  (** The same, with the exception of [u32]. *)
  Fixpoint from_available (t : ty) : Prop :=
    match t with
    | TBox t | TOption t => from_available t
    | TResult a b | TEither a b => fits a /\ from_available b
    | TArray e _ => fits e
    | TPrim Pu32 => True
    | TPrim _ | TTuple _ | TStruct _ | TEnum _ => fits t
    end.
End Mono.
