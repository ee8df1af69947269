(** * SpecSource: what a caller's iterator yields. *)
From Verif Require Import Base Spec.
From Coq Require Import List.
Import ListNotations.

(** [yields next st l st']: called repeatedly from state [st], [next] yields the elements of [l], in
    this order, and is then in state [st']. *)
Inductive yields {St A : Type} (next : St -> St * res (option A)) : St -> list A -> St -> Prop :=
| yields_none : forall st, yields next st [] st
| yields_one : forall st st1 st' x l,
    next st = (st1, Val (Some x)) -> yields next st1 l st' -> yields next st (x :: l) st'.

(** [collects run next st of_list]: [run fuel] takes from the iterator what [of_list] does with the
    list of its elements, for every way the iterator or an insertion may end. [of_list l] is the
    result of collecting from the list [l]. *)
Record collects {St A C : Type} (run : nat -> res (St * C * res unit)) (next : St -> St * res (option A))
    (st : St) (of_list : list A -> res C) : Prop := {
  (** The iterator ends: the collection is that of the list, and nothing more is asked of the
      iterator. *)
  collects_end : forall l st1 st2 c, yields next st l st1 -> next st1 = (st2, Val None) ->
    of_list l = Val c -> exists turns, forall fuel, (turns <= fuel)%nat -> run fuel = Val (st2, c, Val tt);
  (** The iterator panics. *)
  collects_iterator_panics : forall l st1 st2 c w, yields next st l st1 -> next st1 = (st2, Panic w) ->
    of_list l = Val c -> exists turns, forall fuel, (turns <= fuel)%nat -> run fuel = Val (st2, c, Panic w);
  (** Inserting an element panics: the iterator is not asked for another one. *)
  collects_insert_panics : forall l x st1 c w, yields next st (l ++ [x]) st1 ->
    of_list l = Val c -> of_list (l ++ [x]) = Panic w ->
    exists turns, forall fuel, (turns <= fuel)%nat -> run fuel = Val (st1, c, Panic w);
  (** The empty collection cannot be made: the iterator is not asked at all. *)
  collects_new_panics : forall w, of_list [] = Panic w -> forall fuel, run fuel = Panic w;
  collects_new_rejected : of_list [] = NoCompile -> forall fuel, run fuel = NoCompile;
  (** Neither ends: the loop has no end either. *)
  collects_endless :
    (forall k, exists l st1 c, length l = k /\ yields next st l st1 /\ of_list l = Val c) ->
    forall fuel, exists st' c, run fuel = Val (st', c, OutOfFuel)
}.
