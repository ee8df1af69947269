(** * SpecClone: cloning a collection whose values' Clone and Drop have effects and may panic. *)
From Verif Require Import Base Spec SpecDrop ModelClone.
From Coq Require Import List. Import ListNotations.

(** [clones cl st l st' made r]: starting in state [st], the elements of [l] are cloned in order
    until a clone panics; [made] are the clones, [st'] is the final state and [r] how it ended. *)
Inductive clones {St A : Type} (cl : St -> A -> St * res A) : St -> list A -> St -> list A -> res unit -> Prop :=
| clones_end : forall st, clones cl st [] st [] (Val tt)
| clones_next : forall st st1 st' x y l made r,
    cl st x = (st1, Val y) -> clones cl st1 l st' made r -> clones cl st (x :: l) st' (y :: made) r
| clones_panic : forall st st' x l w,
    cl st x = (st', Panic w) -> clones cl st (x :: l) st' [] (Panic w).

(** [result] is what cloning a collection with the entries [l] does: each value is cloned once, in
    order. If all clones return, the result has the same keys with the clones ([shows]). If
    one panics the clones made are dropped in order, and a panic of their destructors
    aborts the process. *)
Definition copied {St K V C : Type} (cl : St -> V -> St * res V) (drop : St -> V -> St * res unit) (st : St)
    (l : list (K * V)) (shows : C -> list (K * V) -> Prop) (result : St * copy C) : Prop :=
  exists st1 made r, clones cl st (map snd l) st1 made r /\
    match r with
    | Val _ => exists c, result = (st1, Cloned c) /\ shows c (combine (map fst l) made)
    | Panic w => exists st' left r', drops drop st1 made st' left r' /\
        result = (st', match r' with Val _ => Unwound w | _ => Aborted end)
    | _ => False
    end.
