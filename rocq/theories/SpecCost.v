(** * SpecCost: costs of iterators and of programs. *)
From Verif Require Import Base Spec SpecMap ModelIter ModelCost.

(** An iterator, given by its counted steps, with [left s] slots (or values) still to be looked
    at. A call that passes [p] of them takes between [lo] and [hi] steps for each and one for
    finding the end. Only a call at the end passes none. *)
Definition walks {St A} (cstep : dir -> St -> counted (option A * St)) (left : St -> N) (lo hi : N) : Prop :=
  forall d s,
    steps (cstep d s) <= hi * left s + 1 /\
    forall o s', outcome (cstep d s) = Val (o, s') ->
      exists p, left s = left s' + p /\
        match o with
        | None => left s' = 0 /\ lo * p + 1 <= steps (cstep d s) <= hi * p + 1
        | Some _ => 1 <= p /\ lo * p <= steps (cstep d s) <= hi * p
        end.

(** Operations of a client program that take a key. *)
Definition takes_key {K V} (op : map_op K V) : bool :=
  match op with
  | OpInsert _ _ | OpGet _ | OpGetMut _ _ | OpContainsKey _ | OpRemove _
  | OpEntryDrop _ | OpEntryMatch _ _ _ | OpEntryOrInsert _ _ _ => true
  | _ => false
  end.
