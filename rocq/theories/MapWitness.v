(** * MapWitness: a witness for C27. *)
From Verif Require Import Base Spec SpecMap SpecTotal ModelOrdinal ModelValues ModelArrayBuilder ModelIter ModelTotal ModelMap MapMachine.
From Coq Require Import List. Import ListNotations.

Lemma contains_key_refuted : exists (st : @OrdinalMap N) (k : bool),
  heap_reachable (cfg := release64) Ordinal_bool st /\
  OrdinalMap_contains_key Ordinal_bool st k = Val true /\ OrdinalMap_get Ordinal_bool st k = Val None.
Proof.
  exists [Some 5; None], true. split; [|split; reflexivity].
  exists [@OpInsert _ N false 5]. eexists. reflexivity.
Qed.
