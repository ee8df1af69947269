(** * PropSorted: C76, iteration follows [Ord], as with BTreeMap and BTreeSet.

    For every type built from the provided impls and derives ([ty], [impl_of t]; SpecUniverse.v
    and ModelUniverse.v) without explicit discriminants, everything comes in increasing order of
    Rust's [<] ([lt_of t]) from the front, and in decreasing order from the back
    ([double_ended], SpecIter.v). *)
From Verif Require Import Base Spec SpecUniverse SpecIter SpecMap SpecSet ModelOrdinal ModelValues ModelArrayBuilder ModelDerive
  ModelUniverse ModelIter ModelMap ModelTotal ModelSet MapMachine SetMachine TotalMachine SortedProofs.
From Coq Require Import List. Import ListNotations.

Theorem C76_all_values : forall (cfg : Config) (t : ty) (n : N),
  ORDINAL_SIZE (impl_of t) = Val n -> no_discriminants t ->
  exists l s, (forall v, In v l) /\ StronglySorted (lt_of t) l /\ values_new (impl_of t) = Val s /\
    double_ended (values_step (impl_of t)) s l anything.
Proof. exact @values_sorted. Qed.
Print Assumptions C76_all_values.
Theorem C76_map : forall (cfg : Config) (t : ty) (n : N),
  ORDINAL_SIZE (impl_of t) = Val n -> no_discriminants t ->
  forall (V : Type) (st : @OrdinalMap V), heap_reachable (impl_of t) st ->
  exists l, (forall k v, In (k, v) l <-> OrdinalMap_get (impl_of t) st k = Val (Some v)) /\
    StronglySorted (lt_of t) (map fst l) /\
    double_ended (Iter_step (impl_of t)) (OrdinalMap_iter st) l anything /\
    double_ended (IntoIter_step (impl_of t)) (OrdinalMap_into_iter st) l anything.
Proof. exact @map_sorted. Qed.
Print Assumptions C76_map.
Theorem C76_array_map : forall (cfg : Config) (t : ty) (n : N),
  ORDINAL_SIZE (impl_of t) = Val n -> no_discriminants t ->
  forall (V : Type) (S : nat) (a : @OrdinalArrayMap V S), array_reachable (impl_of t) a ->
  exists l, (forall k v, In (k, v) l <-> OrdinalArrayMap_get (impl_of t) a k = Val (Some v)) /\
    StronglySorted (lt_of t) (map fst l) /\
    double_ended (Iter_step (impl_of t)) (OrdinalArrayMap_iter a) l anything /\
    double_ended (IntoIterArray_step (impl_of t)) (OrdinalArrayMap_into_iter a) l anything.
Proof. exact @array_map_sorted. Qed.
Print Assumptions C76_array_map.
Theorem C76_total_map : forall (cfg : Config) (t : ty) (n : N),
  ORDINAL_SIZE (impl_of t) = Val n -> no_discriminants t ->
  forall (V : Type) (m : @OrdinalTotalMap V), htotal_reachable (impl_of t) m ->
  exists l, (forall k v, In (k, v) l <-> OrdinalTotalMap_get (impl_of t) m k = Val v) /\
    StronglySorted (lt_of t) (map fst l) /\
    double_ended (TIter_step (impl_of t)) (OrdinalTotalMap_iter m) l anything /\
    double_ended (TIntoIter_step (impl_of t)) (OrdinalTotalMap_into_iter m) l anything.
Proof. exact @total_map_sorted. Qed.
Print Assumptions C76_total_map.
Theorem C76_total_array_map : forall (cfg : Config) (t : ty) (n : N),
  ORDINAL_SIZE (impl_of t) = Val n -> no_discriminants t ->
  forall (V : Type) (S : nat) (m : OrdinalTotalArrayMap S V), atotal_reachable (impl_of t) m ->
  exists l, (forall k v, In (k, v) l <-> OrdinalTotalArrayMap_get (impl_of t) m k = Val v) /\
    StronglySorted (lt_of t) (map fst l) /\
    double_ended (TIter_step (impl_of t)) (OrdinalTotalArrayMap_iter m) l anything /\
    double_ended (TIntoIterArray_step (impl_of t)) (OrdinalTotalArrayMap_into_iter m) l anything.
Proof. exact @total_array_map_sorted. Qed.
Print Assumptions C76_total_array_map.
(** [OrdinalSet_iter] may panic for a type without values (C58). *)
Theorem C76_set : forall (cfg : Config) (t : ty) (n : N),
  ORDINAL_SIZE (impl_of t) = Val n -> no_discriminants t ->
  forall (s : OrdinalSet) it, set_reachable (impl_of t) s -> OrdinalSet_iter (impl_of t) s = Val it ->
  exists l, (forall v, In v l <-> OrdinalSet_contains (impl_of t) s v = Val true) /\
    StronglySorted (lt_of t) l /\ double_ended (SetIter_step (impl_of t)) it l anything.
Proof. exact @set_sorted. Qed.
Print Assumptions C76_set.
Theorem C76_set64 : forall (cfg : Config) (t : ty) (n : N),
  ORDINAL_SIZE (impl_of t) = Val n -> no_discriminants t ->
  forall (s : OrdinalSet64) it, set64_reachable (impl_of t) s -> OrdinalSet64_iter (impl_of t) s = Val it ->
  exists l, (forall v, In v l <-> OrdinalSet64_contains (impl_of t) s v = Val true) /\
    StronglySorted (lt_of t) l /\ double_ended (Iter64_step (impl_of t)) it l anything.
Proof. exact @set64_sorted. Qed.
Print Assumptions C76_set64.

(** [Result<bool, Ordering>]: the map holding Err(Equal) and Ok(true). *)
Definition res_ty : ty := TResult (TPrim Pbool) (TPrim POrd).
Example C76_case : forall cfg : Config,
  ORDINAL_SIZE (impl_of res_ty) = Val 5 /\ no_discriminants res_ty /\
  heap_reachable (impl_of res_ty) [None; Some 8; None; Some 3; None] /\
  collects (Iter_step (impl_of res_ty)) (OrdinalMap_iter [None; Some 8; None; Some 3; None])
    [(ResOk true, 8); (ResErr Eq, 3)] /\
  lt_of res_ty (ResOk true) (ResErr Eq) /\
  set64_reachable (impl_of res_ty) 10 /\ OrdinalSet64_iter (impl_of res_ty) 10 = Val 10.
Proof.
  intros [[] [] []]; (split; [vm_compute; reflexivity|]); (split; [cbn; tauto|]);
    (split; [exists [OpInsert (ResErr Eq) 3; OpInsert (ResOk true) 8]; eexists; vm_compute; reflexivity|]);
    (split; [exists 6%nat; eexists; vm_compute; reflexivity|]); (split; [exact I|]);
    (split; [exists 0, [SInsert (ResErr Eq); SInsert (ResOk true)]; eexists; split; try left; vm_compute; reflexivity|vm_compute; reflexivity]).
Qed.
