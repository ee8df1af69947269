(** * PropRound: C69 (collecting what a collection yields rebuilds it) and C70 (the two total
    maps agree).

    [rebuilt O n get l]: both sparse maps collect [l] into a map whose [get] is [get];
    [rebuilt_total] the same for a total [get]; [refilled O n c l]: every set type that can hold
    the elements collects [l] into a set whose [contains] is [c]; [ends_alike same x y]: two
    constructor runs end the same way (SpecRound.v). *)
From Verif Require Import Base Spec SpecMap SpecTotal SpecSet SpecIter SpecApi SpecRound ModelOrdinal ModelValues
  ModelArrayBuilder ModelIter ModelTotal ModelMap ModelSet MapMachine TotalMachine SetMachine OrdinalProofs RoundProofs.
From Coq Require Import List Permutation. Import ListNotations.

(** ** C69 *)
Theorem C69_map : forall (cfg : Config) (K V : Type) (O : Ordinal K) (n : N), ordinal_bijection O n ->
  forall st : @OrdinalMap V, heap_reachable O st ->
  exists l, collects (IntoIter_step O) (OrdinalMap_into_iter st) l /\
    forall l', Permutation l l' -> rebuilt O n (OrdinalMap_get O st) l'.
Proof. exact @round_heap. Qed.
Print Assumptions C69_map.
Theorem C69_array_map : forall (cfg : Config) (K V : Type) (O : Ordinal K) (n : N), ordinal_bijection O n ->
  forall (S : nat) (a : @OrdinalArrayMap V S), array_reachable O a ->
  exists l, collects (IntoIterArray_step O) (OrdinalArrayMap_into_iter a) l /\
    forall l', Permutation l l' -> rebuilt O n (OrdinalArrayMap_get O a) l'.
Proof. exact @round_array. Qed.
Print Assumptions C69_array_map.
Theorem C69_total_map : forall (cfg : Config) (K V : Type) (O : Ordinal K) (n : N), ordinal_bijection O n ->
  forall (m : @OrdinalTotalMap V) l, htotal_reachable O m -> lists_total O (OrdinalTotalMap_get O m) l ->
  collects (TIntoIter_step O) (OrdinalTotalMap_into_iter m) l /\
  forall l', Permutation l l' -> rebuilt_total O n (OrdinalTotalMap_get O m) l'.
Proof. exact @round_htotal. Qed.
Print Assumptions C69_total_map.
Theorem C69_total_array_map : forall (cfg : Config) (K V : Type) (O : Ordinal K) (n : N), ordinal_bijection O n ->
  forall (S : nat) (m : OrdinalTotalArrayMap S V) l, atotal_reachable O m -> lists_total O (OrdinalTotalArrayMap_get O m) l ->
  collects (TIntoIterArray_step O) (OrdinalTotalArrayMap_into_iter m) l /\
  forall l', Permutation l l' -> rebuilt_total O n (OrdinalTotalArrayMap_get O m) l'.
Proof. exact @round_atotal. Qed.
Print Assumptions C69_total_array_map.
Theorem C69_set : forall (cfg : Config) (T : Type) (O : Ordinal T) (n : N), ordinal_bijection O n ->
  forall s : OrdinalSet, 1 <= n \/ debug_assertions = false -> set_reachable O s ->
  exists it l, OrdinalSet_iter O s = Val it /\ collects (SetIter_step O) it l /\
    forall l', (forall t, In t l <-> In t l') -> refilled O n (OrdinalSet_contains O s) l'.
Proof. exact @round_set. Qed.
Print Assumptions C69_set.
Theorem C69_set64 : forall (cfg : Config) (T : Type) (O : Ordinal T) (n : N), ordinal_bijection O n ->
  forall s : OrdinalSet64, set64_reachable O s ->
  exists it l, OrdinalSet64_iter O s = Val it /\ collects (Iter64_step O) it l /\
    forall l', (forall t, In t l <-> In t l') -> refilled O n (OrdinalSet64_contains O s) l'.
Proof. exact @round_set64. Qed.
Print Assumptions C69_set64.
Example C69_case :
  OrdinalMap_from_iter Ordinal_Ordering [(Gt, 7); (Lt, 3)] = Val [Some 3; None; Some 7] /\
  (exists s, collect (IntoIter_step (cfg := debug64) Ordinal_Ordering Front) 3 (OrdinalMap_into_iter [Some 3; None; Some 7])
     = Val ([(Lt, 3); (Gt, 7)], s)) /\
  OrdinalSet64_from_iter (cfg := debug64) Ordinal_Ordering [Gt; Lt; Gt] = Val 5 /\
  (exists s, collect (Iter64_step (cfg := debug64) Ordinal_Ordering Front) 3 5 = Val ([Lt; Gt], s)).
Proof. repeat split; try reflexivity; eexists; reflexivity. Qed.

(** ** C70 *)
Theorem C70_total_maps_agree : forall (cfg : Config) (K V : Type) (O : Ordinal K) (n : N), ordinal_bijection O n ->
  forall (S : nat) (m : @OrdinalTotalMap V) (a : OrdinalTotalArrayMap S V),
  htotal_reachable O m -> atotal_reachable O a ->
  (forall k, OrdinalTotalMap_get O m k = OrdinalTotalArrayMap_get O a k) ->
  forall ops, exists outs m' a', htotal_run O ops m = Val (outs, m') /\ atotal_run O ops a = Val (outs, a') /\
    forall k, OrdinalTotalMap_get O m' k = OrdinalTotalArrayMap_get O a' k.
Proof. exact @totals_agree. Qed.
Print Assumptions C70_total_maps_agree.
Theorem C70_try_new_agree : forall (cfg : Config) (K V : Type) (O : Ordinal K) (n : N), ordinal_bijection O n ->
  forall (S : nat) (E St : Type) (init : St -> K -> St * res (result V E)) (st : St), N.of_nat S = n ->
  fst (OrdinalTotalMap_try_new O init st) = fst (OrdinalTotalArrayMap_try_new O S init st) /\
  ends_alike (fun m a => forall k, OrdinalTotalMap_get O m k = OrdinalTotalArrayMap_get O a k)
    (snd (OrdinalTotalMap_try_new O init st)) (returned (snd (OrdinalTotalArrayMap_try_new O S init st))).
Proof. exact @built_agree. Qed.
Print Assumptions C70_try_new_agree.
Example C70_case :
  let ops := [@TInsert _ N Eq 9; @TGetMut _ N Lt 1; TIndex Lt; TGet Eq; TLen] in
  let outs := [TOValue 5; TOValue 3; TOValue 1; TOValue 9; TONum 3] in
  htotal_run (cfg := release32) Ordinal_Ordering ops [3; 5; 7] = Val (outs, [1; 9; 7]) /\
  (exists a, atotal_run (cfg := release32) Ordinal_Ordering ops (@mk_arr N 3 [3; 5; 7] eq_refl) = Val (outs, a) /\
     arr_list a = [1; 9; 7]).
Proof. split; [reflexivity|]. eexists. split; reflexivity. Qed.
