(** * PropCost: C95 (properties.jsonl). *)
From Verif Require Import Base Spec SpecMap SpecTotal SpecSet SpecIter SpecApi ModelOrdinal ModelValues ModelArrayBuilder ModelIter
  ModelTotal ModelMap ModelSet MapMachine TotalMachine SetMachine ModelCost SpecCost CostProofs2 CostProofs3.
From Coq Require Import List. Import ListNotations.

(** ** C95. What the operations cost. The counted functions of ModelCost.v compute what the model
    computes ([outcome]), for every implementation of the trait, and take the [steps] stated. *)

(** get, get_mut, contains_key, remove; insert and entry of a map whose slots exist. *)
Theorem C95_map_keys : forall (K : Type) (O : Ordinal K) (V : Type) (m : @OrdinalMap V),
    (forall k, outcome (c_OrdinalMap_get O m k) = OrdinalMap_get O m k /\ steps (c_OrdinalMap_get O m k) <= 2) /\
    (forall k, outcome (c_OrdinalMap_get_mut O m k) = OrdinalMap_get_mut O m k /\ steps (c_OrdinalMap_get_mut O m k) <= 2) /\
    (forall k, outcome (c_OrdinalMap_contains_key O m k) = OrdinalMap_contains_key O m k /\ steps (c_OrdinalMap_contains_key O m k) <= 2) /\
    (forall k, outcome (c_OrdinalMap_remove O m k) = OrdinalMap_remove O m k /\ steps (c_OrdinalMap_remove O m k) <= 3) /\
    (m <> [] -> forall k v, outcome (c_OrdinalMap_insert O m k v) = OrdinalMap_insert O m k v /\ steps (c_OrdinalMap_insert O m k v) <= 3) /\
    (m <> [] -> forall k, outcome (c_OrdinalMap_entry O m k) = OrdinalMap_entry O m k /\ steps (c_OrdinalMap_entry O m k) <= 2).
Proof. exact @map_keys_cost. Qed.
Print Assumptions C95_map_keys.

(** The first insertion creates the [n] slots. *)
Theorem C95_map_first : forall (K : Type) (O : Ordinal K) (V : Type) (n : N),
    ORDINAL_SIZE O = Val n -> forall k : K,
    (forall (v : V), outcome (c_OrdinalMap_insert O [] k v) = OrdinalMap_insert O [] k v /\ steps (c_OrdinalMap_insert O [] k v) <= n + 3 /\
      forall o m, OrdinalMap_insert O [] k v = Val (o, m) -> steps (c_OrdinalMap_insert O [] k v) = n + 3) /\
    outcome (c_OrdinalMap_entry (V := V) O [] k) = OrdinalMap_entry O [] k /\ steps (c_OrdinalMap_entry (V := V) O [] k) <= n + 2.
Proof. exact @map_first_cost. Qed.
Print Assumptions C95_map_first.

(** A call that panics has paid for the steps before. *)
Theorem C95_map_panics : forall (K : Type) (O : Ordinal K) (V : Type) (n : N),
    ORDINAL_SIZE O = Val n -> forall (k : K) (v : V) (m : @OrdinalMap V),
    (forall w, ordinal O k = Panic w ->
      c_OrdinalMap_get O m k = (1, Panic w) /\ c_OrdinalMap_remove O m k = (1, Panic w) /\
      c_OrdinalMap_insert O m k v = (if llen m =? 0 then n + 1 else 1, Panic w) /\
      c_OrdinalMap_entry O m k = (if llen m =? 0 then n + 1 else 1, Panic w)) /\
    (forall i, ordinal O k = Val i -> n <= i -> llen m = n \/ llen m = 0 ->
      c_OrdinalMap_insert O m k v = (if llen m =? 0 then n + 2 else 2, Panic PIndex)).
Proof. exact @map_panic_cost. Qed.
Print Assumptions C95_map_panics.

(** So any program of operations with keys costs one creation and at most 6 steps each. *)
Theorem C95_map_programs : forall (cfg : Config) (K : Type) (O : Ordinal K) (V : Type) (n : N),
    ORDINAL_SIZE O = Val n -> forall ops : list (map_op K V),
    outcome (c_heap_run O ops OrdinalMap_new) = heap_run O ops OrdinalMap_new /\
    (forallb takes_key ops = true -> steps (c_heap_run O ops OrdinalMap_new) <= n + 6 * llen ops).
Proof. exact @map_program_cost. Qed.
Print Assumptions C95_map_programs.

(** Entries (map/entry.rs:21 "constant time"). *)
Theorem C95_map_entries : forall (K : Type) (V : Type) (m : @OrdinalMap V) (e : Entry K) (v : V),
    outcome (c_Entry_or_insert m e v) = Entry_or_insert m e v /\ steps (c_Entry_or_insert m e v) <= 2 /\
    match e with
    | Occupied e => outcome (c_OccupiedEntry_get m e) = OccupiedEntry_get m e /\ steps (c_OccupiedEntry_get m e) <= 1 /\
        outcome (c_OccupiedEntry_get_mut m e) = OccupiedEntry_get_mut m e /\ steps (c_OccupiedEntry_get_mut m e) <= 1
    | Vacant e => outcome (c_VacantEntry_insert m e v) = VacantEntry_insert m e v /\ steps (c_VacantEntry_insert m e v) <= 2
    end.
Proof. exact @map_entry_cost. Qed.
Print Assumptions C95_map_entries.

(** [len] looks at every slot once (map/map.rs:62). *)
Theorem C95_map_len : forall (cfg : Config) (K : Type) (O : Ordinal K) (V : Type) (m : @OrdinalMap V),
    outcome (c_OrdinalMap_len O m) = OrdinalMap_len O m /\ steps (c_OrdinalMap_len O m) <= 3 * llen m + 1 /\
    forall r, OrdinalMap_len O m = Val r -> steps (c_OrdinalMap_len O m) = 3 * llen m + 1.
Proof. exact @map_len_cost. Qed.
Print Assumptions C95_map_len.

(** [is_empty] looks at the slots up to the first value, or at all of them. *)
Theorem C95_map_is_empty : forall (cfg : Config) (K : Type) (O : Ordinal K) (V : Type) (m : @OrdinalMap V),
    outcome (c_OrdinalMap_is_empty O m) = OrdinalMap_is_empty O m /\ steps (c_OrdinalMap_is_empty O m) <= 3 * llen m + 1 /\
    forall b, OrdinalMap_is_empty O m = Val b -> forall (f : nat),
      (forall v rest, m = repeat None f ++ Some v :: rest -> steps (c_OrdinalMap_is_empty O m) = 3 * (N.of_nat f + 1)) /\
      (m = repeat None f -> steps (c_OrdinalMap_is_empty O m) = 3 * N.of_nat f + 1).
Proof. exact @map_is_empty_cost. Qed.
Print Assumptions C95_map_is_empty.

(** [clear] looks at every slot. *)
Theorem C95_map_clear : forall (cfg : Config) (K : Type) (O : Ordinal K) (V : Type) (m : @OrdinalMap V),
    outcome (c_OrdinalMap_clear O m) = OrdinalMap_clear O m /\ steps (c_OrdinalMap_clear O m) <= 4 * llen m + 1 /\
    forall m', OrdinalMap_clear O m = Val m' -> steps (c_OrdinalMap_clear O m) = 4 * llen m + 1.
Proof. exact @map_clear_cost. Qed.
Print Assumptions C95_map_clear.

(** map/array_map.rs:54. *)
Theorem C95_array_map_len : forall (cfg : Config) (K : Type) (O : Ordinal K) (V : Type) (S : nat) (m : @OrdinalArrayMap V S),
    outcome (c_OrdinalArrayMap_len O m) = OrdinalArrayMap_len O m /\ steps (c_OrdinalArrayMap_len O m) <= 3 * N.of_nat S + 1 /\
    (forall r, OrdinalArrayMap_len O m = Val r -> steps (c_OrdinalArrayMap_len O m) = 3 * N.of_nat S + 1) /\
    outcome (c_OrdinalArrayMap_is_empty O m) = OrdinalArrayMap_is_empty O m /\ steps (c_OrdinalArrayMap_is_empty O m) <= 3 * N.of_nat S + 1.
Proof. exact @array_len_cost. Qed.
Print Assumptions C95_array_map_len.

Theorem C95_array_map_keys : forall (K : Type) (O : Ordinal K) (V : Type) (S : nat) (m : @OrdinalArrayMap V S) (k : K),
    outcome (c_OrdinalArrayMap_get O m k) = OrdinalArrayMap_get O m k /\ steps (c_OrdinalArrayMap_get O m k) <= 2 /\
    outcome (c_OrdinalArrayMap_get_mut O m k) = OrdinalArrayMap_get_mut O m k /\ steps (c_OrdinalArrayMap_get_mut O m k) <= 2 /\
    outcome (c_OrdinalArrayMap_contains_key O m k) = OrdinalArrayMap_contains_key O m k /\ steps (c_OrdinalArrayMap_contains_key O m k) <= 2 /\
    outcome (c_OrdinalArrayMap_remove O m k) = OrdinalArrayMap_remove O m k /\ steps (c_OrdinalArrayMap_remove O m k) <= 3 /\
    outcome (c_OrdinalArrayMap_entry O m k) = OrdinalArrayMap_entry O m k /\ steps (c_OrdinalArrayMap_entry O m k) <= 2 /\
    forall v, outcome (c_OrdinalArrayMap_insert O m k v) = OrdinalArrayMap_insert O m k v /\ steps (c_OrdinalArrayMap_insert O m k v) <= 3.
Proof. exact @array_keys_cost. Qed.
Print Assumptions C95_array_map_keys.

Theorem C95_total_map_keys : forall (K : Type) (O : Ordinal K) (V : Type) (m : @OrdinalTotalMap V) (S : nat) (a : OrdinalTotalArrayMap S V) (k : K),
    outcome (c_OrdinalTotalMap_get O m k) = OrdinalTotalMap_get O m k /\ steps (c_OrdinalTotalMap_get O m k) <= 2 /\
    outcome (c_OrdinalTotalMap_get_mut O m k) = OrdinalTotalMap_get_mut O m k /\ steps (c_OrdinalTotalMap_get_mut O m k) <= 1 /\
    outcome (c_OrdinalTotalArrayMap_get O a k) = OrdinalTotalArrayMap_get O a k /\ steps (c_OrdinalTotalArrayMap_get O a k) <= 2 /\
    outcome (c_OrdinalTotalArrayMap_get_mut O a k) = OrdinalTotalArrayMap_get_mut O a k /\ steps (c_OrdinalTotalArrayMap_get_mut O a k) <= 1 /\
    forall v, outcome (c_OrdinalTotalMap_insert O m k v) = OrdinalTotalMap_insert O m k v /\ steps (c_OrdinalTotalMap_insert O m k v) <= 3 /\
      outcome (c_OrdinalTotalArrayMap_insert O a k v) = OrdinalTotalArrayMap_insert O a k v /\ steps (c_OrdinalTotalArrayMap_insert O a k v) <= 3.
Proof. exact @total_keys_cost. Qed.
Print Assumptions C95_total_map_keys.

(** Iterators of maps: total maps (and slots with references), sparse maps, [drain]. Each slot is looked at once. *)
Theorem C95_iterators : forall (cfg : Config) (K : Type) (O : Ordinal K) (V : Type),
    (forall d (s : enumerate V), outcome (c_enumerate_step O d s) = enumerate_step O d s) /\
    walks (fun d (s : enumerate V) => c_enumerate_step O d s) (fun s => llen (e_items s)) 2 2 /\
    (forall d (s : @Iter V), outcome (c_Iter_step O d s) = Iter_step O d s /\ outcome (c_Iter_step O d s) = IntoIter_step O d s /\
      outcome (c_Iter_step O d s) = IntoIterArray_step O d s) /\
    walks (@c_Iter_step cfg K O V) (fun s => llen (e_items s)) 3 3 /\
    (forall d (s : @Keys V), outcome (c_Keys_step O d s) = Keys_step O d s) /\
    walks (@c_Keys_step cfg K O V) (fun s => llen (e_items s)) 3 3 /\
    (forall d (s : @Values V), outcome (c_Values_step O d s) = Values_step O d s) /\
    walks (@c_Values_step cfg K O V) (fun s => llen (e_items s)) 3 3 /\
    (forall (st : list (option V)) d s, outcome (c_IterMut_step O st d s) = IterMut_step O st d s) /\
    (forall st : list (option V), walks (c_IterMut_step O st) (fun s => llen (e_items s)) 3 3) /\
    (forall (st : list (option V)) d s, outcome (c_ValuesMut_step O st d s) = ValuesMut_step O st d s) /\
    (forall st : list (option V), walks (c_ValuesMut_step O st) (fun s => llen (e_items s)) 3 3) /\
    (forall d (s : @Drain V), outcome (c_Drain_step O d s) = Drain_step O d s) /\
    walks (@c_Drain_step cfg K O V) (fun s => llen (e_items (snd s))) 4 4.
Proof. exact @iterators_cost. Qed.
Print Assumptions C95_iterators.

(** Sets: operations with an element. *)
Theorem C95_sets : forall (cfg : Config) (K : Type) (O : Ordinal K),
    (forall s t, outcome (c_OrdinalSet_contains O s t) = OrdinalSet_contains O s t /\ steps (c_OrdinalSet_contains O s t) <= 3) /\
    (forall s t, outcome (c_OrdinalSet_insert O s t) = OrdinalSet_insert O s t /\ (s <> Large [] -> steps (c_OrdinalSet_insert O s t) <= 7)) /\
    (forall S (s : OrdinalArraySet S) t, outcome (c_OrdinalArraySet_contains O s t) = OrdinalArraySet_contains O s t /\ steps (c_OrdinalArraySet_contains O s t) <= 3) /\
    (forall S (s : OrdinalArraySet S) t, outcome (c_OrdinalArraySet_insert O s t) = OrdinalArraySet_insert O s t /\ steps (c_OrdinalArraySet_insert O s t) <= 7) /\
    (forall s t, outcome (c_OrdinalSet64_contains O s t) = OrdinalSet64_contains O s t /\ steps (c_OrdinalSet64_contains O s t) <= 2) /\
    (forall s t, outcome (c_OrdinalSet64_insert O s t) = OrdinalSet64_insert O s t /\ steps (c_OrdinalSet64_insert O s t) <= 5) /\
    (forall d s, outcome (c_Iter64_step O d s) = Iter64_step O d s /\ steps (c_Iter64_step O d s) <= 3).
Proof. exact @sets_cost. Qed.
Print Assumptions C95_sets.

(** The first insertion into a large set creates its words. *)
Theorem C95_set_first_insert : forall (cfg : Config) (K : Type) (O : Ordinal K) (n : N) (t : K),
    ORDINAL_SIZE O = Val n -> steps (c_OrdinalSet_insert O (Large []) t) <= (n + 63) / 64 + 7 /\
    forall p, OrdinalSet_insert O (Large []) t = Val p -> steps (c_OrdinalSet_insert O (Large []) t) = (n + 63) / 64 + 7.
Proof. exact @set_first_cost. Qed.
Print Assumptions C95_set_first_insert.

Theorem C95_set_from_iter : forall (cfg : Config) (K : Type) (O : Ordinal K) (n : N),
    ORDINAL_SIZE O = Val n -> forall l,
    outcome (c_OrdinalSet_from_iter O l) = OrdinalSet_from_iter O l /\
    steps (c_OrdinalSet_from_iter O l) <= (if n <=? 64 then 0 else (n + 63) / 64) + 7 * llen l.
Proof. exact @set_from_iter_cost. Qed.
Print Assumptions C95_set_from_iter.

(** Iterating a set looks at every value of the type, not at every word or member. *)
Theorem C95_set_iter : forall (cfg : Config) (K : Type) (O : Ordinal K),
    (forall d s, outcome (c_SetIter_step O d s) = SetIter_step O d s) /\ walks (c_SetIter_step O) (fun s => range_len (si_iter s)) 4 5.
Proof. exact @set_iter_cost. Qed.
Print Assumptions C95_set_iter.

Theorem C95_set_iter_all : forall (cfg : Config) (K : Type) (O : Ordinal K) (n : N) (s : OrdinalSet) (l : list K) (it : SetIter),
    ordinal_bijection O n -> 1 <= n \/ debug_assertions = false -> set_reachable O s -> lists_members O (OrdinalSet_contains O s) l ->
    OrdinalSet_iter O s = Val it ->
    (exists fuel it', outcome (c_collect (c_SetIter_step O Front) fuel it) = Val (l, it')) /\
    forall fuel got it', outcome (c_collect (c_SetIter_step O Front) fuel it) = Val (got, it') ->
      4 * n + 1 <= steps (c_collect (c_SetIter_step O Front) fuel it) <= 5 * n + 1.
Proof. exact @set_walk_cost. Qed.
Print Assumptions C95_set_iter_all.

(** Any schedule of [next] and [next_back], and running to the end. *)
Theorem C95_schedules : forall (St A : Type) (cstep : dir -> St -> counted (option A * St)) (left : St -> N) (lo hi : N),
  walks cstep left lo hi -> forall sched s, steps (c_drive cstep sched s) <= hi * left s + llen sched.
Proof. exact @s_drive. Qed.
Print Assumptions C95_schedules.

Theorem C95_to_the_end : forall (St A : Type) (cstep : dir -> St -> counted (option A * St)) (left : St -> N) (lo hi : N) (d : dir),
  walks cstep left lo hi -> forall fuel s,
    steps (c_collect (cstep d) fuel s) <= hi * left s + 1 /\
    forall l s', outcome (c_collect (cstep d) fuel s) = Val (l, s') ->
      lo * left s + 1 <= steps (c_collect (cstep d) fuel s) <= hi * left s + 1 /\ left s' = 0.
Proof. exact @s_collect. Qed.
Print Assumptions C95_to_the_end.

(** set/set.rs:20 "All operations are constant time" does not hold: for the element types
    [[bool; len]] the first insertion takes [2^(len-6) + 7] steps, and iterating an empty set more
    than [4 * 2^len]. *)
Theorem C95_set_constant_refuted : forall (cfg : Config) (len : nat), (6 < len)%nat -> 2 ^ N.of_nat len <= usize_max - 64 ->
  exists s, OrdinalSet_new (Ordinal_array Ordinal_bool len) = Val s /\
    (forall t, (exists p, OrdinalSet_insert (Ordinal_array Ordinal_bool len) s t = Val p) /\
      steps (c_OrdinalSet_insert (Ordinal_array Ordinal_bool len) s t) = 2 ^ (N.of_nat len - 6) + 7) /\
    exists it, OrdinalSet_iter (Ordinal_array Ordinal_bool len) s = Val it /\
      (exists fuel it', outcome (c_collect (c_SetIter_step (Ordinal_array Ordinal_bool len) Front) fuel it) = Val ([], it')) /\
      forall fuel got it', outcome (c_collect (c_SetIter_step (Ordinal_array Ordinal_bool len) Front) fuel it) = Val (got, it') ->
        4 * 2 ^ N.of_nat len + 1 <= steps (c_collect (c_SetIter_step (Ordinal_array Ordinal_bool len) Front) fuel it).
Proof. exact @bools_cost. Qed.
Print Assumptions C95_set_constant_refuted.

Local Notation byte z := (mk_int 0 255 z eq_refl).
Example C95_program_example : (* u8 keys: 256 + 3, then 2, 6, 3 *)
  let cfg := debug64 in
  let ops := [OpInsert (byte 7) true; OpGet (byte 7); OpEntryOrInsert (byte 9) false true; OpRemove (byte 7)] in
  ORDINAL_SIZE Ordinal_u8 = Val 256 /\ forallb takes_key ops = true /\
  steps (c_heap_run Ordinal_u8 ops OrdinalMap_new) = 270 /\
  outcome (c_heap_run Ordinal_u8 ops OrdinalMap_new) = heap_run Ordinal_u8 ops OrdinalMap_new.
Proof. vm_compute. auto. Qed.
Example C95_is_empty_example : (* a map with one late key: 3 * 251 steps *)
  let cfg := release32 in
  match outcome (c_OrdinalMap_insert Ordinal_u8 [] (byte 250) true) with
  | Val (_, m) => m <> [] /\ OrdinalMap_is_empty Ordinal_u8 m = Val false /\ m = repeat None 250 ++ Some true :: repeat None 5 /\
      steps (c_OrdinalMap_is_empty Ordinal_u8 m) = 753 /\ steps (c_OrdinalMap_len Ordinal_u8 m) = 769 /\
      steps (c_OrdinalMap_clear Ordinal_u8 m) = 1025
  | _ => False
  end.
Proof. vm_compute. repeat split; discriminate. Qed.
Example C95_set_example : (* a set of u8: 4 words, then 7 steps per insertion; iterating looks at 256 values *)
  let cfg := debug64 in
  steps (c_OrdinalSet_from_iter Ordinal_u8 [byte 3; byte 200; byte 3]) = 25 /\
  match outcome (c_OrdinalSet_from_iter Ordinal_u8 [byte 3; byte 200; byte 3]) with
  | Val s => match OrdinalSet_iter Ordinal_u8 s with
             | Val it => range_len (si_iter it) = 256 /\ steps (c_drive (c_SetIter_step Ordinal_u8) [Front; Back; Front] it) = 1281 /\
                 steps (c_drive (c_SetIter_step Ordinal_u8) [Front; Back] it) = 300
             | _ => False
             end
  | _ => False
  end.
Proof. vm_compute. auto. Qed.
Example C95_refuted_example : let cfg := debug64 in (6 < 20)%nat /\ 2 ^ N.of_nat 20 <= usize_max - 64.
Proof. vm_compute. split; [lia|discriminate]. Qed.
Example C95_panics_example : (* an implementation whose ordinals are one too large *)
  let O := Build_Ordinal (Val 2) (fun b : bool => Val (if b then 2 else 1)) (fun _ => Val None) in
  c_OrdinalMap_insert O [] true 7 = (4, Panic PIndex) /\ c_OrdinalMap_insert O [Some 1; None] true 7 = (2, Panic PIndex).
Proof. vm_compute. auto. Qed.
