(** * PropDrop: properties C77 and C78, destructors and iterators of the caller that panic.

    [drops], [retains], [builds_map], [builds_set], [computes]: SpecDrop.v; [safe r]: [r] is a
    value or a panic (SpecMem.v). In the examples [noisy] logs every value whose destructor
    starts, and panics on the values in its list. *)
From Verif Require Import Base Spec SpecMap SpecIter SpecApi SpecMem SpecDrop ModelOrdinal ModelValues ModelArrayBuilder
  ModelIter ModelTotal ModelMap ModelSet ModelDrop MapMachine DropProofs.
From Coq Require Import List. Import ListNotations.

(** ** C77 *)
Theorem C77_map_drain : forall (cfg : Config) (K V : Type) (O : Ordinal K) (n : N),
  ordinal_bijection O n -> forall st : @OrdinalMap V, heap_reachable O st ->
  forall l, lists_entries O (OrdinalMap_get O st) l ->
  double_ended (Drain_step O) (OrdinalMap_drain st) l (drain_drops O (OrdinalMap_get O)).
Proof. exact @heap_drain_drop. Qed.
Print Assumptions C77_map_drain.
Theorem C77_array_map_drain : forall (cfg : Config) (K V : Type) (O : Ordinal K) (n : N),
  ordinal_bijection O n -> forall (S : nat) (a : @OrdinalArrayMap V S), array_reachable O a ->
  forall l, lists_entries O (OrdinalArrayMap_get O a) l ->
  double_ended (Drain_step O) (OrdinalArrayMap_drain a) l (drain_drops O (array_storage_get O S)).
Proof. exact @array_drain_drop. Qed.
Print Assumptions C77_array_map_drain.
Theorem C77_map_clear : forall (cfg : Config) (K V : Type) (O : Ordinal K) (n : N),
  ordinal_bijection O n -> forall st : @OrdinalMap V, heap_reachable O st ->
  forall l, lists_entries O (OrdinalMap_get O st) l ->
  forall (St : Type) (drop : St -> K * V -> St * res unit) (s : St),
  exists s' st' left r, OrdinalMap_clear_with O drop st s = (s', st', r) /\
    drops drop s l s' left r /\ lists_entries O (OrdinalMap_get O st') left.
Proof. exact @heap_clear_with. Qed.
Print Assumptions C77_map_clear.
Theorem C77_array_map_clear : forall (cfg : Config) (K V : Type) (O : Ordinal K) (n : N),
  ordinal_bijection O n -> forall (S : nat) (a : @OrdinalArrayMap V S), array_reachable O a ->
  forall l, lists_entries O (OrdinalArrayMap_get O a) l ->
  forall (St : Type) (drop : St -> K * V -> St * res unit) (s : St),
  exists s' storage left r, OrdinalArrayMap_clear_with O drop a s = (s', storage, r) /\
    drops drop s l s' left r /\ lists_entries O (array_storage_get O S storage) left.
Proof. exact @array_clear_with. Qed.
Print Assumptions C77_array_map_clear.
Theorem C77_retain : forall (cfg : Config) (K V : Type) (O : Ordinal K) (n : N),
  ordinal_bijection O n -> forall (S : nat) (a : @OrdinalArrayMap V S), array_reachable O a ->
  forall l, lists_entries O (OrdinalArrayMap_get O a) l ->
  forall (St : Type) (f : St -> K -> V -> St * V * res bool) (drop : St -> K * V -> St * res unit) (s : St),
  (forall st k v, safe (snd (f st k v))) ->
  exists s' (a' : @OrdinalArrayMap V S) out r, OrdinalArrayMap_retain_with O drop f a s = (s', arr_list a', r) /\
    retains f drop s l s' out r /\ lists_entries O (OrdinalArrayMap_get O a') out.
Proof. exact @array_retain_with. Qed.
Print Assumptions C77_retain.
(** [vs]: the values pushed so far; [cells]: the memory afterwards. *)
Theorem C77_builder : forall (T St : Type) (drop : St -> T -> St * res unit) (S : nat) (vs : list T) (b : builder T) (st : St),
  pushes S vs (builder_new S) = Val b ->
  exists st' cells left r, builder_drop_with drop b st = (st', cells, r) /\ drops drop st vs st' left r /\
    somes cells = left.
Proof. exact @builder_drop_law. Qed.
Print Assumptions C77_builder.

Definition noisy {K : Type} (bad : N) (log : list N) (kv : K * N) : list N * res unit :=
  (log ++ [snd kv], if snd kv =? bad then Panic PUser else Val tt).
Example C77_case :
  OrdinalMap_clear_with (cfg := debug64) Ordinal_Ordering (noisy 7) [Some 3; Some 7; Some 8] [] =
    ([3; 7], [None; None; Some 8], Panic PUser) /\
  OrdinalMap_clear_with (cfg := debug64) Ordinal_Ordering (noisy 9) [Some 3; Some 7; Some 8] [] =
    ([3; 7; 8], [None; None; None], Val tt) /\
  OrdinalArrayMap_retain_with (cfg := debug64) (S := 3) Ordinal_Ordering (noisy 7)
    (fun log k v => (log, v, Val (v =? 3))) (@mk_arr (option N) 3 [Some 3; Some 7; Some 8] eq_refl) [] =
    ([7], [Some 3; None; Some 8], Panic PUser).
Proof. repeat split; reflexivity. Qed.
Example C77_reachable : heap_reachable (cfg := debug64) Ordinal_Ordering [Some 3; Some 7; Some 8] /\
  lists_entries Ordinal_Ordering (OrdinalMap_get Ordinal_Ordering [Some 3; Some 7; Some 8])
    [(Lt, 3); (Eq, 7); (Gt, 8)].
Proof.
  split; [exists [OpInsert Lt 3; OpInsert Eq 7; OpInsert Gt 8]; eexists; reflexivity|]. split.
  - intros k v. cbn [In]. split.
    + intros [E|[E|[E|[]]]]; injection E as <- <-; reflexivity.
    + destruct k; cbn; intros [= <-]; auto.
  - repeat constructor; eexists _, _; repeat split; reflexivity.
Qed.
Example C77_builder_case : exists b, pushes 4 [3; 7; 8] (builder_new 4) = Val b /\
  builder_drop_with (fun log v => noisy 7 log (tt, v)) b [] = ([3; 7], [None; None; Some 8; None], Panic PUser).
Proof. eexists. split; reflexivity. Qed.

(** ** C78 *)
Theorem C78_map : forall (cfg : Config) (K V St : Type) (O : Ordinal K) (n : N),
  ordinal_bijection O n -> forall (eqd : forall a b : K, {a = b} + {a <> b})
    (next : St -> St * res (option (K * V))) (drop : St -> K * V -> St * res unit) (st : St),
  (forall st, safe (snd (next st))) -> (forall st d, safe (snd (drop st d))) ->
  computes (fun fuel => OrdinalMap_from_iter_with O drop next fuel st)
    (fun c m => forall k, OrdinalMap_get O c k = Val (m k)) (builds_map eqd next drop st).
Proof. exact @heap_from_iter_with. Qed.
Print Assumptions C78_map.
Theorem C78_array_map : forall (cfg : Config) (K V St : Type) (O : Ordinal K) (n : N),
  ordinal_bijection O n -> forall (eqd : forall a b : K, {a = b} + {a <> b})
    (next : St -> St * res (option (K * V))) (drop : St -> K * V -> St * res unit) (st : St),
  (forall st, safe (snd (next st))) -> (forall st d, safe (snd (drop st d))) ->
  forall S : nat, N.of_nat S = n ->
  computes (fun fuel => OrdinalArrayMap_from_iter_with O drop S next fuel st)
    (fun c m => forall k, OrdinalArrayMap_get O c k = Val (m k)) (builds_map eqd next drop st).
Proof. exact @array_from_iter_with. Qed.
Print Assumptions C78_array_map.
(** [n <= usize_max - 64]: larger sets cannot be built at all, see C57_set_from_iter_refuted. *)
Theorem C78_set : forall (cfg : Config) (K St : Type) (O : Ordinal K) (n : N),
  ordinal_bijection O n -> forall (eqd : forall a b : K, {a = b} + {a <> b})
    (next : St -> St * res (option K)) (st : St),
  (forall st, safe (snd (next st))) -> n <= usize_max - 64 ->
  computes (fun fuel => OrdinalSet_from_iter_with O next fuel st)
    (fun c m => forall k, OrdinalSet_contains O c k = Val (m k)) (builds_set eqd next st).
Proof. exact @set_from_iter_with. Qed.
Print Assumptions C78_set.
Theorem C78_array_set : forall (cfg : Config) (K St : Type) (O : Ordinal K) (n : N),
  ordinal_bijection O n -> forall (eqd : forall a b : K, {a = b} + {a <> b})
    (next : St -> St * res (option K)) (st : St),
  (forall st, safe (snd (next st))) -> forall S : nat, ordinal_array_set_s O = Val (N.of_nat S) ->
  computes (fun fuel => OrdinalArraySet_from_iter_with O S next fuel st)
    (fun c m => forall k, OrdinalArraySet_contains O c k = Val (m k)) (builds_set eqd next st).
Proof. exact @array_set_from_iter_with. Qed.
Print Assumptions C78_array_set.
Theorem C78_set64 : forall (cfg : Config) (K St : Type) (O : Ordinal K) (n : N),
  ordinal_bijection O n -> forall (eqd : forall a b : K, {a = b} + {a <> b})
    (next : St -> St * res (option K)) (st : St),
  (forall st, safe (snd (next st))) -> n <= 64 ->
  computes (fun fuel => OrdinalSet64_from_iter_with O next fuel st)
    (fun c m => forall k, OrdinalSet64_contains O c k = Val (m k)) (builds_set eqd next st).
Proof. exact @set64_from_iter_with. Qed.
Print Assumptions C78_set64.

(** An unfused iterator: it yields [Lt], [Lt], stops, and would yield [Gt] and then panic. The
    destructor of the replaced value may panic as well. *)
Definition odd_iter (st : N * list N) : (N * list N) * res (option (comparison * N)) :=
  let '(i, log) := st in
  ((i + 1, log),
   if i =? 0 then Val (Some (Lt, 3)) else if i =? 1 then Val (Some (Lt, 4)) else
   if i =? 2 then Val None else if i =? 3 then Val (Some (Gt, 5)) else Panic PUser).
Example C78_case :
  let drop bad st kv := let '(log, r) := noisy bad (snd st) kv in ((fst st, log), r) in
  OrdinalMap_from_iter_with Ordinal_Ordering (drop 9) odd_iter 5 (0, []) =
    Val ((3, [3]), [Some 4; None; None], Val tt) /\
  OrdinalMap_from_iter_with Ordinal_Ordering (drop 3) odd_iter 5 (0, []) =
    Val ((2, [3]), [Some 4; None; None], Panic PUser) /\
  OrdinalMap_from_iter_with Ordinal_Ordering (drop 9) odd_iter 5 (3, []) =
    Val ((5, []), [None; None; Some 5], Panic PUser).
Proof. repeat split; reflexivity. Qed.
Example C78_set_case :
  OrdinalSet64_from_iter_with (cfg := debug64) Ordinal_Ordering
    (fun st => let '(st', r) := odd_iter (st, []) in (fst st', o <- r ;; Val (opt_map fst o))) 5 0 = Val (3, 1, Val tt).
Proof. reflexivity. Qed.
