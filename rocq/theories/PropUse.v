(** * PropUse: C81, programs over collections whose key type may have too many values. *)
From Verif Require Import Base Spec SpecMap SpecTotal SpecSet SpecAtomic SpecIter SpecMem ModelOrdinal
  ModelValues ModelArrayBuilder ModelIter ModelTotal ModelMap ModelSet ModelAtomic SpecUniverse
  ModelUniverse ModelMono MapMachine TotalMachine SetMachine ModelUse SpecUse UniverseProofs4 UniverseProofs6
  UseProofs UseProofs2 UseProofs3 UseProofs4 UseProofs5.
From Coq Require Import List Sorted.
Import ListNotations.

(** Full statement of C81: for every key type, a program over one of the collections or
    over AtomicOrdinal is a compile error, or panics, or gives the answers of the abstract
    collection; two keys are never taken for each other.  Without overflow checks this is
    false for AtomicOrdinal and for OrdinalTotalArrayMap::from_array (the [_refuted]
    theorems below).  With overflow checks, and for all other collections in every build, it
    holds. *)

(** ** Key types with an ORDINAL_SIZE: the compiler accepts every program that the other
    properties are about, except where an assertion on the length fails.  There the
    constructor is a compile error in the model, too. *)
Theorem C81_sized_map : forall (cfg : Config) (t : ty) n, ORDINAL_SIZE (impl_of t) = Val n ->
  forall V (ops : list (map_op (type_of t) V)), Forall map_method ops ->
  compiled_map t ops = heap_run (impl_of t) ops OrdinalMap_new.
Proof. exact @sized_map. Qed.
Print Assumptions C81_sized_map.

Theorem C81_sized_map_from : forall (cfg : Config) (t : ty) n, ORDINAL_SIZE (impl_of t) = Val n ->
  forall V l (ops : list (map_op (type_of t) V)), Forall map_method ops ->
  compiled_map_from t l ops = (m <- OrdinalMap_from_iter (impl_of t) l ;; heap_run (impl_of t) ops m).
Proof. exact @sized_map_from. Qed.
Print Assumptions C81_sized_map_from.

Theorem C81_sized_array_map : forall (cfg : Config) (t : ty) n, ORDINAL_SIZE (impl_of t) = Val n ->
  forall V s (ops : list (map_op (type_of t) V)),
  compiled_array_map t s ops =
  (m <- OrdinalArrayMap_new (impl_of t) s ;; array_run (impl_of t) (S := s) ops m).
Proof. exact @sized_array_map. Qed.
Print Assumptions C81_sized_array_map.

Theorem C81_sized_array_map_from : forall (cfg : Config) (t : ty) n, ORDINAL_SIZE (impl_of t) = Val n ->
  forall V s l (ops : list (map_op (type_of t) V)),
  compiled_array_map_from t s l ops =
  (m <- OrdinalArrayMap_from_iter (impl_of t) s l ;; array_run (impl_of t) (S := s) ops m).
Proof. exact @sized_array_map_from. Qed.
Print Assumptions C81_sized_array_map_from.

Theorem C81_sized_total : forall (cfg : Config) (t : ty) n, ORDINAL_SIZE (impl_of t) = Val n ->
  forall V St init (st : St) (ops : list (total_op (type_of t) V)),
  compiled_total t init st ops =
  (m <- snd (OrdinalTotalMap_new (impl_of t) init st) ;; htotal_run (impl_of t) ops m).
Proof. exact @sized_total. Qed.
Print Assumptions C81_sized_total.

Theorem C81_sized_total_array : forall (cfg : Config) (t : ty) n, ORDINAL_SIZE (impl_of t) = Val n ->
  forall V St s init (st : St) (ops : list (total_op (type_of t) V)),
  compiled_total_array t s init st ops =
  (m <- returned (snd (OrdinalTotalArrayMap_new (impl_of t) s init st)) ;;
   atotal_run (S := s) (impl_of t) ops m).
Proof. exact @sized_total_array. Qed.
Print Assumptions C81_sized_total_array.

Theorem C81_sized_from_array : forall (cfg : Config) (t : ty) n, ORDINAL_SIZE (impl_of t) = Val n ->
  forall V s (a : arr V s) (ops : list (total_op (type_of t) V)),
  compiled_from_array t a ops = atotal_run (S := s) (impl_of t) ops a.
Proof. exact @sized_from_array. Qed.
Print Assumptions C81_sized_from_array.

Theorem C81_sized_set : forall (cfg : Config) (t : ty) n, ORDINAL_SIZE (impl_of t) = Val n ->
  forall ops : list (set_op (type_of t)),
  compiled_set t ops = (s <- OrdinalSet_new (impl_of t) ;; set_run (impl_of t) ops s).
Proof. exact @sized_set. Qed.
Print Assumptions C81_sized_set.

Theorem C81_sized_array_set : forall (cfg : Config) (t : ty) n, ORDINAL_SIZE (impl_of t) = Val n ->
  forall s (ops : list (set_op (type_of t))), Forall array_set_method ops ->
  compiled_array_set t s ops =
  (a <- OrdinalArraySet_new (impl_of t) s ;; array_set_run (S := s) (impl_of t) ops a).
Proof. exact @sized_array_set. Qed.
Print Assumptions C81_sized_array_set.

Theorem C81_sized_array_set_default : forall (cfg : Config) (t : ty) n, ORDINAL_SIZE (impl_of t) = Val n ->
  forall s (ops : list (set_op (type_of t))), Forall array_set_method ops ->
  compiled_array_set_default t s ops =
  (a <- OrdinalArraySet_default s ;; array_set_run (S := s) (impl_of t) ops a).
Proof. exact @sized_array_set_default. Qed.
Print Assumptions C81_sized_array_set_default.

Theorem C81_sized_set64 : forall (cfg : Config) (t : ty) n, ORDINAL_SIZE (impl_of t) = Val n ->
  forall ops : list (set_op (type_of t)),
  compiled_set64 t ops = (s <- OrdinalSet64_new (impl_of t) ;; set64_run (impl_of t) ops s).
Proof. exact @sized_set64. Qed.
Print Assumptions C81_sized_set64.

Theorem C81_sized_atomic : forall (cfg : Config) (t : ty) n, ORDINAL_SIZE (impl_of t) = Val n ->
  forall v (cs : list (call (type_of t))),
  compiled_atomic t v cs = (cell <- AtomicOrdinal_new (impl_of t) v ;; calls_alone (impl_of t) cs cell).
Proof. exact @sized_atomic. Qed.
Print Assumptions C81_sized_atomic.

(** ** Key types without an ORDINAL_SIZE.  A type with more than usize::MAX values is one. *)
Theorem C81_too_many : forall (cfg : Config) (t : ty) n, has_values (type_of t) n -> usize_max < n ->
  ORDINAL_SIZE (impl_of t) = NoCompile.
Proof. exact @too_many_rejected. Qed.
Print Assumptions C81_too_many.

(** Every program over these collections is rejected, in every build. *)
Theorem C81_no_map_from : forall (cfg : Config) (t : ty), ORDINAL_SIZE (impl_of t) = NoCompile ->
  forall V l (ops : list (map_op (type_of t) V)), compiled_map_from t l ops = NoCompile.
Proof. exact @unsized_map_from. Qed.
Print Assumptions C81_no_map_from.

Theorem C81_no_array_map : forall (cfg : Config) (t : ty), ORDINAL_SIZE (impl_of t) = NoCompile ->
  forall V s (ops : list (map_op (type_of t) V)), compiled_array_map t s ops = NoCompile.
Proof. exact @unsized_array_map. Qed.
Print Assumptions C81_no_array_map.

Theorem C81_no_array_map_from : forall (cfg : Config) (t : ty), ORDINAL_SIZE (impl_of t) = NoCompile ->
  forall V s l (ops : list (map_op (type_of t) V)), compiled_array_map_from t s l ops = NoCompile.
Proof. exact @unsized_array_map_from. Qed.
Print Assumptions C81_no_array_map_from.

Theorem C81_no_total : forall (cfg : Config) (t : ty), ORDINAL_SIZE (impl_of t) = NoCompile ->
  forall V St init (st : St) (ops : list (total_op (type_of t) V)), compiled_total t init st ops = NoCompile.
Proof. exact @unsized_total. Qed.
Print Assumptions C81_no_total.

Theorem C81_no_total_array : forall (cfg : Config) (t : ty), ORDINAL_SIZE (impl_of t) = NoCompile ->
  forall V St s init (st : St) (ops : list (total_op (type_of t) V)),
  compiled_total_array t s init st ops = NoCompile.
Proof. exact @unsized_total_array. Qed.
Print Assumptions C81_no_total_array.

Theorem C81_no_set : forall (cfg : Config) (t : ty), ORDINAL_SIZE (impl_of t) = NoCompile ->
  forall ops : list (set_op (type_of t)), compiled_set t ops = NoCompile.
Proof. exact @unsized_set. Qed.
Print Assumptions C81_no_set.

Theorem C81_no_array_set : forall (cfg : Config) (t : ty), ORDINAL_SIZE (impl_of t) = NoCompile ->
  forall s (ops : list (set_op (type_of t))), compiled_array_set t s ops = NoCompile.
Proof. exact @unsized_array_set. Qed.
Print Assumptions C81_no_array_set.

Theorem C81_no_set64 : forall (cfg : Config) (t : ty), ORDINAL_SIZE (impl_of t) = NoCompile ->
  forall ops : list (set_op (type_of t)), compiled_set64 t ops = NoCompile.
Proof. exact @unsized_set64. Qed.
Print Assumptions C81_no_set64.

(** OrdinalMap::new and OrdinalArraySet::default compile.  Nothing can be put into them. *)
Theorem C81_map_stays_empty : forall (cfg : Config) (t : ty), ORDINAL_SIZE (impl_of t) = NoCompile ->
  forall V (ops : list (map_op (type_of t) V)),
  compiled_map t ops = NoCompile \/
  compiled_map t ops = Val (map empty_answer ops, OrdinalMap_new) \/
  exists w, compiled_map t ops = Panic w.
Proof. exact @unsized_map. Qed.
Print Assumptions C81_map_stays_empty.

Theorem C81_array_set_unusable : forall (cfg : Config) (t : ty), ORDINAL_SIZE (impl_of t) = NoCompile ->
  forall s (ops : list (set_op (type_of t))) r, compiled_array_set_default t s ops = r ->
  r = NoCompile \/ Forall (fun op => op = SClone) ops /\
    exists a, r = Val (map (fun _ => SUnit_) ops, a).
Proof. exact @unsized_array_set_default. Qed.
Print Assumptions C81_array_set_unusable.

(** ** AtomicOrdinal, any key type: with overflow checks a program is rejected, panics or
    gives the answers of a variable ... *)
Theorem C81_atomic_partial : forall (cfg : Config) (t : ty)
  (eqd : forall a b : type_of t, {a = b} + {a <> b}) v cs, overflow_checks = true ->
  compiled_atomic t v cs = NoCompile \/ (exists w, compiled_atomic t v cs = Panic w) \/
  exists cell, compiled_atomic t v cs = Val (fst (reg_run eqd cs v), cell).
Proof. exact @atomic_any. Qed.
Print Assumptions C81_atomic_partial.

(** ... and the last happens when it is accepted, every value that occurs has an ordinal
    and every memory ordering is allowed. *)
Theorem C81_atomic_works : forall (cfg : Config) (t : ty)
  (eqd : forall a b : type_of t, {a = b} + {a <> b}) v cs, overflow_checks = true ->
  inst_needs t (needs_atomic_new ++ flat_map needs_atomic cs) = Val tt ->
  Forall (fun x => exists i, ordinal (impl_of t) x = Val i) (v :: flat_map given cs) ->
  Forall (fun c => legal c = true) cs ->
  exists cell, compiled_atomic t v cs = Val (fst (reg_run eqd cs v), cell).
Proof. exact @atomic_good. Qed.
Print Assumptions C81_atomic_works.

(** Several threads, every schedule: the same, where a thread that panics does so without effect
    ([explains_partly], see C91). *)
Theorem C81_atomic_threads_partial : forall (cfg : Config) (t : ty)
  (eqd : forall a b : type_of t, {a = b} + {a <> b}) v progs s1 s2, overflow_checks = true ->
  (forall s, compiled_threads t v progs s = NoCompile) \/
  (exists w, forall s, compiled_threads t v progs s = Panic w) \/
  exists t1 t2 vs1 vs2,
    compiled_threads t v progs s1 = Val (Some vs1) /\
    compiled_threads t v progs (s1 ++ s2) = Val (Some vs2) /\
    register_trace eqd v t1 /\ explains_partly (impl_of t) progs t1 vs1 /\
    register_trace eqd v (t1 ++ t2) /\ explains_partly (impl_of t) progs (t1 ++ t2) vs2.
Proof. exact @threads_any. Qed.
Print Assumptions C81_atomic_threads_partial.

(** Without overflow checks [load] may return a value that was never stored ... *)
Theorem C81_load_refuted : forall cfg : Config, overflow_checks = false ->
  exists t n (v w : type_of t) cell, has_values (type_of t) n /\ usize_max < n /\ w <> v /\
    compiled_atomic t v [CLoad SeqCst] = Val ([OVal w], cell).
Proof. exact @load_refuted. Qed.
Print Assumptions C81_load_refuted.

(** ... and [compare_exchange] may succeed although the old value is another one. *)
Theorem C81_exchange_refuted : forall cfg : Config, overflow_checks = false ->
  exists t n (v w : type_of t) cell, has_values (type_of t) n /\ usize_max < n /\ w <> v /\
    compiled_atomic t v [CCas w v SeqCst SeqCst] = Val ([OOk v], cell).
Proof. exact @exchange_refuted. Qed.
Print Assumptions C81_exchange_refuted.

(** ** OrdinalTotalArrayMap::from_array, any key type with an [ordinal]: with overflow checks
    a lookup returns or panics, and [insert] changes the value of its key only. *)
Theorem C81_array_get_safe : forall (cfg : Config) (t : ty), inst_ordinal t = Val tt ->
  forall V S (m : OrdinalTotalArrayMap S V) k, safe (OrdinalTotalArrayMap_get (impl_of t) m k).
Proof. exact @get_safe. Qed.
Print Assumptions C81_array_get_safe.

Theorem C81_array_insert_partial : forall (cfg : Config) (t : ty), overflow_checks = true ->
  inst_ordinal t = Val tt -> forall V S (m : OrdinalTotalArrayMap S V) k v old m',
  OrdinalTotalArrayMap_insert (impl_of t) m k v = Val (old, m') ->
  OrdinalTotalArrayMap_get (impl_of t) m k = Val old /\
  OrdinalTotalArrayMap_get (impl_of t) m' k = Val v /\
  forall k', k' <> k ->
    OrdinalTotalArrayMap_get (impl_of t) m' k' = OrdinalTotalArrayMap_get (impl_of t) m k'.
Proof. exact @insert_apart. Qed.
Print Assumptions C81_array_insert_partial.

(** [insert] succeeds for the keys that [get] finds. *)
Theorem C81_array_insert_there : forall (cfg : Config) (t : ty) V S (m : OrdinalTotalArrayMap S V) k v,
  (exists old, OrdinalTotalArrayMap_get (impl_of t) m k = Val old) ->
  exists old m', OrdinalTotalArrayMap_insert (impl_of t) m k v = Val (old, m').
Proof. exact @insert_there. Qed.
Print Assumptions C81_array_insert_there.

(** Iteration in both directions and Debug list exactly the keys that [get] finds, in
    order, each with its value, if there are as many keys as slots. *)
Theorem C81_array_iteration_partial : forall (cfg : Config) (t : ty), overflow_checks = true ->
  inst_ordinal t = Val tt -> forall V S (m : OrdinalTotalArrayMap S V) n,
  has_values (type_of t) n -> N.of_nat S <= n -> N.of_nat S <= usize_max ->
  exists l, (forall k v, In (k, v) l <-> OrdinalTotalArrayMap_get (impl_of t) m k = Val v) /\
    StronglySorted (ordinal_before (impl_of t)) (map fst l) /\ map snd l = arr_list m /\
    double_ended (TIter_step (impl_of t)) (OrdinalTotalArrayMap_iter m) l (fun s r => TIter_len s = llen r) /\
    OrdinalTotalArrayMap_debug (impl_of t) m = Val l.
Proof. exact @iteration. Qed.
Print Assumptions C81_array_iteration_partial.

(** Whole programs over a map of [S] slots, if there are as many keys as slots and no
    ORDINAL_SIZE: [keys] does not compile; a program that uses the first [S] keys only gives
    the answers of a total map over these; any other panics. *)
Theorem C81_array_programs_partial : forall (cfg : Config) (t : ty), overflow_checks = true ->
  inst_ordinal t = Val tt -> ORDINAL_SIZE (impl_of t) = NoCompile ->
  forall n V S (a : arr V S) (eqd : forall x y : type_of t, {x = y} + {x <> y}),
  has_values (type_of t) n -> N.of_nat S <= n -> N.of_nat S <= usize_max ->
  exists ks, length ks = S /\
    (forall k i, nth_error ks i = Some k <-> (i < S)%nat /\ ordinal (impl_of t) k = Val (N.of_nat i)) /\
    (V -> exists m, arr_list a = map m ks) /\
    forall m, arr_list a = map m ks -> forall ops,
      (existsb lists_all_keys ops = true -> compiled_from_array t a ops = NoCompile) /\
      (existsb lists_all_keys ops = false -> (forall k, In k (flat_map keys_given ops) -> In k ks) ->
        exists a', compiled_from_array t a ops = Val (fst (total_run eqd ks ops m), a') /\
          arr_list a' = map (snd (total_run eqd ks ops m)) ks) /\
      (existsb lists_all_keys ops = false -> (exists k, In k (flat_map keys_given ops) /\ ~ In k ks) ->
        exists w, compiled_from_array t a ops = Panic w).
Proof. exact @from_array_run. Qed.
Print Assumptions C81_array_programs_partial.

(** Where [ordinal] compiles, so does [from_ordinal]. *)
Theorem C81_from_follows : forall (cfg : Config) (t : ty), inst_ordinal t = Val tt -> inst_from t = Val tt.
Proof. exact @ordinal_then_from. Qed.
Print Assumptions C81_from_follows.

(** [len], [is_empty], [values], [values_mut] and Clone of this map ask nothing of the key
    type: programs of these compile and run for every one, with or without overflow checks. *)
Theorem C81_array_slots_only : forall (cfg : Config) (t : ty) V S (a : arr V S)
  (ops : list (total_op (type_of t) V)), Forall slots_only ops ->
  exists outs m, compiled_from_array t a ops = Val (outs, m) /\ Forall2 (slots_answer S) ops outs.
Proof. exact @from_array_slots. Qed.
Print Assumptions C81_array_slots_only.

(** [len] and [is_empty] of the heap map do not compile without an ORDINAL_SIZE, even where
    no map is built. *)
Theorem C81_total_len_needs_size : forall (cfg : Config) (t : ty), ORDINAL_SIZE (impl_of t) = NoCompile ->
  forall V, inst_needs t (needs_total (TLen : total_op (type_of t) V)) = NoCompile /\
    inst_needs t (needs_total (TIsEmpty : total_op (type_of t) V)) = NoCompile.
Proof. exact @total_len_needs. Qed.
Print Assumptions C81_total_len_needs_size.

(** Without overflow checks two keys may share a slot. *)
Theorem C81_array_refuted : forall cfg : Config, overflow_checks = false ->
  exists t n (k k' : type_of t) (a : arr N 1) ops m,
    has_values (type_of t) n /\ usize_max < n /\ k <> k' /\ ops = [TGet k'; TInsert k 8; TGet k'] /\
    compiled_from_array t a ops = Val ([TOValue 7; TOValue 7; TOValue 8], m).
Proof. exact @slots_refuted. Qed.
Print Assumptions C81_array_refuted.

(** *** Examples *)

Definition wide : ty := TTuple [TPrim Pu16; TPrim Pu16; TPrim Pu16; TPrim Pu16; TPrim Pu16].

(** [Option<Option<NonZeroUsize>>] has usize::MAX + 2 values. *)
Definition nested : ty := TOption (TOption (TPrim PNonZeroUsize)).

Example C81_nested_unsized : forall cfg : Config,
  has_values (type_of nested) (card nested) /\ usize_max < card nested /\
  ORDINAL_SIZE (impl_of nested) = NoCompile /\ inst_ordinal nested = Val tt.
Proof.
  intros cfg. split; [exact (values_card nested)|]. destruct cfg as [[] [] []]; repeat split; vm_compute; reflexivity.
Qed.

(** OrdinalMap<Option<Option<NonZeroUsize>>, u8>: each of the three outcomes.  [get] of
    [None] and [len] work, [insert] does not compile ... *)
Example C81_map_empty : forall cfg : Config,
  compiled_map (V := N) nested [OpGet (None : type_of nested); OpLen; OpIter [Front; Back]; OpDebug] =
    Val ([OutValue None; OutNum 0; OutEntries [None; None]; OutList []], OrdinalMap_new) /\
  compiled_map (V := N) nested [OpGet (None : type_of nested); OpInsert (None : type_of nested) 7] = NoCompile.
Proof. intros [[] [] []]; split; vm_compute; reflexivity. Qed.

(** ... and with overflow checks [get] of the last key panics. *)
Definition nz_top : option (nonzero 0 18446744073709551615) :=
  match try_int 0 18446744073709551615 18446744073709551615 with
  | Some x => nz_new x
  | None => None
  end.
Example C81_map_panics : exists top : type_of (cfg := debug64) nested,
  top = Some nz_top /\
  compiled_map (cfg := debug64) (V := N) nested [OpGet top] = Panic POverflow.
Proof. exists (Some nz_top). split; vm_compute; reflexivity. Qed.

(** A set, an array map and an array set of the same type. *)
Example C81_others : forall cfg : Config,
  compiled_set nested [] = NoCompile /\
  compiled_array_map (V := N) nested 3 [] = NoCompile /\
  compiled_array_set_default nested 1 [SContains (None : type_of nested)] = NoCompile /\
  exists a, compiled_array_set_default nested 1 [SClone; SClone] = Val ([SUnit_; SUnit_], a).
Proof. intros [[] [] []]; (split; [|split; [|split; [|eexists]]]); vm_compute; reflexivity. Qed.

(** AtomicOrdinal of that type: a program that is accepted and runs, and one that panics. *)
Example C81_atomic_example : exists top some : type_of (cfg := debug64) nested,
  top = Some nz_top /\ some = Some None /\
  compiled_atomic (cfg := debug64) nested some [CLoad SeqCst; CStore None Relaxed; CCas some some SeqCst SeqCst; CDebug] =
    Val ([OVal some; OUnit; OErr None; OVal None], 0) /\
  compiled_atomic (cfg := debug64) nested some [CStore top SeqCst] = Panic POverflow.
Proof. exists (Some nz_top), (Some None). repeat split; vm_compute; reflexivity. Qed.

(** The first thread panics on the value without an ordinal. *)
Example C81_threads_example : exists top some : type_of (cfg := debug64) nested,
  top = Some nz_top /\ some = Some None /\
  match compiled_threads (cfg := debug64) nested some
    [[CStore top SeqCst; CLoad SeqCst]; [CCas some None SeqCst SeqCst; CLoad Relaxed]]
    [(0, 0); (1, 0); (0, 0); (1, 0); (1, 0); (1, 0); (1, 0); (1, 0)]%nat with
  | Val (Some vs) => map (fun w => (v_returned w, v_panic w)) vs =
      [([], Some POverflow); ([OOk some; OVal None], None)]
  | _ => False
  end.
Proof. exists (Some nz_top), (Some None). repeat split; vm_compute; reflexivity. Qed.

(** from_array with three slots: the keys None, Some(None), Some(Some(1)). *)
Example C81_array_example :
  exists m, compiled_from_array (cfg := debug64) nested (mk_arr 3 [7; 8; 9] eq_refl)
    [TInsert (None : type_of (cfg := debug64) nested) 1; TGet (Some None); TIndex (None : type_of (cfg := debug64) nested)] =
    Val ([TOValue 7; TOValue 8; TOValue 1], m) /\ arr_list m = [1; 8; 9].
Proof. eexists. split; vm_compute; reflexivity. Qed.

(** The keys with a slot, and the three outcomes of C81_array_programs_partial. *)
Example C81_array_programs_example : exists k2 top : type_of (cfg := debug64) nested,
  ordinal (impl_of (cfg := debug64) nested) k2 = Val 2 /\ top = Some nz_top /\
  ORDINAL_SIZE (impl_of (cfg := debug64) nested) = NoCompile /\
  (exists m, compiled_from_array (cfg := debug64) nested (mk_arr 3 [7; 8; 9] eq_refl)
      [TGetMut k2 5; TIter_ [Back; Front]; TValuesMut_ _ [Front] (N.add 1); TLen; TDebug_] =
    Val ([TOValue 9; TOEntries [Some (k2, 5); Some (None, 7)]; TOValues [Some 7]; TONum 3;
          TOList [(None, 8); (Some None, 8); (k2, 5)]], m)) /\
  compiled_from_array (cfg := debug64) nested (mk_arr 2 [7; 8] eq_refl) [TLen; TGet k2] = Panic PIndex /\
  compiled_from_array (cfg := debug64) nested (mk_arr 3 [7; 8; 9] eq_refl) [TGet k2; TGet top] = Panic POverflow /\
  compiled_from_array (cfg := debug64) nested (mk_arr 3 [7; 8; 9] eq_refl) [TGet k2; TKeys_ []] = NoCompile.
Proof.
  destruct (from_ordinal (impl_of (cfg := debug64) nested) 2) as [[k2|]| | | |] eqn:E; vm_compute in E; try discriminate E.
  exists k2, (Some nz_top). injection E as <-.
  split; [vm_compute; reflexivity|]. split; [reflexivity|]. split; [vm_compute; reflexivity|].
  split; [eexists; vm_compute; reflexivity|]. repeat split; vm_compute; reflexivity.
Qed.

(** A key type none of whose functions compiles: the tuple of five u16. *)
Example C81_slots_example : forall cfg : Config,
  inst_ordinal wide = NoCompile /\ inst_from wide = NoCompile /\
  exists m, compiled_from_array wide (mk_arr 2 [7; 8] eq_refl)
      [TLen; TIsEmpty; TValuesMut_ _ [Back; Back] (N.add 1); TClone_ _ (N.mul 2); TValues_ [Front; Back; Back]] =
    Val ([TONum 2; TOBool false; TOValues [Some 8; Some 7]; TOUnit; TOValues [Some 16; Some 18; None]], m).
Proof. intros [[] [] []]; (split; [|split; [|eexists]]); vm_compute; reflexivity. Qed.

(** Programs over key types with a size; the assertion on the length both ways. *)
Example C81_sized_example : forall cfg : Config,
  ORDINAL_SIZE (impl_of (TPrim Pbool)) = Val 2 /\
  (exists m, compiled_array_map (V := N) (TPrim Pbool) 2 [OpInsert true 7; OpGet true; OpLen] =
    Val ([OutValue None; OutValue (Some 7); OutNum 1], m)) /\
  compiled_array_map (V := N) (TPrim Pbool) 3 [OpInsert true 7] = NoCompile /\
  (exists m, compiled_map (TPrim Pbool) [OpInsert true 7; OpGet true] = Val ([OutValue None; OutValue (Some 7)], m)) /\
  compiled_map (V := N) (TPrim Pbool) [OpRetain (fun _ v => (v, true))] = NoCompile /\
  compiled_set64 (TPrim Pu8) [] = NoCompile /\
  compiled_set64 (TPrim Pbool) [SInsert true; SIter [Front; Front]] = Val ([SBool true; SItems [Some true; None]], 2).
Proof.
  intros [[] [] []]; (split; [|split; [eexists|split; [|split; [eexists|split; [|split]]]]]); vm_compute; reflexivity.
Qed.
