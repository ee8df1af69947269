(** * ModelUse: what the compiler evaluates when a program uses a collection.

    As in ModelMono, an instantiated function is looked at as a whole: every constant it
    mentions is evaluated and every function it mentions is instantiated, whether or not a
    run gets there.  [needs_*] lists, for an operation of the client programs, what is
    instantiated on the key type [K] by it and by everything it calls.  What is
    instantiated on the value type is not listed: none of it can fail. *)
From Verif Require Import Base Spec SpecMap SpecTotal SpecSet SpecAtomic ModelOrdinal ModelValues
  ModelArrayBuilder ModelIter ModelTotal ModelMap ModelSet ModelAtomic SpecUniverse ModelUniverse
  ModelMono MapMachine TotalMachine SetMachine.
From Coq Require Import List.
Import ListNotations.

Inductive need :=
| NSize                 (* K::ORDINAL_SIZE *)
| NOrdinal              (* K::ordinal *)
| NFrom                 (* K::from_ordinal *)
| NEqual (s : nat)      (* OrdinalTotalArrayMap::<K, _, s>::ASSERT, map/total/array_map.rs:46-48 *)
| NWords (s : nat)      (* OrdinalArraySet::<K, s>::ASSERT, set/array.rs:43 *)
| NAtMost64             (* OrdinalSet64::<K>::ASSERT, set/set64.rs:80-82 *)
| NMissing.             (* there is no such method *)

(** ** map/map.rs

    - [new], [Default] and [Clone] (37-42, 147-152, 164-171) mention nothing of K;
    - [get], [get_mut], [contains_key], [remove] (46-48, 52-54, 58-60, 100-102): K::ordinal;
    - [insert], [entry] (86-96) call [init_full_map] (74-82): K::ORDINAL_SIZE; and K::ordinal;
    - [FromIterator] (154-162): [insert];
    - [len], [is_empty] (64-72) and whatever runs an iterator of the map: the [next] or
      [next_back] of map/enumerate.rs:25-31, 49-53: K::from_ordinal;
    - [drain], [clear] (136-144): the destructor of Drain (map/iter.rs:278-282) calls [next]. *)
Definition needs_map {K V} (op : map_op K V) : list need :=
  match op with
  | OpInsert _ _ | OpEntryDrop _ | OpEntryMatch _ _ _ | OpEntryOrInsert _ _ _ => [NSize; NOrdinal]
  | OpGet _ | OpGetMut _ _ | OpContainsKey _ | OpRemove _ => [NOrdinal]
  | OpLen | OpIsEmpty | OpClear | OpDrain _ _ | OpIter _ | OpKeys _ | OpValues _ | OpIterMut _ _
  | OpValuesMut _ _ | OpDebug => [NFrom]
  | OpClone _ => []
  | OpRetain _ => [NMissing]
  end.
Definition needs_map_from_iter : list need := [NSize; NOrdinal].

(** ** map/array_map.rs

    - [new] (46-50), [Default] (159-164), [FromIterator] (166-174): OrdinalTotalArrayMap::new
      (map/total/array_map.rs:64-70) evaluates ASSERT and calls [all_values];
    - [insert], [entry] (85-94) and the other lookups (67-81, 98-100): K::ordinal;
    - everything that iterates, with [retain] (145-156): K::from_ordinal. *)
Definition needs_array_map_new (s : nat) : list need := [NEqual s; NSize; NFrom].
Definition needs_array_map {K V} (op : map_op K V) : list need :=
  match op with
  | OpInsert _ _ | OpEntryDrop _ | OpEntryMatch _ _ _ | OpEntryOrInsert _ _ _
  | OpGet _ | OpGetMut _ _ | OpContainsKey _ | OpRemove _ => [NOrdinal]
  | OpLen | OpIsEmpty | OpClear | OpDrain _ _ | OpIter _ | OpKeys _ | OpValues _ | OpIterMut _ _
  | OpValuesMut _ _ | OpRetain _ | OpDebug => [NFrom]
  | OpClone _ => []
  end.

(** ** map/total/map.rs and map/total/array_map.rs

    - [try_new], [new], [Default] of the heap map (map.rs:27-44, 112-116): K::ORDINAL_SIZE
      and [all_values], i.e. K::from_ordinal; its [len] and [is_empty] (48-56): K::ORDINAL_SIZE;
    - [try_new], [new], [Default] of the array map (array_map.rs:51-70, 213-217): ASSERT and
      [all_values]; [from_array] (73-78), [len] and [is_empty] (82-89): nothing;
    - the lookups of both: K::ordinal; [keys]: K::ORDINAL_SIZE and K::from_ordinal; the
      other iterators and Debug: K::from_ordinal; [values], [values_mut], Clone: nothing. *)
Definition needs_total_new : list need := [NSize; NFrom].
Definition needs_total {K V} (op : total_op K V) : list need :=
  match op with
  | TGet _ | TIndex _ | TGetMut _ _ | TIndexMut _ _ | TInsert _ _ => [NOrdinal]
  | TLen | TIsEmpty => [NSize]
  | TIter_ _ | TIterMut_ _ _ | TDebug_ => [NFrom]
  | TKeys_ _ => [NSize; NFrom]
  | TValuesMut_ _ _ | TValues_ _ | TClone_ _ => []
  end.
Definition needs_total_array_new (s : nat) : list need := [NEqual s; NSize; NFrom].
Definition needs_from_array : list need := [].
Definition needs_total_array {K V} (op : total_op K V) : list need :=
  match op with
  | TLen | TIsEmpty => []
  | _ => needs_total op
  end.

(** ** set/

    - every function of OrdinalSet<T> except Clone mentions IS_SMALL (set.rs:32-70),
      that is T::ORDINAL_SIZE; [contains] (set_ref.rs:30-36) and [insert] (set_mut.rs:28-33) call
      T::ordinal, iteration (iter.rs:15-20, 27-50) also T::from_ordinal;
    - OrdinalArraySet: [new], [contains], [insert], Debug and FromIterator mention ASSERT
      (array.rs:46-73, 86-94, 105-109); Default (76-84) and Clone (96-103) do not;
    - OrdinalSet64: [new], [all], [insert], [iter], [contains] mention ASSERT
      (set64.rs:86-132), FromIterator (141-149) calls [new]; Debug (160-164) goes through
      OrdinalSetRef and its [all_values]. *)
Definition needs_set_new : list need := [NSize].
Definition needs_set {T} (op : set_op T) : list need :=
  match op with
  | SInsert _ | SContains _ | SFromIter _ => [NSize; NOrdinal]
  | SIter _ | SDebug => [NSize; NFrom; NOrdinal]
  | SClone => []
  end.
Definition needs_array_set_new (s : nat) : list need := [NWords s].
Definition needs_array_set_default : list need := [].
Definition needs_array_set {T} (s : nat) (op : set_op T) : list need :=
  match op with
  | SInsert _ | SContains _ | SFromIter _ => [NWords s; NOrdinal]
  | SDebug => [NWords s; NSize; NFrom; NOrdinal]
  | SIter _ => [NMissing]
  | SClone => []
  end.
Definition needs_set64_new : list need := [NAtMost64].
Definition needs_set64 {T} (op : set_op T) : list need :=
  match op with
  | SInsert _ | SContains _ | SFromIter _ => [NAtMost64; NOrdinal]
  | SIter _ => [NAtMost64; NFrom]
  | SDebug => [NSize; NFrom; NOrdinal]
  | SClone => []
  end.

(** ** atomic.rs:50-84 and 40-45 *)
Definition needs_atomic_new : list need := [NOrdinal].
Definition needs_atomic {T} (c : call T) : list need :=
  match c with
  | CLoad _ | CDebug => [NFrom]
  | CStore _ _ => [NOrdinal]
  | CCas _ _ _ _ => [NOrdinal; NFrom]
  end.

Section Use.
  Context {cfg : Config}.

  Definition inst_need (t : ty) (n : need) : res unit :=
    match n with
    | NSize => mentions_size t
    | NOrdinal => inst_ordinal t
    | NFrom => inst_from t
    | NEqual s => ASSERT (impl_of t) s
    | NWords s => ArraySet_ASSERT (impl_of t) s
    | NAtMost64 => Set64_ASSERT (impl_of t)
    | NMissing => NoCompile
    end.
  Definition inst_needs (t : ty) (l : list need) : res unit := inst_all (map (inst_need t) l).

  (** ** Programs, built and run: the constructor and one operation after another *)

  Definition compiled_map {V} (t : ty) (ops : list (map_op (type_of t) V)) :=
    inst_needs t (flat_map needs_map ops) ;;; heap_run (impl_of t) ops OrdinalMap_new.

  Definition compiled_map_from {V} (t : ty) (l : list (type_of t * V)) (ops : list (map_op (type_of t) V)) :=
    inst_needs t (needs_map_from_iter ++ flat_map needs_map ops) ;;;
    m <- OrdinalMap_from_iter (impl_of t) l ;; heap_run (impl_of t) ops m.

  Definition compiled_array_map {V} (t : ty) (s : nat) (ops : list (map_op (type_of t) V)) :=
    inst_needs t (needs_array_map_new s ++ flat_map needs_array_map ops) ;;;
    m <- OrdinalArrayMap_new (impl_of t) s ;; array_run (impl_of t) (S := s) ops m.

  Definition compiled_array_map_from {V} (t : ty) (s : nat) (l : list (type_of t * V))
      (ops : list (map_op (type_of t) V)) :=
    inst_needs t (needs_array_map_new s ++ [NOrdinal] ++ flat_map needs_array_map ops) ;;;
    m <- OrdinalArrayMap_from_iter (impl_of t) s l ;; array_run (impl_of t) (S := s) ops m.

  Definition compiled_total {V St} (t : ty) (init : St -> type_of t -> St * res V) (st : St)
      (ops : list (total_op (type_of t) V)) :=
    inst_needs t (needs_total_new ++ flat_map needs_total ops) ;;;
    m <- snd (OrdinalTotalMap_new (impl_of t) init st) ;; htotal_run (impl_of t) ops m.

  Definition compiled_total_array {V St} (t : ty) (s : nat) (init : St -> type_of t -> St * res V)
      (st : St) (ops : list (total_op (type_of t) V)) :=
    inst_needs t (needs_total_array_new s ++ flat_map needs_total_array ops) ;;;
    m <- returned (snd (OrdinalTotalArrayMap_new (impl_of t) s init st)) ;;
    atotal_run (S := s) (impl_of t) ops m.

  Definition compiled_from_array {V} (t : ty) (s : nat) (a : arr V s)
      (ops : list (total_op (type_of t) V)) :=
    inst_needs t (needs_from_array ++ flat_map needs_total_array ops) ;;;
    m <- OrdinalTotalArrayMap_from_array a ;; atotal_run (S := s) (impl_of t) ops m.

  Definition compiled_set (t : ty) (ops : list (set_op (type_of t))) :=
    inst_needs t (needs_set_new ++ flat_map needs_set ops) ;;;
    s <- OrdinalSet_new (impl_of t) ;; set_run (impl_of t) ops s.

  Definition compiled_array_set (t : ty) (s : nat) (ops : list (set_op (type_of t))) :=
    inst_needs t (needs_array_set_new s ++ flat_map (needs_array_set s) ops) ;;;
    a <- OrdinalArraySet_new (impl_of t) s ;; array_set_run (S := s) (impl_of t) ops a.

  Definition compiled_array_set_default (t : ty) (s : nat) (ops : list (set_op (type_of t))) :=
    inst_needs t (needs_array_set_default ++ flat_map (needs_array_set s) ops) ;;;
    a <- OrdinalArraySet_default s ;; array_set_run (S := s) (impl_of t) ops a.

  Definition compiled_set64 (t : ty) (ops : list (set_op (type_of t))) :=
    inst_needs t (needs_set64_new ++ flat_map needs_set64 ops) ;;;
    s <- OrdinalSet64_new (impl_of t) ;; set64_run (impl_of t) ops s.

  (** Calls of one thread on one AtomicOrdinal; the first panic ends the program. *)
  Fixpoint calls_alone {T} (O : Ordinal T) (cs : list (call T)) (cell : N) : res (list (out T) * N) :=
    match cs with
    | [] => Val ([], cell)
    | c :: cs' =>
        let '(r, cell') := call_alone O c cell in
        o <- r ;; '(os, cell'') <- calls_alone O cs' cell' ;; Val (o :: os, cell'')
    end.

  Definition compiled_atomic (t : ty) (v : type_of t) (cs : list (call (type_of t))) :=
    inst_needs t (needs_atomic_new ++ flat_map needs_atomic cs) ;;;
    cell <- AtomicOrdinal_new (impl_of t) v ;; calls_alone (impl_of t) cs cell.

  (** Several threads on one AtomicOrdinal (ModelAtomic.v), after the steps of [sched]. *)
  Definition compiled_threads (t : ty) (v : type_of t) (progs : list (list (call (type_of t))))
      (sched : list (nat * nat)) :=
    inst_needs t (needs_atomic_new ++ flat_map needs_atomic (concat progs)) ;;;
    cell <- AtomicOrdinal_new (impl_of t) v ;;
    Val (views (fst (execute (impl_of t) (fun _ => sc_apply) progs cell sched))).
End Use.
