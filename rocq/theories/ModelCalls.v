(** * ModelCalls: the crate as a program that calls back into user code.

    The other model files pass an [Ordinal] impl as a pair of functions, which fixes its answers
    for the time of a call. Here the functions of the crate are written as dialogues: a node asks
    user code a question ([ordinal(k)], [from_ordinal(i)], or a call of a user closure) and goes
    on according to the answer, which may differ each time the question is asked. [ORDINAL_SIZE]
    is an associated constant and stays one ([size]). Bodies are transcribed from the same lines
    as in the files ModelValues, ModelIter, ModelTotal, ModelMap, ModelSet and ModelAtomic. *)
From Verif Require Import Base Spec SpecMap SpecTotal SpecSet SpecAtomic ModelOrdinal ModelValues ModelArrayBuilder
  ModelIter ModelTotal ModelMap ModelSet ModelAtomic MapMachine TotalMachine SetMachine.

Section Prog.
  (** [C] are the possible calls of user closures, [R c] what call [c] returns. *)
  Context {K C : Type} {R : C -> Type}.

  Inductive query := QOrdinal (k : K) | QFrom (i : N) | QUser (c : C).
  Definition answer (q : query) : Type :=
    match q with QOrdinal _ => N | QFrom _ => option K | QUser c => R c end.

  (** A dialogue; after a panic of user code the continuation does the unwinding. *)
  Inductive prog (A : Type) :=
  | Done (r : res A)
  | Ask (q : query) (k : res (answer q) -> prog A).
  Arguments Done {A} r.
  Arguments Ask {A} q k.

  Fixpoint pbind {A B} (p : prog A) (k : A -> prog B) : prog B :=
    match p with
    | Done (Val a) => k a
    | Done (Panic w) => Done (Panic w)
    | Done NoCompile => Done NoCompile
    | Done UB => Done UB
    | Done OutOfFuel => Done OutOfFuel
    | Ask q c => Ask q (fun r => pbind (c r) k)
    end.

  (** A question whose panic is passed on. *)
  Definition ask (q : query) : prog (answer q) := Ask q (fun r => Done r).
  Definition ask_ordinal (k : K) : prog N := ask (QOrdinal k).
  Definition ask_from (i : N) : prog (option K) := ask (QFrom i).

  (** User code: it has a state, which every call may change. *)
  Definition world (U : Type) : Type := U -> forall q : query, U * res (answer q).

  (** A question together with its answer. *)
  Inductive exchange := Ev (q : query) (r : res (answer q)).

  (** Running a dialogue: the final state of the user code, the questions asked with their
      answers, and the outcome. *)
  Fixpoint run {U A} (w : world U) (u : U) (p : prog A) : U * list exchange * res A :=
    match p with
    | Done r => (u, [], r)
    | Ask q c =>
        let '(u1, r) := w u q in
        let '(u2, l, x) := run w u1 (c r) in
        (u2, Ev q r :: l, x)
    end.
End Prog.
Arguments query K C : clear implicits.
Arguments prog K C R A : clear implicits.
Arguments Done {K C R A} r.
Arguments Ask {K C R A} q k.
Arguments world K C R U : clear implicits.
Arguments exchange K C R : clear implicits.

Notation "x <~ e ;; k" := (pbind e (fun x => k))
  (at level 61, e at next level, right associativity).
Notation "' p <~ e ;; k" := (pbind e (fun p => k))
  (at level 61, p pattern, e at next level, right associativity).
Notation "e ;;~ k" := (pbind e (fun _ => k))
  (at level 61, right associativity).

(** User code made of an impl that is a pair of functions and of a closure with a state. *)
Definition mixed {K C : Type} {R : C -> Type} {St : Type} (O : Ordinal K)
    (f : St -> forall c, St * res (R c)) : world K C R St :=
  fun st q =>
    match q return St * res (answer (R := R) q) with
    | QOrdinal k => (st, ordinal O k)
    | QFrom i => (st, from_ordinal O i)
    | QUser c => f st c
    end.

Section Loops.
  Context {K C : Type} {R : C -> Type}.
  Local Notation prog := (prog K C R).

  (** Driving any iterator, as [drive] and [collect] of ModelValues. *)
  Fixpoint drive_p {St A : Type} (step : dir -> St -> prog (option A * St))
      (sched : list dir) (s : St) : prog (list (option A) * St) :=
    match sched with
    | [] => Done (Val ([], s))
    | d :: ds =>
        '(o, s1) <~ step d s ;;
        '(os, s2) <~ drive_p step ds s1 ;;
        Done (Val (o :: os, s2))
    end.
  Fixpoint collect_p {St A : Type} (next : St -> prog (option A * St))
      (fuel : nat) (s : St) : prog (list A * St) :=
    match fuel with
    | O => Done OutOfFuel
    | S fuel' =>
        '(o, s1) <~ next s ;;
        match o with
        | None => Done (Val ([], s1))
        | Some a =>
            '(l, s2) <~ collect_p next fuel' s1 ;;
            Done (Val (a :: l, s2))
        end
    end.
  Fixpoint run_ops_p {St Op Out : Type} (step : Op -> St -> prog (Out * St)) (ops : list Op) (s : St)
      : prog (list Out * St) :=
    match ops with
    | [] => Done (Val ([], s))
    | op :: ops' =>
        '(o, s1) <~ step op s ;;
        '(os, s2) <~ run_ops_p step ops' s1 ;;
        Done (Val (o :: os, s2))
    end.
End Loops.

Section Calls.
  Context {cfg : Config} {K C : Type} {R : C -> Type} (size : res N).
  Local Notation prog := (prog K C R).

  (** ** values.rs *)

  (** values.rs:28-33 *)
  Definition values_new_p : res OrdinalValues := n <- size ;; Val {| r_start := 0; r_end := n |}.
  (** values.rs:40-43, 76-79 *)
  Definition values_step_p (d : dir) (s : OrdinalValues) : prog (option K * OrdinalValues) :=
    match (match d with Front => range_next s | Back => range_next_back s end) with
    | None => Done (Val (None, s))
    | Some (i, s') =>
        r <~ ask_from i ;;
        t <~ Done (unwrap r) ;;
        Done (Val (Some t, s'))
    end.

  (** ** map/enumerate.rs *)

  Section Enumerate.
    Context {A : Type}.
    (** map/enumerate.rs:25-30 *)
    Definition enumerate_next_p (s : enumerate A) : prog (option (K * A) * enumerate A) :=
      match pop_front (e_items s) with
      | None => Done (Val (None, s))
      | Some (v, rest) =>
          r <~ ask_from (e_next s) ;;
          k <~ Done (unwrap r) ;;
          next <~ Done (uadd (e_next s) 1) ;;
          Done (Val (Some (k, v), {| e_next := next; e_items := rest |}))
      end.
    (** map/enumerate.rs:49-53 *)
    Definition enumerate_next_back_p (s : enumerate A) : prog (option (K * A) * enumerate A) :=
      match pop_back (e_items s) with
      | None => Done (Val (None, s))
      | Some (v, rest) =>
          i <~ Done (uadd (e_next s) (llen rest)) ;;
          r <~ ask_from i ;;
          k <~ Done (unwrap r) ;;
          Done (Val (Some (k, v), {| e_next := e_next s; e_items := rest |}))
      end.
    Definition enumerate_step_p (d : dir) (s : enumerate A) : prog (option (K * A) * enumerate A) :=
      match d with Front => enumerate_next_p s | Back => enumerate_next_back_p s end.
  End Enumerate.

  (** ** map/iter.rs *)

  (** map/iter.rs:27-32, 44-49, 90-95, 107-112, 337-342, 349-354, 393-398, 408-413 *)
  Fixpoint sparse_loop_p {A B : Type} (d : dir) (sel : A -> res (option B)) (fuel : nat) (s : enumerate A)
      : prog (option (K * B) * enumerate A) :=
    match fuel with
    | 0%nat => Done OutOfFuel
    | S fuel' =>
        '(o, s') <~ enumerate_step_p d s ;;
        match o with
        | None => Done (Val (None, s'))
        | Some (k, a) =>
            b <~ Done (sel a) ;;
            match b with
            | Some v => Done (Val (Some (k, v), s'))
            | None => sparse_loop_p d sel fuel' s'
            end
        end
    end.

  Section Sparse.
    Context {V : Type}.

    (** map/iter.rs:11-51, 313-429: [Iter], [IntoIterArray] and [IntoIter] have the same text. *)
    Definition Iter_step_p (d : dir) (s : @Iter V) : prog (option (K * V) * @Iter V) :=
      sparse_loop_p d (fun o => Val o) (S (length (e_items s))) s.
    (** The default [Iterator::count] on [Iter]. *)
    Fixpoint Iter_count_loop_p (fuel : nat) (s : @Iter V) (count : N) : prog N :=
      match fuel with
      | 0%nat => Done OutOfFuel
      | S fuel' =>
          '(o, s') <~ Iter_step_p Front s ;;
          match o with
          | None => Done (Val count)
          | Some _ => c <~ Done (uadd count 1) ;; Iter_count_loop_p fuel' s' c
          end
      end.
    Definition Iter_count_p (s : @Iter V) : prog N := Iter_count_loop_p (S (length (e_items s))) s 0.
    (** map/iter.rs:70-114 *)
    Definition IterMut_step_p (storage : list (option V)) (d : dir) (s : IterMut)
        : prog (option (K * N) * IterMut) :=
      sparse_loop_p d
        (fun i => o <- deref storage i ;; Val (match o with Some _ => Some i | None => None end))
        (S (length (e_items s))) s.
    (** map/iter.rs:124-169, 173-218, 222-264 *)
    Definition Keys_step_p (d : dir) (s : @Keys V) : prog (option K * @Keys V) :=
      '(o, s') <~ Iter_step_p d s ;; Done (Val (opt_map fst o, s')).
    Definition Values_step_p (d : dir) (s : @Values V) : prog (option V * @Values V) :=
      '(o, s') <~ Iter_step_p d s ;; Done (Val (opt_map snd o, s')).
    Definition ValuesMut_step_p (storage : list (option V)) (d : dir) (s : ValuesMut)
        : prog (option N * ValuesMut) :=
      '(o, s') <~ IterMut_step_p storage d s ;; Done (Val (opt_map snd o, s')).
    (** map/iter.rs:287-294, 302-309 *)
    Fixpoint Drain_loop_p (d : dir) (fuel : nat) (s : @Drain V) : prog (option (K * V) * @Drain V) :=
      match fuel with
      | 0%nat => Done OutOfFuel
      | S fuel' =>
          let '(storage, iter) := s in
          '(o, iter') <~ enumerate_step_p d iter ;;
          match o with
          | None => Done (Val (None, (storage, iter')))
          | Some (k, i) =>
              v <~ Done (deref storage i) ;;
              let storage' := store_at storage i None in
              match v with
              | Some v => Done (Val (Some (k, v), (storage', iter')))
              | None => Drain_loop_p d fuel' (storage', iter')
              end
          end
      end.
    Definition Drain_step_p (d : dir) (s : @Drain V) : prog (option (K * V) * @Drain V) :=
      Drain_loop_p d (S (length (e_items (snd s)))) s.
    (** map/iter.rs:278-282 *)
    Definition Drain_drop_p (s : @Drain V) : prog (list (option V) * list (K * V)) :=
      '(l, s') <~ collect_p (Drain_step_p Front) (S (length (e_items (snd s)))) s ;; Done (Val (fst s', l)).
  End Sparse.

  (** ** map/map.rs *)

  Section Map.
    Context {V : Type}.
    Local Notation OrdinalMap := (@OrdinalMap V).

    (** map/map.rs:46-48 *)
    Definition OrdinalMap_get_p (m : OrdinalMap) (key : K) : prog (option V) :=
      i <~ ask_ordinal key ;;
      match slice_get m i with None => Done (Val None) | Some o => Done (Val o) end.
    (** map/map.rs:52-54 *)
    Definition OrdinalMap_get_mut_p (m : OrdinalMap) (key : K) : prog (option N) :=
      i <~ ask_ordinal key ;;
      match slice_get m i with
      | None => Done (Val None)
      | Some o => Done (Val (match o with Some _ => Some i | None => None end))
      end.
    (** map/map.rs:58-60 *)
    Definition OrdinalMap_contains_key_p (m : OrdinalMap) (key : K) : prog bool :=
      i <~ ask_ordinal key ;; Done (Val (is_some (slice_get m i))).
    (** map/map.rs:64-66, 70-72 *)
    Definition OrdinalMap_len_p (m : OrdinalMap) : prog N := Iter_count_p (OrdinalMap_iter m).
    Definition OrdinalMap_is_empty_p (m : OrdinalMap) : prog bool :=
      '(o, _) <~ Iter_step_p Front (OrdinalMap_iter m) ;; Done (Val (negb (is_some o))).
    (** map/map.rs:74-82 *)
    Definition OrdinalMap_init_full_map_p (m : OrdinalMap) : res OrdinalMap :=
      size <- size ;;
      if llen m =? 0 then Val (repeat None (N.to_nat size)) else Val m.
    (** map/map.rs:86-89 *)
    Definition OrdinalMap_insert_p (m : OrdinalMap) (key : K) (value : V) : prog (option V * OrdinalMap) :=
      m <~ Done (OrdinalMap_init_full_map_p m) ;;
      i <~ ask_ordinal key ;;
      old <~ Done (index m i) ;;
      Done (Val (old, store_at m i (Some value))).
    (** map/map.rs:92-96 *)
    Definition OrdinalMap_entry_p (m : OrdinalMap) (key : K) : prog (Entry K * OrdinalMap) :=
      m <~ Done (OrdinalMap_init_full_map_p m) ;;
      i <~ ask_ordinal key ;;
      entry <~ Done (index_slot m i) ;;
      e <~ Done (Entry_new m key entry) ;;
      Done (Val (e, m)).
    (** map/map.rs:100-102 *)
    Definition OrdinalMap_remove_p (m : OrdinalMap) (key : K) : prog (option V * OrdinalMap) :=
      i <~ ask_ordinal key ;;
      match slice_get m i with
      | None => Done (Val (None, m))
      | Some o => Done (Val (o, store_at m i None))
      end.
    (** map/map.rs:142-144 *)
    Definition OrdinalMap_clear_p (m : OrdinalMap) : prog OrdinalMap :=
      '(m, _) <~ Drain_drop_p (OrdinalMap_drain m) ;; Done (Val m).
    (** map/map.rs:173-177 *)
    Definition OrdinalMap_debug_p (m : OrdinalMap) : prog (list (K * V)) :=
      '(l, _) <~ collect_p (Iter_step_p Front) (S (length m)) (OrdinalMap_iter m) ;; Done (Val l).

    (** The operations of MapMachine. *)
    Definition heap_step_p (op : map_op K V) (m : OrdinalMap) : prog (map_out K V * OrdinalMap) :=
      match op with
      | OpInsert k v => '(o, m) <~ OrdinalMap_insert_p m k v ;; Done (Val (OutValue o, m))
      | OpGet k => o <~ OrdinalMap_get_p m k ;; Done (Val (OutValue o, m))
      | OpGetMut k v =>
          r <~ OrdinalMap_get_mut_p m k ;;
          match r with
          | None => Done (Val (OutValue None, m))
          | Some i => Done (o <- deref m i ;; m <- write_some m i v ;; Val (OutValue o, m))
          end
      | OpContainsKey k => b <~ OrdinalMap_contains_key_p m k ;; Done (Val (OutBool b, m))
      | OpRemove k => '(o, m) <~ OrdinalMap_remove_p m k ;; Done (Val (OutValue o, m))
      | OpLen => n <~ OrdinalMap_len_p m ;; Done (Val (OutNum n, m))
      | OpIsEmpty => b <~ OrdinalMap_is_empty_p m ;; Done (Val (OutBool b, m))
      | OpClear => m <~ OrdinalMap_clear_p m ;; Done (Val (OutUnit, m))
      | OpDrain sched leak =>
          '(got, d) <~ drive_p Drain_step_p sched (OrdinalMap_drain m) ;;
          if leak then Done (Val (OutEntries got, fst d))
          else '(m, _) <~ Drain_drop_p d ;; Done (Val (OutEntries got, m))
      | OpIter sched =>
          '(got, _) <~ drive_p Iter_step_p sched (OrdinalMap_iter m) ;; Done (Val (OutEntries got, m))
      | OpKeys sched =>
          '(got, _) <~ drive_p Keys_step_p sched (OrdinalMap_keys m) ;; Done (Val (OutKeys got, m))
      | OpValues sched =>
          '(got, _) <~ drive_p Values_step_p sched (OrdinalMap_values m) ;; Done (Val (OutValues got, m))
      | OpIterMut sched f =>
          '(got, _) <~ drive_p (IterMut_step_p m) sched (OrdinalMap_iter_mut m) ;;
          Done ('(l, m) <- write_entries f got m ;; Val (OutEntries l, m))
      | OpValuesMut sched f =>
          '(got, _) <~ drive_p (ValuesMut_step_p m) sched (OrdinalMap_values_mut m) ;;
          Done ('(l, m) <- write_values f got m ;; Val (OutValues l, m))
      | OpEntryDrop k => '(e, m) <~ OrdinalMap_entry_p m k ;; Done (Val (entry_drop e, m))
      | OpEntryMatch k v w => '(e, m) <~ OrdinalMap_entry_p m k ;; Done (entry_match m e v w)
      | OpEntryOrInsert k v w => '(e, m) <~ OrdinalMap_entry_p m k ;; Done (entry_or_insert m e v w)
      | OpRetain f => Done NoCompile
      | OpClone cl => Done (Val (OutUnit, OrdinalMap_clone cl m))
      | OpDebug => l <~ OrdinalMap_debug_p m ;; Done (Val (OutList l, m))
      end.
  End Map.

  (** ** map/total/map.rs *)

  Section Total.
    Context {V : Type}.
    Local Notation OrdinalTotalMap := (@OrdinalTotalMap V).

    (** map/total/map.rs:59-61, 64-66, 121-123, 127-129 *)
    Definition OrdinalTotalMap_get_p (m : OrdinalTotalMap) (key : K) : prog V :=
      i <~ ask_ordinal key ;; Done (index m i).
    Definition OrdinalTotalMap_get_mut_p (m : OrdinalTotalMap) (key : K) : prog N :=
      i <~ ask_ordinal key ;; Done (index_slot m i).
    (** map/total/map.rs:107-109 *)
    Definition OrdinalTotalMap_insert_p (m : OrdinalTotalMap) (key : K) (value : V)
        : prog (V * OrdinalTotalMap) :=
      i <~ ask_ordinal key ;; old <~ Done (index m i) ;; Done (Val (old, store_at m i value)).
    (** map/total/map.rs:141-145 *)
    Definition OrdinalTotalMap_debug_p (m : OrdinalTotalMap) : prog (list (K * V)) :=
      '(l, _) <~ collect_p (enumerate_step_p Front) (S (length m)) (OrdinalTotalMap_iter m) ;; Done (Val l).

    (** The operations of TotalMachine. *)
    Definition htotal_step_p (op : total_op K V) (m : OrdinalTotalMap)
        : prog (total_out K V * OrdinalTotalMap) :=
      match op with
      | TGet k | TIndex k => v <~ OrdinalTotalMap_get_p m k ;; Done (Val (TOValue v, m))
      | TGetMut k v | TIndexMut k v =>
          i <~ OrdinalTotalMap_get_mut_p m k ;;
          Done (old <- deref m i ;; Val (TOValue old, store_at m i v))
      | TInsert k v => '(old, m) <~ OrdinalTotalMap_insert_p m k v ;; Done (Val (TOValue old, m))
      | TLen => Done (n <- size ;; Val (TONum n, m))
      | TIsEmpty => Done (b <- (n <- size ;; Val (n =? 0)) ;; Val (TOBool b, m))
      | TIter_ sched =>
          '(got, _) <~ drive_p enumerate_step_p sched (OrdinalTotalMap_iter m) ;; Done (Val (TOEntries got, m))
      | TIterMut_ sched f =>
          '(got, _) <~ drive_p enumerate_step_p sched (OrdinalTotalMap_iter_mut m) ;;
          Done ('(l, m) <- twrite_entries f got m ;; Val (TOEntries l, m))
      | TValuesMut_ sched f =>
          Done ('(got, _) <- drive slice_step sched (OrdinalTotalMap_values_mut m) ;;
                '(l, m) <- twrite_values f got m ;; Val (TOValues l, m))
      | TKeys_ sched =>
          it <~ Done values_new_p ;;
          '(got, _) <~ drive_p values_step_p sched it ;; Done (Val (TOKeys got, m))
      | TValues_ sched =>
          Done ('(got, _) <- drive slice_step sched (OrdinalTotalMap_values m) ;; Val (TOValues got, m))
      | TClone_ cl => Done (Val (TOUnit, OrdinalTotalMap_clone cl m))
      | TDebug_ => l <~ OrdinalTotalMap_debug_p m ;; Done (Val (TOList l, m))
      end.
  End Total.

  (** ** map/total/array_map.rs and map/array_map.rs *)

  Section ArrayMaps.
    Context (S : nat).

    Section TotalArray.
      Context {V : Type}.
      Local Notation amap := (OrdinalTotalArrayMap S V).

      (** map/total/array_map.rs:92-94, 97-99, 193-195, 199-201 *)
      Definition OrdinalTotalArrayMap_get_p (m : amap) (key : K) : prog V :=
        i <~ ask_ordinal key ;; Done (index (arr_list m) i).
      Definition OrdinalTotalArrayMap_get_mut_p (m : amap) (key : K) : prog N :=
        i <~ ask_ordinal key ;; Done (index_slot (arr_list m) i).
      (** map/total/array_map.rs:185-187 *)
      Definition OrdinalTotalArrayMap_insert_p (m : amap) (key : K) (value : V) : prog (V * amap) :=
        i <~ ask_ordinal key ;; old <~ Done (index (arr_list m) i) ;; Done (Val (old, arr_store m i value)).
      (** map/total/array_map.rs:219-223 *)
      Definition OrdinalTotalArrayMap_debug_p (m : amap) : prog (list (K * V)) :=
        '(l, _) <~ collect_p (enumerate_step_p Front) (Datatypes.S (length (arr_list m)))
                             (OrdinalTotalArrayMap_iter m) ;; Done (Val l).

      Definition atotal_step_p (op : total_op K V) (m : amap) : prog (total_out K V * amap) :=
        match op with
        | TGet k | TIndex k => v <~ OrdinalTotalArrayMap_get_p m k ;; Done (Val (TOValue v, m))
        | TGetMut k v | TIndexMut k v =>
            i <~ OrdinalTotalArrayMap_get_mut_p m k ;;
            Done (old <- deref (arr_list m) i ;; Val (TOValue old, arr_store m i v))
        | TInsert k v => '(old, m) <~ OrdinalTotalArrayMap_insert_p m k v ;; Done (Val (TOValue old, m))
        | TLen => Done (Val (TONum (OrdinalTotalArrayMap_len m), m))
        | TIsEmpty => Done (Val (TOBool (OrdinalTotalArrayMap_is_empty m), m))
        | TIter_ sched =>
            '(got, _) <~ drive_p enumerate_step_p sched (OrdinalTotalArrayMap_iter m) ;;
            Done (Val (TOEntries got, m))
        | TIterMut_ sched f =>
            '(got, _) <~ drive_p enumerate_step_p sched (OrdinalTotalArrayMap_iter_mut m) ;;
            Done ('(l, st) <- twrite_entries f got (arr_list m) ;; tback S (TOEntries l, st))
        | TValuesMut_ sched f =>
            Done ('(got, _) <- drive slice_step sched (OrdinalTotalArrayMap_values_mut m) ;;
                  '(l, st) <- twrite_values f got (arr_list m) ;; tback S (TOValues l, st))
        | TKeys_ sched =>
            it <~ Done values_new_p ;;
            '(got, _) <~ drive_p values_step_p sched it ;; Done (Val (TOKeys got, m))
        | TValues_ sched =>
            Done ('(got, _) <- drive slice_step sched (OrdinalTotalArrayMap_values m) ;;
                  Val (TOValues got, m))
        | TClone_ cl => Done (Val (TOUnit, OrdinalTotalArrayMap_clone cl m))
        | TDebug_ => l <~ OrdinalTotalArrayMap_debug_p m ;; Done (Val (TOList l, m))
        end.
    End TotalArray.

    Section SparseArray.
      Context {V : Type}.
      Local Notation amap := (@OrdinalArrayMap V S).

      (** map/array_map.rs:56-58, 61-63 *)
      Definition OrdinalArrayMap_len_p (m : amap) : prog N := Iter_count_p (OrdinalArrayMap_iter m).
      Definition OrdinalArrayMap_is_empty_p (m : amap) : prog bool :=
        '(o, _) <~ Iter_step_p Front (OrdinalArrayMap_iter m) ;; Done (Val (negb (is_some o))).
      (** map/array_map.rs:67-69, 73-75, 79-81 *)
      Definition OrdinalArrayMap_get_p (m : amap) (key : K) : prog (option V) :=
        OrdinalTotalArrayMap_get_p m key.
      Definition OrdinalArrayMap_get_mut_p (m : amap) (key : K) : prog (option N) :=
        i <~ OrdinalTotalArrayMap_get_mut_p m key ;;
        o <~ Done (deref (arr_list m) i) ;;
        Done (Val (match o with Some _ => Some i | None => None end)).
      Definition OrdinalArrayMap_contains_key_p (m : amap) (key : K) : prog bool :=
        o <~ OrdinalArrayMap_get_p m key ;; Done (Val (is_some o)).
      (** map/array_map.rs:85-87, 91-94, 98-100 *)
      Definition OrdinalArrayMap_insert_p (m : amap) (key : K) (value : V) : prog (option V * amap) :=
        i <~ OrdinalTotalArrayMap_get_mut_p m key ;;
        old <~ Done (deref (arr_list m) i) ;;
        Done (Val (old, arr_store m i (Some value))).
      Definition OrdinalArrayMap_entry_p (m : amap) (key : K) : prog (Entry K * amap) :=
        entry <~ OrdinalTotalArrayMap_get_mut_p m key ;;
        e <~ Done (Entry_new (arr_list m) key entry) ;;
        Done (Val (e, m)).
      Definition OrdinalArrayMap_remove_p (m : amap) (key : K) : prog (option V * amap) :=
        i <~ OrdinalTotalArrayMap_get_mut_p m key ;;
        old <~ Done (deref (arr_list m) i) ;;
        Done (Val (old, arr_store m i None)).
      (** map/array_map.rs:140-142 *)
      Definition OrdinalArrayMap_clear_p (m : amap) : prog amap :=
        '(l, _) <~ Drain_drop_p (OrdinalArrayMap_drain m) ;; Done (arr_back S l).
      (** map/array_map.rs:149-155 with the closure [f] a pure function. *)
      Fixpoint retain_pure_loop_p (f : K -> V -> V * bool) (fuel : nat) (storage : list (option V)) (it : TIterMut)
          : prog (list (option V)) :=
        match fuel with
        | 0%nat => Done OutOfFuel
        | Datatypes.S fuel' =>
            '(o, it') <~ enumerate_step_p Front it ;;
            match o with
            | None => Done (Val storage)
            | Some (key, i) =>
                v <~ Done (deref storage i) ;;
                match v with
                | Some value =>
                    let '(value', keep) := f key value in
                    let storage' := store_at storage i (Some value') in
                    if (keep : bool) then retain_pure_loop_p f fuel' storage' it'
                    else retain_pure_loop_p f fuel' (store_at storage' i None) it'
                | None => retain_pure_loop_p f fuel' storage it'
                end
            end
        end.
      (** map/array_map.rs:184-188 *)
      Definition OrdinalArrayMap_debug_p (m : amap) : prog (list (K * V)) :=
        '(l, _) <~ collect_p (Iter_step_p Front) (Datatypes.S (length (arr_list m)))
                             (OrdinalArrayMap_iter m) ;; Done (Val l).

      Definition array_step_p (op : map_op K V) (m : amap) : prog (map_out K V * amap) :=
        match op with
        | OpInsert k v => '(o, m) <~ OrdinalArrayMap_insert_p m k v ;; Done (Val (OutValue o, m))
        | OpGet k => o <~ OrdinalArrayMap_get_p m k ;; Done (Val (OutValue o, m))
        | OpGetMut k v =>
            r <~ OrdinalArrayMap_get_mut_p m k ;;
            match r with
            | None => Done (Val (OutValue None, m))
            | Some i => Done (o <- deref (arr_list m) i ;;
                              l <- write_some (arr_list m) i v ;; back S (OutValue o, l))
            end
        | OpContainsKey k => b <~ OrdinalArrayMap_contains_key_p m k ;; Done (Val (OutBool b, m))
        | OpRemove k => '(o, m) <~ OrdinalArrayMap_remove_p m k ;; Done (Val (OutValue o, m))
        | OpLen => n <~ OrdinalArrayMap_len_p m ;; Done (Val (OutNum n, m))
        | OpIsEmpty => b <~ OrdinalArrayMap_is_empty_p m ;; Done (Val (OutBool b, m))
        | OpClear => m <~ OrdinalArrayMap_clear_p m ;; Done (Val (OutUnit, m))
        | OpDrain sched leak =>
            '(got, d) <~ drive_p Drain_step_p sched (OrdinalArrayMap_drain m) ;;
            if leak then Done (back S (OutEntries got, fst d))
            else '(l, _) <~ Drain_drop_p d ;; Done (back S (OutEntries got, l))
        | OpIter sched =>
            '(got, _) <~ drive_p Iter_step_p sched (OrdinalArrayMap_iter m) ;; Done (Val (OutEntries got, m))
        | OpKeys sched =>
            '(got, _) <~ drive_p Keys_step_p sched (OrdinalArrayMap_keys m) ;; Done (Val (OutKeys got, m))
        | OpValues sched =>
            '(got, _) <~ drive_p Values_step_p sched (OrdinalArrayMap_values m) ;; Done (Val (OutValues got, m))
        | OpIterMut sched f =>
            '(got, _) <~ drive_p (IterMut_step_p (arr_list m)) sched (OrdinalArrayMap_iter_mut m) ;;
            Done ('(l, st) <- write_entries f got (arr_list m) ;; back S (OutEntries l, st))
        | OpValuesMut sched f =>
            '(got, _) <~ drive_p (ValuesMut_step_p (arr_list m)) sched (OrdinalArrayMap_values_mut m) ;;
            Done ('(l, st) <- write_values f got (arr_list m) ;; back S (OutValues l, st))
        | OpEntryDrop k => '(e, m) <~ OrdinalArrayMap_entry_p m k ;; Done (Val (entry_drop e, m))
        | OpEntryMatch k v w =>
            '(e, m) <~ OrdinalArrayMap_entry_p m k ;;
            Done (r <- entry_match (arr_list m) e v w ;; back S r)
        | OpEntryOrInsert k v w =>
            '(e, m) <~ OrdinalArrayMap_entry_p m k ;;
            Done (r <- entry_or_insert (arr_list m) e v w ;; back S r)
        | OpRetain f =>
            st <~ retain_pure_loop_p f (Datatypes.S (length (arr_list m))) (arr_list m)
                    (OrdinalTotalArrayMap_iter_mut m) ;;
            Done (back S (OutUnit, st))
        | OpClone cl => Done (Val (OutUnit, OrdinalArrayMap_clone cl m))
        | OpDebug => l <~ OrdinalArrayMap_debug_p m ;; Done (Val (OutList l, m))
        end.
    End SparseArray.
  End ArrayMaps.

  (** ** set/set_ref.rs, set/set_mut.rs, set/iter.rs *)

  (** set/array.rs:11-13 *)
  Definition ordinal_array_set_s_p : res N := size <- size ;; cdiv_ceil size 64.
  (** set/set_ref.rs:21-27 *)
  Definition OrdinalSetRef_new_p (words : list N) : res OrdinalSetRef :=
    s <- ordinal_array_set_s_p ;;
    debug_assert ((llen words =? 0) || (llen words =? s)) ;;;
    Val words.
  (** set/set_ref.rs:30-35 *)
  Definition OrdinalSetRef_contains_p (r : OrdinalSetRef) (t : K) : prog bool :=
    i <~ ask_ordinal t ;;
    q <~ Done (udiv i 64) ;;
    match slice_get r q with
    | None => Done (Val false)
    | Some word =>
        i <~ ask_ordinal t ;;
        m <~ Done (urem i 64) ;;
        b <~ Done (u64_shl 1 m) ;;
        Done (Val (negb (N.land word b =? 0)))
    end.
  (** set/iter.rs:15-20 *)
  Definition SetIter_new_p (set : OrdinalSetRef) : res SetIter :=
    it <- values_new_p ;; Val {| si_iter := it; si_set := set |}.
  (** set/iter.rs:27-34, 44-51 *)
  Fixpoint set_loop_p (d : dir) (set : OrdinalSetRef) (fuel : nat) (it : OrdinalValues)
      : prog (option K * OrdinalValues) :=
    match fuel with
    | 0%nat => Done OutOfFuel
    | S fuel' =>
        '(o, it') <~ values_step_p d it ;;
        match o with
        | None => Done (Val (None, it'))
        | Some t =>
            b <~ OrdinalSetRef_contains_p set t ;;
            if (b : bool) then Done (Val (Some t, it')) else set_loop_p d set fuel' it'
        end
    end.
  Definition SetIter_step_p (d : dir) (s : SetIter) : prog (option K * SetIter) :=
    '(o, it) <~ set_loop_p d (si_set s) (S (N.to_nat (range_len (si_iter s)))) (si_iter s) ;;
    Done (Val (o, {| si_iter := it; si_set := si_set s |})).
  (** set/set_ref.rs:48-50 *)
  Definition OrdinalSetRef_debug_p (r : OrdinalSetRef) : prog (list K) :=
    it <~ Done (SetIter_new_p (OrdinalSetRef_clone r)) ;;
    '(l, _) <~ collect_p (SetIter_step_p Front) (S (N.to_nat (range_len (si_iter it)))) it ;;
    Done (Val l).
  (** set/set_mut.rs:14-20 *)
  Definition OrdinalSetMut_new_p (words : list N) : res (list N) :=
    s <- ordinal_array_set_s_p ;;
    debug_assert (llen words =? s) ;;;
    Val words.
  (** set/set_mut.rs:28-33 *)
  Definition OrdinalSetMut_insert_p (words : list N) (t : K) : prog (bool * list N) :=
    r <~ Done (OrdinalSetRef_new_p words) ;;
    prev <~ OrdinalSetRef_contains_p r t ;;
    i <~ ask_ordinal t ;;
    m <~ Done (urem i 64) ;;
    b <~ Done (u64_shl 1 m) ;;
    i <~ ask_ordinal t ;;
    q <~ Done (udiv i 64) ;;
    w <~ Done (index words q) ;;
    Done (Val (negb prev, store_at words q (N.lor w b))).

  (** ** set/set.rs *)

  (** set/set.rs:32, 36-45 *)
  Definition IS_SMALL_p : res bool := size <- size ;; Val (size <=? 64).
  Definition OrdinalSet_new_p : res OrdinalSet :=
    small <- IS_SMALL_p ;; Val (if (small : bool) then Small 0 else Large []).
  (** set/set.rs:48-54 *)
  Definition OrdinalSet_as_ref_p (s : OrdinalSet) : res OrdinalSetRef :=
    small <- IS_SMALL_p ;;
    match (small : bool), s with
    | true, Small w => OrdinalSetRef_new_p [w]
    | false, Large ws => OrdinalSetRef_new_p ws
    | _, _ => Panic PUnreachable
    end.
  (** set/set.rs:58-60 *)
  Definition OrdinalSet_contains_p (s : OrdinalSet) (t : K) : prog bool :=
    r <~ Done (OrdinalSet_as_ref_p s) ;; OrdinalSetRef_contains_p r t.
  (** set/set.rs:64-80 *)
  Definition OrdinalSet_insert_p (s : OrdinalSet) (t : K) : prog (bool * OrdinalSet) :=
    small <~ Done IS_SMALL_p ;;
    match (small : bool), s with
    | true, Small w =>
        ws <~ Done (OrdinalSetMut_new_p [w]) ;;
        '(r, ws') <~ OrdinalSetMut_insert_p ws t ;;
        match ws' with
        | [w'] => Done (Val (r, Small w'))
        | _ => Done UB
        end
    | false, Large ws =>
        ws <~ Done (if llen ws =? 0 then
                 size <- size ;;
                 a <- unwrap (checked_add size 64) ;;
                 b <- usub a 1 ;;
                 len <- udiv b 64 ;;
                 Val (repeat 0 (N.to_nat len))
               else Val ws) ;;
        ws <~ Done (OrdinalSetMut_new_p ws) ;;
        '(r, ws') <~ OrdinalSetMut_insert_p ws t ;;
        Done (Val (r, Large ws'))
    | _, _ => Done (Panic PUnreachable)
    end.
  (** set/set.rs:96-102 *)
  Fixpoint OrdinalSet_insert_all_p (l : list K) (s : OrdinalSet) : prog OrdinalSet :=
    match l with
    | [] => Done (Val s)
    | t :: l' => '(_, s') <~ OrdinalSet_insert_p s t ;; OrdinalSet_insert_all_p l' s'
    end.
  Definition OrdinalSet_from_iter_p (l : list K) : prog OrdinalSet :=
    s <~ Done OrdinalSet_new_p ;; OrdinalSet_insert_all_p l s.

  Definition set_step_p (op : set_op K) (s : OrdinalSet) : prog (set_out K * OrdinalSet) :=
    match op with
    | SInsert t => '(b, s) <~ OrdinalSet_insert_p s t ;; Done (Val (SBool b, s))
    | SContains t => b <~ OrdinalSet_contains_p s t ;; Done (Val (SBool b, s))
    | SIter sched =>
        it <~ Done (r <- OrdinalSet_as_ref_p s ;; SetIter_new_p r) ;;
        '(got, _) <~ drive_p SetIter_step_p sched it ;; Done (Val (SItems got, s))
    | SFromIter l => s <~ OrdinalSet_from_iter_p l ;; Done (Val (SUnit_, s))
    | SClone => Done (Val (SUnit_, OrdinalSet_clone s))
    | SDebug =>
        l <~ (r <~ Done (OrdinalSet_as_ref_p s) ;; OrdinalSetRef_debug_p r) ;; Done (Val (SElems l, s))
    end.

  (** ** set/array.rs *)

  Section ArraySet.
    Context {S : nat}.
    (** set/array.rs:42 *)
    Definition ArraySet_ASSERT_p : res unit :=
      s <- ordinal_array_set_s_p ;; assert_const (N.of_nat S =? s).
    (** set/array.rs:46-49, 52-55 *)
    Definition OrdinalArraySet_new_p : res (OrdinalArraySet S) :=
      ArraySet_ASSERT_p ;;; OrdinalArraySet_default S.
    Definition OrdinalArraySet_as_ref_p (s : OrdinalArraySet S) : res OrdinalSetRef :=
      ArraySet_ASSERT_p ;;; OrdinalSetRef_new_p (arr_list s).
    (** set/array.rs:65-67, 71-73 *)
    Definition OrdinalArraySet_contains_p (s : OrdinalArraySet S) (t : K) : prog bool :=
      r <~ Done (OrdinalArraySet_as_ref_p s) ;; OrdinalSetRef_contains_p r t.
    Definition OrdinalArraySet_insert_p (s : OrdinalArraySet S) (t : K) : prog (bool * OrdinalArraySet S) :=
      Done ArraySet_ASSERT_p ;;~
      ws <~ Done (OrdinalSetMut_new_p (arr_list s)) ;;
      '(r, ws') <~ OrdinalSetMut_insert_p ws t ;;
      a <~ Done (as_array S ws') ;;
      Done (Val (r, a)).
    (** set/array.rs:87-93 *)
    Fixpoint OrdinalArraySet_insert_all_p (l : list K) (s : OrdinalArraySet S) : prog (OrdinalArraySet S) :=
      match l with
      | [] => Done (Val s)
      | t :: l' => '(_, s') <~ OrdinalArraySet_insert_p s t ;; OrdinalArraySet_insert_all_p l' s'
      end.
    Definition OrdinalArraySet_from_iter_p (l : list K) : prog (OrdinalArraySet S) :=
      s <~ Done OrdinalArraySet_new_p ;; OrdinalArraySet_insert_all_p l s.

    Definition array_set_step_p (op : set_op K) (s : OrdinalArraySet S)
        : prog (set_out K * OrdinalArraySet S) :=
      match op with
      | SInsert t => '(b, s) <~ OrdinalArraySet_insert_p s t ;; Done (Val (SBool b, s))
      | SContains t => b <~ OrdinalArraySet_contains_p s t ;; Done (Val (SBool b, s))
      | SIter sched => Done NoCompile
      | SFromIter l => s <~ OrdinalArraySet_from_iter_p l ;; Done (Val (SUnit_, s))
      | SClone => Done (Val (SUnit_, OrdinalArraySet_clone s))
      | SDebug =>
          l <~ (r <~ Done (OrdinalArraySet_as_ref_p s) ;; OrdinalSetRef_debug_p r) ;;
          Done (Val (SElems l, s))
      end.
  End ArraySet.

  (** ** set/set64.rs *)

  (** set/set64.rs:20-28, 46-50 *)
  Definition Iter64_step_p (d : dir) (s : Iter64) : prog (option K * Iter64) :=
    match (match d with
           | Front => let i := trailing_zeros s in if i =? 64 then None else Some i
           | Back => checked_sub (64 - 1) (leading_zeros s)
           end) with
    | None => Done (Val (None, s))
    | Some i =>
        b <~ Done (u64_shl 1 i) ;;
        let s' := N.land s (u64_not b) in
        o <~ ask_from i ;;
        t <~ Done (unwrap o) ;;
        Done (Val (Some t, s'))
    end.
  (** set/set64.rs:80-82, 86-92 *)
  Definition Set64_ASSERT_p : res unit := size <- size ;; assert_const (size <=? 64).
  Definition OrdinalSet64_new_p : res OrdinalSet64 := Set64_ASSERT_p ;;; Val 0.
  (** set/set64.rs:129-132 *)
  Definition OrdinalSet64_contains_p (s : OrdinalSet64) (t : K) : prog bool :=
    Done Set64_ASSERT_p ;;~
    i <~ ask_ordinal t ;;
    b <~ Done (u64_shl 1 i) ;;
    Done (Val (negb (N.land s b =? 0))).
  (** set/set64.rs:110-115 *)
  Definition OrdinalSet64_insert_p (s : OrdinalSet64) (t : K) : prog (bool * OrdinalSet64) :=
    Done Set64_ASSERT_p ;;~
    c <~ OrdinalSet64_contains_p s t ;;
    let r := negb c in
    i <~ ask_ordinal t ;;
    b <~ Done (u64_shl 1 i) ;;
    Done (Val (r, N.lor s b)).
  (** set/set64.rs:142-148 *)
  Fixpoint OrdinalSet64_or_all_p (l : list K) (s : OrdinalSet64) : prog OrdinalSet64 :=
    match l with
    | [] => Done (Val s)
    | t :: l' =>
        i <~ ask_ordinal t ;;
        b <~ Done (u64_shl 1 i) ;;
        OrdinalSet64_or_all_p l' (N.lor s b)
    end.
  Definition OrdinalSet64_from_iter_p (l : list K) : prog OrdinalSet64 :=
    s <~ Done OrdinalSet64_new_p ;; OrdinalSet64_or_all_p l s.

  Definition set64_step_p (op : set_op K) (s : OrdinalSet64) : prog (set_out K * OrdinalSet64) :=
    match op with
    | SInsert t => '(b, s) <~ OrdinalSet64_insert_p s t ;; Done (Val (SBool b, s))
    | SContains t => b <~ OrdinalSet64_contains_p s t ;; Done (Val (SBool b, s))
    | SIter sched =>
        it <~ Done (Set64_ASSERT_p ;;; Val s) ;;
        '(got, _) <~ drive_p Iter64_step_p sched it ;; Done (Val (SItems got, s))
    | SFromIter l => s <~ OrdinalSet64_from_iter_p l ;; Done (Val (SUnit_, s))
    | SClone => Done (Val (SUnit_, OrdinalSet64_clone s))
    | SDebug =>
        l <~ (r <~ Done (OrdinalSetRef_new_p [s]) ;; OrdinalSetRef_debug_p r) ;; Done (Val (SElems l, s))
    end.

  (** ** atomic.rs, without interference by other threads *)

  (** What follows a request to the cell that left [cell] behind. *)
  Definition after (r : res response) (cell : N) (k : response -> prog (res (out K) * N)) : prog (res (out K) * N) :=
    match r with
    | Val x => k x
    | Panic w => Done (Val (Panic w, cell))
    | NoCompile => Done (Val (NoCompile, cell))
    | UB => Done (Val (UB, cell))
    | OutOfFuel => Done (Val (OutOfFuel, cell))
    end.
  Definition decode_p (v : N) (cell : N) (f : K -> out K) : prog (res (out K) * N) :=
    Ask (QFrom v) (fun r => Done (Val (t <- (o <- r ;; unwrap o) ;; Val (f t), cell))).
  Definition encode_p (t : K) (cell : N) (k : N -> prog (res (out K) * N)) : prog (res (out K) * N) :=
    Ask (QOrdinal t) (fun r =>
      match r with
      | Val v => k v
      | Panic w => Done (Val (Panic w, cell))
      | NoCompile => Done (Val (NoCompile, cell))
      | UB => Done (Val (UB, cell))
      | OutOfFuel => Done (Val (OutOfFuel, cell))
      end).
  Definition load_p (o : mem_ordering) (cell : N) : prog (res (out K) * N) :=
    let '(r, cell') := sc_apply (RLoad o) cell in
    after r cell' (fun x => match x with SVal v => decode_p v cell' (@OVal K) | _ => Done (Val (UB, cell')) end).
  (** atomic.rs:58-60, 63-65, 68-84, 40-45; the outcome of the call and the content of the cell
      afterwards. *)
  Definition call_alone_p (c : call K) (cell : N) : prog (res (out K) * N) :=
    match c with
    | CLoad o => load_p o cell
    | CDebug => load_p Relaxed cell
    | CStore t o =>
        encode_p t cell (fun v =>
          let '(r, cell') := sc_apply (RStore v o) cell in
          after r cell' (fun x => Done (Val (match x with SUnit => Val OUnit | _ => UB end, cell'))))
    | CCas old new s f =>
        encode_p old cell (fun old_ord =>
          encode_p new cell (fun new_ord =>
            let '(r, cell') := sc_apply (RCas old_ord new_ord s f) cell in
            after r cell' (fun x =>
              match x with
              | SOk v => decode_p v cell' (@OOk K)
              | SErr v => decode_p v cell' (@OErr K)
              | _ => Done (Val (UB, cell'))
              end)))
    end.
End Calls.

(** ** Functions that also call a user closure *)

(** What the closure is called with is the question; [X] is what it returns. *)
Section Closures.
  Context {cfg : Config} {K : Type} (size : res N).

  (** map/total/map.rs:29-31 *)
  Fixpoint OrdinalTotalMap_try_new_loop_p {V E} (fuel : nat) (map : list V) (it : OrdinalValues)
      : prog K K (fun _ => result V E) (result (list V) E) :=
    match fuel with
    | 0%nat => Done OutOfFuel
    | S fuel' =>
        '(o, it') <~ values_step_p Front it ;;
        match o with
        | None => Done (Val (ResOk map))
        | Some k =>
            r <~ ask (QUser k) ;;
            match r with
            | ResOk v => OrdinalTotalMap_try_new_loop_p fuel' (map ++ [v]) it'
            | ResErr e => Done (Val (ResErr e))
            end
        end
    end.
  (** map/total/map.rs:27-36 *)
  Definition OrdinalTotalMap_try_new_p {V E}
      : prog K K (fun _ => result V E) (result (@OrdinalTotalMap V) E) :=
    it <~ Done (values_new_p size) ;;
    OrdinalTotalMap_try_new_loop_p (S (N.to_nat (range_len it))) [] it.

  (** Going on after [p] whatever its outcome. *)
  Fixpoint pcatch {C R A B} (p : prog K C R A) (k : res A -> prog K C R B) : prog K C R B :=
    match p with
    | Done r => k r
    | Ask q c => Ask q (fun r => pcatch (c r) k)
    end.

  (** map/total/array_map.rs:53-60 and array_from_iter.rs:7-11, as [fill] in ModelArrayBuilder.
      [conv] turns what the closure returned into a [Result]. *)
  Fixpoint fill_p {It A X T E : Type} (S : nat) (next : It -> prog K A (fun _ => X) (option A * It))
      (conv : X -> result T E) (fuel : nat) (b : builder T) (it : It)
      : prog K A (fun _ => X) (owned (result (arr T S) E) T) :=
    match fuel with
    | O => Done (Val {| returned := OutOfFuel; dropped := [] |})
    | Datatypes.S fuel' =>
        pcatch (next it) (fun n =>
        match n with
        | Val (None, _) =>
            let f := builder_finish S b in
            Done (Val {| returned := a <- returned f ;; Val (ResOk a); dropped := dropped f |})
        | Val (Some a, it') =>
            Ask (QUser a) (fun r =>
            match r with
            | Val x =>
                match conv x with
                | ResOk v =>
                    match builder_push S b v with
                    | Val b' => fill_p S next conv fuel' b' it'
                    | Panic w => Done (Val (leave (Panic w) b [v]))
                    | NoCompile => Done (Val (leave NoCompile b [v]))
                    | UB => Done (Val {| returned := UB; dropped := [] |})
                    | OutOfFuel => Done (Val {| returned := OutOfFuel; dropped := [] |})
                    end
                | ResErr e => Done (Val (leave (Val (ResErr e)) b []))
                end
            | Panic w => Done (Val (leave (Panic w) b []))
            | NoCompile => Done (Val {| returned := NoCompile; dropped := [] |})
            | UB => Done (Val {| returned := UB; dropped := [] |})
            | OutOfFuel => Done (Val {| returned := OutOfFuel; dropped := [] |})
            end)
        | Panic w => Done (Val (leave (Panic w) b []))
        | NoCompile => Done (Val {| returned := NoCompile; dropped := [] |})
        | UB => Done (Val {| returned := UB; dropped := [] |})
        | OutOfFuel => Done (Val {| returned := OutOfFuel; dropped := [] |})
        end)
    end.

  (** map/total/array_map.rs:46-48, 51-61 *)
  Definition ASSERT_p (S : nat) : res unit := size <- size ;; assert_const (size =? N.of_nat S).
  Definition OrdinalTotalArrayMap_try_new_p {V E} (S : nat)
      : prog K K (fun _ => result V E) (owned (result (OrdinalTotalArrayMap S V) E) V) :=
    match (ASSERT_p S ;;; values_new_p size) with
    | Val it => fill_p S (values_step_p Front) (fun r => r) (S + 2) (builder_new S) it
    | Panic w => Done (Val {| returned := Panic w; dropped := [] |})
    | NoCompile => Done (Val {| returned := NoCompile; dropped := [] |})
    | UB => Done (Val {| returned := UB; dropped := [] |})
    | OutOfFuel => Done (Val {| returned := OutOfFuel; dropped := [] |})
    end.

  (** map/total/array_map.rs:123-128 *)
  Definition OrdinalTotalArrayMap_map_p {V W} (S : nat) (m : OrdinalTotalArrayMap S V)
      : prog K (K * V) (fun _ => W) (owned (result (OrdinalTotalArrayMap S W) Empty_set) W) :=
    fill_p S (enumerate_step_p Front) (fun w => ResOk w) (S + 2) (builder_new S) (OrdinalTotalArrayMap_into_iter m).

  (** map/array_map.rs:149-155; the closure returns the value it left behind and its result; the
      outcome of the dialogue is the storage afterwards and how [retain] ended. *)
  Fixpoint OrdinalArrayMap_retain_loop_p {V} (fuel : nat) (storage : list (option V)) (it : TIterMut)
      : prog K (K * V) (fun _ => (V * res bool)%type) (list (option V) * res unit) :=
    match fuel with
    | 0%nat => Done (Val (storage, OutOfFuel))
    | Datatypes.S fuel' =>
        pcatch (enumerate_step_p Front it) (fun n =>
        match n with
        | Val (None, _) => Done (Val (storage, Val tt))
        | Val (Some (key, i), it') =>
            match deref storage i with
            | Val (Some value) =>
                Ask (QUser (key, value)) (fun a =>
                match a with
                | Val (value', r) =>
                    let storage' := store_at storage i (Some value') in
                    match r with
                    | Val true => OrdinalArrayMap_retain_loop_p fuel' storage' it'
                    | Val false => OrdinalArrayMap_retain_loop_p fuel' (store_at storage' i None) it'
                    | Panic w => Done (Val (storage', Panic w))
                    | NoCompile => Done (Val (storage', NoCompile))
                    | UB => Done (Val (storage', UB))
                    | OutOfFuel => Done (Val (storage', OutOfFuel))
                    end
                | Panic w => Done (Val (storage, Panic w))
                | NoCompile => Done (Val (storage, NoCompile))
                | UB => Done (Val (storage, UB))
                | OutOfFuel => Done (Val (storage, OutOfFuel))
                end)
            | Val None => OrdinalArrayMap_retain_loop_p fuel' storage it'
            | _ => Done (Val (storage, UB))
            end
        | Panic w => Done (Val (storage, Panic w))
        | NoCompile => Done (Val (storage, NoCompile))
        | UB => Done (Val (storage, UB))
        | OutOfFuel => Done (Val (storage, OutOfFuel))
        end)
    end.
  Definition OrdinalArrayMap_retain_p {V} (S : nat) (m : @OrdinalArrayMap V S)
      : prog K (K * V) (fun _ => (V * res bool)%type) (list (option V) * res unit) :=
    OrdinalArrayMap_retain_loop_p (Datatypes.S (length (arr_list m))) (arr_list m) (OrdinalTotalArrayMap_iter_mut m).
End Closures.

(** ** ordinal/impls/array.rs: the user code is the element type's impl *)
Section ArrayImpl.
  Context {cfg : Config} {T C : Type} {R : C -> Type} (size : res N) (len : nat).
  Local Notation prog := (prog T C R).

  (** ordinal/impls/array.rs:15-22 *)
  Fixpoint array_ordinal_loop_p (size : N) (l : list T) (r : N) : prog N :=
    match l with
    | [] => Done (Val r)
    | v :: l' =>
        r1 <~ Done (unwrap (checked_mul r size)) ;;
        i <~ ask_ordinal v ;;
        r2 <~ Done (uadd r1 i) ;;
        array_ordinal_loop_p size l' r2
    end.
  Definition array_ordinal_p (a : arr T len) : prog N :=
    size <~ Done size ;; array_ordinal_loop_p size (arr_list a) 0.

  (** ordinal/impls/array.rs:24-41 *)
  Fixpoint array_from_loop_p (size : N) (turns : nat) (n : N) (b : builder T)
      : prog (owned (option (arr T len)) T) :=
    match turns with
    | Datatypes.O =>
        Done (Val (
        if negb (n =? 0) then leave (Val None) b []
        else
          let f := builder_finish len b in
          {| returned :=
               a <- returned f ;;
               match try_arr len (rev (arr_list a)) with
               | None => UB
               | Some a' => Val (Some a')
               end;
             dropped := dropped f |}))
    | S turns' =>
        match checked_rem n size with
        | None => Done (Val (leave (Val None) b []))
        | Some i =>
            Ask (QFrom i) (fun r =>
            match (r <- r ;; unwrap r) with
            | Val v =>
                match builder_push len b v with
                | Val b' =>
                    match udiv n size with
                    | Val n' => array_from_loop_p size turns' n' b'
                    | Panic w => Done (Val (leave (Panic w) b' []))
                    | NoCompile => Done (Val (leave NoCompile b' []))
                    | UB => Done (Val (leave UB b' []))
                    | OutOfFuel => Done (Val (leave OutOfFuel b' []))
                    end
                | Panic w => Done (Val (leave (Panic w) b [v]))
                | NoCompile => Done (Val {| returned := NoCompile; dropped := [] |})
                | UB => Done (Val {| returned := UB; dropped := [] |})
                | OutOfFuel => Done (Val {| returned := OutOfFuel; dropped := [] |})
                end
            | Panic w => Done (Val (leave (Panic w) b []))
            | NoCompile => Done (Val {| returned := NoCompile; dropped := [] |})
            | UB => Done (Val {| returned := UB; dropped := [] |})
            | OutOfFuel => Done (Val {| returned := OutOfFuel; dropped := [] |})
            end)
        end
    end.
  Definition array_from_ordinal_p (o : N) : prog (owned (option (arr T len)) T) :=
    match size with
    | Val size => array_from_loop_p size len o (builder_new len)
    | _ => Done (Val {| returned := NoCompile; dropped := [] |})
    end.
End ArrayImpl.
