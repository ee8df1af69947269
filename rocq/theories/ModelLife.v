(** * ModelLife: who destroys the values, when destructors may panic.

    The state of a program is the object and the log of all values whose destructor has been
    started. [boom log v] says whether the destructor of [v] panics; it may depend on everything
    destroyed before. (Keys are taken to have no destructor.) A value that a function owns is destroyed when
    the function is left, also by a panic; a second panic at that time aborts the process. Values
    stored in a slice, a vector or an array are destroyed by the compiler's drop glue: in order,
    and if one of them panics the others are destroyed while unwinding (std's documentation of
    [Drop], and the reference on destructors). *)
From Verif Require Import Base Spec SpecMap SpecTotal SpecResume ModelOrdinal ModelValues ModelArrayBuilder ModelIter ModelTotal ModelMap
  ModelDrop ModelResume ModelUnwind MapMachine TotalMachine ModelCatch.
From Coq Require Import List. Import ListNotations.

Section Life.
  Context {V : Type} (boom : list V -> V -> option panic).

  (** A destructor as an operation on the log. *)
  Definition destructor (log : list V) (v : V) : list V * res unit :=
    (log ++ [v], match boom log v with None => Val tt | Some w => Panic w end).

  Section Destroy.
    Context {M : Type}.
    Notation W := (list V * M)%type.

    (** A function that destroys nothing. *)
    Definition calm {A} (x : act M A) : act W A :=
      fun '(log, m) => let '(m', e) := x m in ((log, m'), e).
    (** Start the destructor of [v]. *)
    Definition destroy (v : V) : act W unit :=
      fun '(log, m) => let '(log', r) := destructor log v in ((log', m), ending_of r).
    (** Destroy [vs] while a panic unwinds the stack. *)
    Fixpoint glue_unwinding (vs : list V) : act W unit :=
      match vs with
      | [] => ret tt
      | v :: vs' => fun s => let '(s', e) := destroy v s in
                             match e with Unwinds _ => (s', Aborts) | _ => glue_unwinding vs' s' end
      end.
    (** Destroy [vs] when their owner goes out of scope. *)
    Fixpoint glue (vs : list V) : act W unit :=
      match vs with
      | [] => ret tt
      | v :: vs' => fun s =>
          let '(s', e) := destroy v s in
          match e with
          | Unwinds w => (glue_unwinding vs' ;;! fun s => (s, Unwinds w)) s'
          | _ => glue vs' s'
          end
      end.
    (** [x] in a scope that owns [vs] until [x] returns. *)
    Definition owning {A} (vs : list V) (x : act W A) : act W A :=
      fun s => let '(s', e) := x s in
               match e with
               | Unwinds w => (glue_unwinding vs ;;! fun s => (s, Unwinds w)) s'
               | _ => (s', e)
               end.
  End Destroy.

  Section Maps.
    Context {cfg : Config} {K : Type} (O : Ordinal K).
    Local Notation out := (map_out K V).
    Local Notation cells := (list (option V)).

    (** map/iter.rs:278-282, [for _ in self {}]: each entry is destroyed before the next is taken
        out. *)
    Fixpoint drain_destroy (fuel : nat) : act (list V * @Drain V) unit :=
      match fuel with
      | 0%nat => fun s => (s, Stuck)
      | Datatypes.S fuel' => fun '(log, d) =>
          let '((_, d'), r) := drain_resume_step (pure_from O) Front (tt, d) in
          match r with
          | Val None => ((log, d'), Ended tt)
          | Val (Some (_, v)) => (destroy v ;;! drain_destroy fuel') (log, d')
          | Panic w => ((log, d'), Unwinds w)
          | _ => ((log, d'), Stuck)
          end
      end.
    (** A Drain in a local variable: calls of [next] and [next_back] up to the first that panics,
        then [mem::forget] or the destructor. The client keeps what the calls have returned in a
        vector of its own, drops or forgets the Drain explicitly, and then returns the vector. *)
    Definition drain_life (sched : list dir) (leak : bool) : act (list V * cells) out :=
      fun '(log, storage) =>
        let '(got, (_, d), r) := drain_calls (pure_from O) sched (tt, Drain_new storage (TIterMut_new (slots (length storage)))) in
        let over x :=
          let '((log', d'), e) := drain_destroy (S (length (e_items (snd d)))) (log, d) in
          owning (map snd (somes got)) (fun s => (s, x e)) (log', fst d') in
        match r, leak with
        | Val _, true => ((log, fst d), Ended (OutEntries got))
        | Val _, false =>
            over (fun e => match e with Ended _ => Ended (OutEntries got) | Unwinds w => Unwinds w | Aborts => Aborts | Stuck => Stuck end)
        | Panic w, _ =>
            over (fun e => match e with Ended _ => Unwinds w | Unwinds _ => Aborts | Aborts => Aborts | Stuck => Stuck end)
        | _, _ => ((log, fst d), Stuck)
        end.
    (** map/map.rs:142-144, map/array_map.rs:140-142 *)
    Definition clear_life : act (list V * cells) out :=
      _ <! drain_life [] false ;; ret OutUnit.

    (** map/entry.rs:83-88: [value] is destroyed on return if the entry is occupied. Then the client
        replaces the value behind the reference by [w]. *)
    Definition or_insert_life (e : Entry K) (v w : V) : act (list V * cells) out :=
      '(i, m') <! owning [v] (calm (look (fun m => Entry_or_insert m e v))) ;;
      calm (put m') ;;!
      match e with Occupied _ => destroy v | Vacant _ => ret tt end ;;!
      calm (replaces (fun m => cur <- deref m i ;; m' <- write_some m i w ;; Val (OutValue cur, m'))).

    (** [map = map.clone()]: the old values are destroyed, and the new map is there also if one of
        the destructors panics. *)
    Definition assign_life {M A} (values : M -> list V) (step : M -> res (A * M)) : act (list V * M) A :=
      '(o, m') <! calm (look step) ;;
      old <! calm (look (fun m => Val m)) ;;
      calm (put m') ;;!
      glue (values old) ;;!
      ret o.

    (** map/map.rs:86-89: the argument [value] of [insert] is destroyed if [insert] panics before
        storing it. Other operations own no value, or are above. *)
    Definition heap_life (op : map_op K V) : act (list V * @OrdinalMap V) out :=
      match op with
      | OpInsert k v => owning [v] (calm (heap_act O op))
      | OpEntryOrInsert k v w => e <! calm (OrdinalMap_entry_act O k) ;; or_insert_life e v w
      | OpClear => clear_life
      | OpDrain sched leak => drain_life sched leak
      | OpClone _ => assign_life stored (heap_step O op)
      | _ => calm (heap_act O op)
      end.

    Context (S : nat).
    Local Notation amap := (@OrdinalArrayMap V S).
    Definition on_slots_life {A} (f : act (list V * cells) A) : act (list V * amap) A :=
      fun '(log, m) => let '((log', l), e) := f (log, arr_list m) in
                       match try_arr S l with Some m' => ((log', m'), e) | None => ((log', m), Stuck) end.
    (** map/array_map.rs:145-156: ModelDrop.v, with the log as the state of the destructors. *)
    Definition retain_destroy (log : list V) (kv : K * V) : list V * res unit := destructor log (snd kv).
    Definition retain_calls (f : K -> V -> V * bool) (log : list V) (k : K) (v : V) : list V * V * res bool :=
      let '(v', b) := f k v in (log, v', Val b).
    Definition retain_life (f : K -> V -> V * bool) : act (list V * amap) out :=
      fun '(log, m) =>
        let '(log', l, r) := OrdinalArrayMap_retain_with O retain_destroy (retain_calls f) m log in
        match try_arr S l with Some m' => ((log', m'), ending_of (r ;;; Val OutUnit)) | None => ((log', m), Stuck) end.
    (** map/array_map.rs:85-87: [insert] as above. *)
    Definition array_life (op : map_op K V) : act (list V * amap) out :=
      match op with
      | OpInsert k v => owning [v] (calm (array_act O op))
      | OpEntryOrInsert k v w => e <! calm (OrdinalArrayMap_entry_act O (S := S) k) ;; on_slots_life (or_insert_life e v w)
      | OpClear => on_slots_life clear_life
      | OpDrain sched leak => on_slots_life (drain_life sched leak)
      | OpRetain f => retain_life f
      | OpClone _ => assign_life (fun m => stored (arr_list m)) (array_step O op)
      | _ => calm (array_act O op)
      end.

    (** map/total/map.rs:107-109, map/total/array_map.rs:185-187: as above. *)
    Definition htotal_life (op : total_op K V) : act (list V * @OrdinalTotalMap V) (total_out K V) :=
      match op with
      | TInsert k v => owning [v] (calm (htotal_act O op))
      | TClone_ _ => assign_life (fun m => m) (htotal_step O op)
      | _ => calm (htotal_act O op)
      end.
    Definition atotal_life (op : total_op K V) : act (list V * OrdinalTotalArrayMap S V) (total_out K V) :=
      match op with
      | TInsert k v => owning [v] (calm (atotal_act O op))
      | TClone_ _ => assign_life (fun m => arr_list m) (atotal_step O op)
      | _ => calm (atotal_act O op)
      end.

    (** ** The beginning *)

    (** map/map.rs:154-162 and map/array_map.rs:166-174, with a vector of entries as the iterator. A
        value that [insert] returns is destroyed at the end of the statement. On a panic the
        vector's iterator is destroyed with the entries it still has. *)
    Fixpoint from_iter_loop_life {M} (insert : K -> V -> act M (option V)) (l : list (K * V)) : act (list V * M) unit :=
      match l with
      | [] => ret tt
      | (k, v) :: l' =>
          owning (map snd l')
            (old <! owning [v] (calm (insert k v)) ;;
             match old with Some o => destroy o | None => ret tt end) ;;!
          from_iter_loop_life insert l'
      end.
    (** Then the unfinished map is destroyed; [m0] is the map at the start, which has no values. *)
    Definition from_iter_life {M} (values : M -> list V) (insert : K -> V -> act M (option V)) (m0 : M) (l : list (K * V))
        : act (list V * unit) M :=
      fun '(log, u) =>
        let '((log', m), e) := from_iter_loop_life insert l (log, m0) in
        match e with
        | Ended _ => ((log', u), Ended m)
        | Unwinds w => (glue_unwinding (values m) ;;! fun s => (s, Unwinds w)) (log', u)
        | Aborts => ((log', u), Aborts)
        | Stuck => ((log', u), Stuck)
        end.
    Definition heap_from_iter_life (l : list (K * V)) : act (list V * unit) (@OrdinalMap V) :=
      from_iter_life stored (OrdinalMap_insert_act O) OrdinalMap_new l.
    Definition array_from_iter_life (l : list (K * V)) : act (list V * unit) amap :=
      m0 <! owning (map snd l) (look (fun _ => OrdinalArrayMap_new O S)) ;;
      from_iter_life (fun m => stored (arr_list m)) (OrdinalArrayMap_insert_act O (S := S)) m0 l.

    (** map/total/map.rs:27-36. The vector is destroyed if [init] fails or panics, or the iterator
        over the keys does. [St] is the state of [init]. *)
    Fixpoint htotal_try_new_loop_life {E St} (init : St -> K -> St * res (result V E)) (fuel : nat) (map : list V)
        (it : OrdinalValues) : act (list V * St) (result (@OrdinalTotalMap V) E) :=
      match fuel with
      | 0%nat => fun s => (s, Stuck)
      | Datatypes.S fuel' => fun '(log, st) =>
          match values_next O it with
          | Val (None, _) => ((log, st), Ended (ResOk map))
          | Val (Some k, it') =>
              let '(st', r) := init st k in
              match r with
              | Val (ResOk v) => htotal_try_new_loop_life init fuel' (map ++ [v]) it' (log, st')
              | Val (ResErr e) => (glue map ;;! ret (ResErr e)) (log, st')
              | Panic w => (glue_unwinding map ;;! fun s => (s, Unwinds w)) (log, st')
              | _ => ((log, st'), Stuck)
              end
          | Panic w => (glue_unwinding map ;;! fun s => (s, Unwinds w)) (log, st)
          | _ => ((log, st), Stuck)
          end
      end.
    Definition htotal_try_new_life {E St} (init : St -> K -> St * res (result V E))
        : act (list V * St) (result (@OrdinalTotalMap V) E) :=
      it <! look (fun _ => values_new O) ;;
      htotal_try_new_loop_life init (Datatypes.S (N.to_nat (range_len it))) [] it.

    (** array_builder.rs:14-22: the destructor of the builder stops at the first panic. *)
    Definition builder_life {M} (b : builder V) : act (list V * M) unit :=
      fun '(log, m) =>
        let '(log', _, r) := builder_drop_with destructor b log in ((log', m), ending_of r).
    Definition unwinding {M A} (w : panic) (x : act M unit) : act M A :=
      fun m => let '(m', e) := x m in
               (m', match e with Ended _ => Unwinds w | Unwinds _ => Aborts | Aborts => Aborts | Stuck => Stuck end).
    (** map/total/array_map.rs:51-61, array_builder.rs:32-58. *)
    Fixpoint fill_life {E St} (init : St -> K -> St * res (result V E)) (fuel : nat) (b : builder V)
        (it : OrdinalValues) : act (list V * St) (result (OrdinalTotalArrayMap S V) E) :=
      match fuel with
      | 0%nat => fun s => (s, Stuck)
      | Datatypes.S fuel' => fun '(log, st) =>
          match values_next O it with
          | Val (None, _) =>
              if negb (Nat.eqb (b_filled b) S) then
                if Nat.leb (b_filled b) S then (builder_life b ;;! fun s => (s, Unwinds PUnwrap)) (log, st)
                else unwinding PIndex (builder_life b) (log, st)
              else
                match all_init (b_cells b) with
                | None => ((log, st), Stuck)
                | Some l => match try_arr S l with
                            | None => ((log, st), Stuck)
                            | Some a => ((log, st), Ended (ResOk a))
                            end
                end
          | Val (Some k, it') =>
              let '(st', r) := init st k in
              match r with
              | Val (ResOk v) =>
                  match builder_push S b v with
                  | Val b' => fill_life init fuel' b' it' (log, st')
                  | Panic w => unwinding w (destroy v ;;! builder_life b) (log, st')
                  | _ => ((log, st'), Stuck)
                  end
              | Val (ResErr e) => (builder_life b ;;! ret (ResErr e)) (log, st')
              | Panic w => unwinding w (builder_life b) (log, st')
              | _ => ((log, st'), Stuck)
              end
          | Panic w => unwinding w (builder_life b) (log, st)
          | _ => ((log, st), Stuck)
          end
      end.
    Definition atotal_try_new_life {E St} (init : St -> K -> St * res (result V E))
        : act (list V * St) (result (OrdinalTotalArrayMap S V) E) :=
      look (fun _ => ASSERT O S) ;;!
      it <! look (fun _ => values_new O) ;;
      fill_life init (S + 2) (builder_new S) it.

    (** ** The end: owning iterators *)

    (** The item that a call has taken out of the vector or the array. *)
    Definition popped {A} (d : dir) (l : list A) : list A :=
      match (match d with Front => pop_front l | Back => pop_back l end) with Some (x, _) => [x] | None => [] end.
    (** map/enumerate.rs:25-30 and 49-53: the local variable [v] is destroyed if the call panics. *)
    Definition owned_step {A} (values : list A -> list V) (d : dir) : act (list V * enumerate A) (option (K * A)) :=
      fun '(log, it) =>
        let '((_, it'), r) := enumerate_resume (pure_from O) d (tt, it) in
        owning (values (popped d (e_items it))) (fun s => (s, ending_of r)) (log, it').
    (** map/iter.rs:336-343, 348-355, 392-399 and 407-414 *)
    Fixpoint owned_sparse (d : dir) (fuel : nat) : act (list V * enumerate (option V)) (option (K * V)) :=
      match fuel with
      | 0%nat => fun s => (s, Stuck)
      | Datatypes.S fuel' =>
          r <! owned_step stored d ;;
          match r with
          | None => ret None
          | Some (k, Some v) => ret (Some (k, v))
          | Some (_, None) => owned_sparse d fuel'
          end
      end.
    (** [next] and [next_back] of [IntoIter] and [IntoIterArray], and of the total ones. *)
    Definition owned_next (d : dir) : act (list V * enumerate (option V)) (option (K * V)) :=
      fun s => owned_sparse d (Datatypes.S (length (e_items (snd s)))) s.
    Definition total_next (d : dir) : act (list V * enumerate V) (option (K * V)) :=
      owned_step (fun l => l) d.
  End Maps.
End Life.
