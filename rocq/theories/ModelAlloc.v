(** * ModelAlloc: the functions that allocate, when allocation may fail.

    Everywhere else in the model allocation succeeds. Here [Vec::with_capacity] and the like panic when
    the memory would be more than [isize::MAX] bytes ("capacity overflow"), make no request for 0 bytes,
    and otherwise ask the allocator, which is arbitrary. A state is the history of the requests (in bytes)
    with the object. The functions below follow those of ModelCatch.v, so a panic says what it left
    behind. Assumed of std: the vector built has the capacity asked for, so neither pushing that many
    values nor [into_boxed_slice] makes a further request; [Vec::into_vec], [Box::default] and [Vec::new] make none;
    cloning a boxed slice makes one request, before any element is cloned. Freeing memory does not fail.
    [slot] is [size_of] of a slot, [Option<V>] in an OrdinalMap, [V] in an OrdinalTotalMap. *)
From Verif Require Import Base Spec SpecMap SpecTotal SpecSet SpecCatch SpecAlloc ModelOrdinal ModelValues
  ModelArrayBuilder ModelIter ModelTotal ModelMap ModelSet ModelResume ModelUnwind MapMachine TotalMachine SetMachine
  ModelCatch.

Section Heap.
  Context {cfg : Config} (ask : allocator).

  (** An object together with the history of requests. *)
  Definition held (M : Type) : Type := list N * M.
  (** Code that makes no request. *)
  Definition inside {M A} (f : act M A) : act (held M) A :=
    fun s => let '(m, e) := f (snd s) in ((fst s, m), e).
  Definition request {M} (bytes : N) : act (held M) unit :=
    fun s => ((fst s ++ [bytes], snd s),
              match ask (fst s) bytes with Granted => Ended tt | Throws w => Unwinds w | Dies => Aborts end).
  (** [Vec::with_capacity(n)], [vec![0; n]], and the first thing [Box<[T]>::clone] does *)
  Definition with_capacity {M} (slot n : N) : act (held M) unit :=
    if Z.to_N isize_max <? slot * n then look (fun _ => Panic PCapacity)
    else if slot * n =? 0 then ret tt
    else request (slot * n).

  Section Maps.
    Context {K V : Type} (O : Ordinal K) (slot : N).
    Local Notation out := (map_out K V).

    (** *** map/map.rs *)
    (** map/map.rs:74-82 *)
    Definition OrdinalMap_init_full_map_mem : act (held (@OrdinalMap V)) unit :=
      size <! look (fun _ => ORDINAL_SIZE O) ;;
      empty <! look (fun s => Val (llen (snd s) =? 0)) ;;
      if (empty : bool) then with_capacity slot size ;;! inside (put (repeat None (N.to_nat size))) else ret tt.
    (** map/map.rs:86-89 *)
    Definition OrdinalMap_insert_mem (key : K) (value : V) : act (held (@OrdinalMap V)) (option V) :=
      OrdinalMap_init_full_map_mem ;;!
      inside (
        i <! look (fun _ => ordinal O key) ;;
        old <! look (fun m => index m i) ;;
        m <! look (fun m => Val m) ;;
        put (store_at m i (Some value)) ;;!
        ret old).
    (** map/map.rs:92-96 *)
    Definition OrdinalMap_entry_mem (key : K) : act (held (@OrdinalMap V)) (Entry K) :=
      OrdinalMap_init_full_map_mem ;;!
      inside (
        i <! look (fun _ => ordinal O key) ;;
        entry <! look (fun m => index_slot m i) ;;
        look (fun m => Entry_new m key entry)).
    (** map/map.rs:164-171; the client assigns the clone. *)
    Definition OrdinalMap_clone_mem (cl : V -> V) : act (held (@OrdinalMap V)) unit :=
      len <! look (fun s => Val (llen (snd s))) ;;
      with_capacity slot len ;;!
      inside (replaces (fun m => Val (tt, OrdinalMap_clone cl m))).
    (** The operations of MapMachine. *)
    Definition heap_mem (op : map_op K V) : act (held (@OrdinalMap V)) out :=
      match op with
      | OpInsert k v => o <! OrdinalMap_insert_mem k v ;; ret (OutValue o)
      | OpEntryDrop k => e <! OrdinalMap_entry_mem k ;; ret (entry_drop e)
      | OpEntryMatch k v w => e <! OrdinalMap_entry_mem k ;; inside (replaces (fun m => entry_match m e v w))
      | OpEntryOrInsert k v w => e <! OrdinalMap_entry_mem k ;; inside (replaces (fun m => entry_or_insert m e v w))
      | OpClone cl => OrdinalMap_clone_mem cl ;;! ret OutUnit
      | _ => inside (heap_act O op)
      end.
    (** map/map.rs:154-162: the loop, on its local map *)
    Fixpoint OrdinalMap_from_iter_loop_mem (l : list (K * V)) : act (held (@OrdinalMap V)) unit :=
      match l with
      | [] => ret tt
      | (k, v) :: l' => OrdinalMap_insert_mem k v ;;! OrdinalMap_from_iter_loop_mem l'
      end.
    Definition OrdinalMap_from_iter_mem {M} (l : list (K * V)) : act (held M) (@OrdinalMap V) :=
      fun s =>
        let '((h, m), e) := OrdinalMap_from_iter_loop_mem l (fst s, OrdinalMap_new) in
        ((h, snd s),
         match e with Ended _ => Ended m | Unwinds w => Unwinds w | Aborts => Aborts | Stuck => Stuck end).

    (** *** map/total/map.rs *)
    (** map/total/map.rs:27-36; the state of the closure next to the history *)
    Definition OrdinalTotalMap_try_new_mem {E St} (init : St -> K -> St * res (result V E))
        : act (held St) (result (@OrdinalTotalMap V) E) :=
      size <! look (fun _ => ORDINAL_SIZE O) ;;
      with_capacity slot size ;;!
      inside (fun st => let '(st', r) := OrdinalTotalMap_try_new O init st in (st', ending_of r)).
    (** map/total/map.rs:39-44 *)
    Definition OrdinalTotalMap_new_mem {St} (init : St -> K -> St * res V) : act (held St) (@OrdinalTotalMap V) :=
      r <! OrdinalTotalMap_try_new_mem (infallible_init init) ;; ret (into_ok r).
    (** map/total/map.rs:132-139; the client assigns the clone. *)
    Definition OrdinalTotalMap_clone_mem (cl : V -> V) : act (held (@OrdinalTotalMap V)) unit :=
      len <! look (fun s => Val (llen (snd s))) ;;
      with_capacity slot len ;;!
      inside (replaces (fun m => Val (tt, OrdinalTotalMap_clone cl m))).
    Definition htotal_mem (op : total_op K V) : act (held (@OrdinalTotalMap V)) (total_out K V) :=
      match op with
      | TClone_ cl => OrdinalTotalMap_clone_mem cl ;;! ret TOUnit
      | _ => inside (htotal_act O op)
      end.
  End Maps.

  (** *** set/set.rs *)
  Section Sets.
    Context {T : Type} (O : Ordinal T).

    (** set/set.rs:64-80 *)
    Definition OrdinalSet_insert_mem (t : T) : act (held OrdinalSet) bool :=
      small <! look (fun _ => IS_SMALL O) ;;
      s <! look (fun s => Val (snd s)) ;;
      match (small : bool), s with
      | true, Small w =>
          inside (on_words [w] (fun ws => match ws with [w'] => Some (Small w') | _ => None end)
                    (OrdinalSetMut_insert_act O t))
      | false, Large ws =>
          (if llen ws =? 0 then
             len <! look (fun _ => size <- ORDINAL_SIZE O ;;
                                   a <- unwrap (checked_add size 64) ;;
                                   b <- usub a 1 ;;
                                   udiv b 64) ;;
             with_capacity 8 len ;;!
             inside (put (Large (repeat 0 (N.to_nat len))))
           else ret tt) ;;!
          s <! look (fun s => Val (snd s)) ;;
          match s with
          | Large ws => inside (on_words ws (fun ws => Some (Large ws)) (OrdinalSetMut_insert_act O t))
          | Small _ => fun s => (s, Stuck)
          end
      | _, _ => fun s => (s, Unwinds PUnreachable)
      end.
    (** set/set.rs:95-103: the loop, on its local set *)
    Fixpoint OrdinalSet_insert_all_mem (l : list T) : act (held OrdinalSet) unit :=
      match l with
      | [] => ret tt
      | t :: l' => OrdinalSet_insert_mem t ;;! OrdinalSet_insert_all_mem l'
      end.
    (** The client assigns the set collected. *)
    Definition OrdinalSet_from_iter_mem (l : list T) : act (held OrdinalSet) unit :=
      fun s => match OrdinalSet_new O with
               | Val s0 =>
                   let '((h, s'), e) := OrdinalSet_insert_all_mem l (fst s, s0) in
                   ((h, match e with Ended _ => s' | _ => snd s end), e)
               | r => (s, ending_of (r ;;; Val tt))
               end.
    (** set/set.rs:12, 105-111; the client assigns the clone. *)
    Definition OrdinalSet_clone_mem : act (held OrdinalSet) unit :=
      s <! look (fun s => Val (snd s)) ;;
      match s with Small _ => ret tt | Large ws => with_capacity 8 (llen ws) end ;;!
      inside (replaces (fun s => Val (tt, OrdinalSet_clone s))).
    (** The operations of SetMachine. *)
    Definition set_mem (op : set_op T) : act (held OrdinalSet) (set_out T) :=
      match op with
      | SInsert t => b <! OrdinalSet_insert_mem t ;; ret (SBool b)
      | SFromIter l => OrdinalSet_from_iter_mem l ;;! ret SUnit_
      | SClone => OrdinalSet_clone_mem ;;! ret SUnit_
      | _ => inside (set_act O op)
      end.
  End Sets.
End Heap.
