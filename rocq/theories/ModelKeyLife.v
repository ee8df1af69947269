(** * ModelKeyLife: who destroys the keys and the values, when destructors may panic.

    As in ModelLife.v, with keys that have destructors as well: the log lists the keys ([inl]) and
    the values ([inr]) whose destructors have been started. The iterators make a key for every slot
    ([T::from_ordinal]), so they also have to destroy the keys that nobody gets. *)
From Verif Require Import Base Spec SpecMap SpecResume ModelOrdinal ModelValues ModelArrayBuilder ModelIter ModelTotal ModelMap
  ModelDrop ModelResume MapMachine ModelCatch ModelLife.
From Coq Require Import List. Import ListNotations.

Section KeyLife.
  Context {K V : Type} (boom : list (K + V) -> K + V -> option panic).
  (** Whether the compiler destroys the value a function is about to return when a destructor that
      runs at its end panics. (Versions of rustc differ, rust-lang/rust#47949.) *)
  Context (drops_result : bool).
  Context {cfg : Config} (O : Ordinal K).
  Local Notation out := (map_out K V).
  Local Notation cells := (list (option V)).
  Local Notation log := (list (K + V)).

  (** ** Iterators *)

  (** map/enumerate.rs:25-30 and 49-53 *)
  Definition enumerate_act {A} (d : dir) : act (enumerate A) (option (K * A)) :=
    fun it => let '((_, it'), r) := enumerate_resume (pure_from O) d (tt, it) in (it', ending_of r).

  (** map/iter.rs:27-32, 44-49, 90-95 and 107-112: the pair is destroyed at the end of the body of
      the loop if it is not returned. *)
  Fixpoint key_loop {A B} (sel : A -> res (option B)) (d : dir) (fuel : nat) : act (log * enumerate A) (option (K * B)) :=
    match fuel with
    | 0%nat => fun s => (s, Stuck)
    | S fuel' =>
        r <! calm (enumerate_act d) ;;
        match r with
        | None => ret None
        | Some (k, a) =>
            b <! owning boom [inl k] (look (fun _ => sel a)) ;;
            match b with
            | Some b => ret (Some (k, b))
            | None => destroy boom (inl k) ;;! key_loop sel d fuel'
            end
        end
    end.
  Definition key_next {A B} (sel : A -> res (option B)) (d : dir) : act (log * enumerate A) (option (K * B)) :=
    fun s => key_loop sel d (S (length (e_items (snd s)))) s.
  (** map/iter.rs:26-33 and 43-50 *)
  Definition iter_next (d : dir) : act (log * @Iter V) (option (K * V)) := key_next (fun o => Val o) d.
  (** map/iter.rs:89-96 and 106-113 *)
  Definition iter_mut_next (storage : cells) (d : dir) : act (log * IterMut) (option (K * N)) :=
    key_next (fun i => o <- deref storage i ;; Val (match o with Some _ => Some i | None => None end)) d.
  (** map/iter.rs:188-190, 200-202, 243-245 and 255-257: [.map(|(_, v)| v)] destroys the key. *)
  Definition without_key {It B} (next : dir -> act (log * It) (option (K * B))) (d : dir) : act (log * It) (option B) :=
    r <! next d ;;
    match r with
    | None => ret None
    | Some (k, b) => destroy boom (inl k) ;;! ret (Some b)
    end.

  (** A client calls [next] and [next_back] up to the first call that panics. *)
  Fixpoint calls {It A} (next : dir -> act (log * It) A) (sched : list dir) (s : log * It) : list A * (log * It) * ending unit :=
    match sched with
    | [] => ([], s, Ended tt)
    | d :: ds =>
        let '(s', e) := next d s in
        match e with
        | Ended a => let '(got, s'', e') := calls next ds s' in (a :: got, s'', e')
        | Unwinds w => ([], s', Unwinds w)
        | Aborts => ([], s', Aborts)
        | Stuck => ([], s', Stuck)
        end
    end.
  (** An iterator in a local variable, over an object [M] that it borrows. What the calls return
      goes into a vector of the client. [held] are the things in it that have destructors. *)
  Definition client {It A M} (held : list A -> log) (make : M -> It) (next : M -> dir -> act (log * It) A) (sched : list dir)
      : act (log * M) (list A) :=
    fun '(l, m) =>
      let '(got, (l', _), e) := calls (next m) sched (l, make m) in
      owning boom (held got)
        (fun s => (s, match e with Ended _ => Ended got | Unwinds w => Unwinds w | Aborts => Aborts | Stuck => Stuck end)) (l', m).
  Definition keys_of {B} (got : list (option (K * B))) : log := map (fun p => inl (fst p)) (somes got).
  Definition pairs_of (got : list (option (K * V))) : log := flat_map (fun p => [inl (fst p); inr (snd p)]) (somes got).

  (** [for (k, b) in iter { .. }]: the pair is destroyed at the end of the body. *)
  Fixpoint each {It B X} (next : act (log * It) (option (K * B))) (body : X -> K -> B -> res X) (fuel : nat) (x : X) : act (log * It) X :=
    match fuel with
    | 0%nat => fun s => (s, Stuck)
    | S fuel' =>
        r <! next ;;
        match r with
        | None => ret x
        | Some (k, b) =>
            x' <! owning boom [inl k] (look (fun _ => body x k b)) ;;
            destroy boom (inl k) ;;!
            each next body fuel' x'
        end
    end.
  (** An iterator used inside one function. *)
  Definition locally {It A M} (make : M -> It) (x : M -> act (log * It) A) : act (log * M) A :=
    fun '(l, m) => let '((l', _), e) := x m (l, make m) in ((l', m), e).

  (** ** The operations on the slots that heap and array maps have in common *)

  (** map/map.rs:106-108, map/array_map.rs:104-106 *)
  Definition iter_of (m : cells) : @Iter V := Iter_new (TIter_new m 0).
  (** map/map.rs:112-114, map/array_map.rs:110-112 *)
  Definition iter_mut_of (m : cells) : IterMut := IterMut_new (TIterMut_new (slots (length m))).

  (** map/map.rs:64-66, map/array_map.rs:56-58: [count] of std, [fold(0, |count, _| count + 1)]. *)
  Definition len_keys : act (log * cells) out :=
    locally iter_of (fun m => c <! each (iter_next Front) (fun c _ _ => uadd c 1) (S (length m)) 0 ;; ret (OutNum c)).
  (** map/map.rs:70-72, map/array_map.rs:61-63: the pair is a temporary of the expression. *)
  Definition is_empty_keys : act (log * cells) out :=
    locally iter_of (fun _ => r <! without_key iter_next Front ;; ret (OutBool (negb (is_some r)))).
  (** map/map.rs:172-176, map/array_map.rs:184-188: [DebugMap::entries] of std. *)
  Definition debug_keys : act (log * cells) out :=
    locally iter_of (fun m => l <! each (iter_next Front) (fun l k v => Val (l ++ [(k, v)])) (S (length m)) [] ;; ret (OutList l)).
  (** [iter], [keys], [values], [iter_mut] and [values_mut], driven as in MapMachine.v *)
  Definition iter_keys (sched : list dir) : act (log * cells) out :=
    got <! client keys_of iter_of (fun _ => iter_next) sched ;; ret (OutEntries got).
  Definition keys_keys (sched : list dir) : act (log * cells) out :=
    got <! client keys_of iter_of (fun _ => iter_next) sched ;; ret (OutKeys (map (opt_map fst) got)).
  Definition values_keys (sched : list dir) : act (log * cells) out :=
    got <! client (fun _ => []) iter_of (fun _ => without_key iter_next) sched ;; ret (OutValues got).
  Definition iter_mut_keys (sched : list dir) (f : K -> V -> V) : act (log * cells) out :=
    got <! client keys_of iter_mut_of iter_mut_next sched ;;
    calm (replaces (fun m => '(l, m) <- write_entries f got m ;; Val (OutEntries l, m))).
  Definition values_mut_keys (sched : list dir) (f : V -> V) : act (log * cells) out :=
    got <! client (fun _ => []) iter_mut_of (fun m => without_key (iter_mut_next m)) sched ;;
    calm (replaces (fun m => '(l, m) <- write_values f got m ;; Val (OutValues l, m))).

  (** *** Drain *)
  (** One item of the wrapped iterator, and [mem::take] of a slot. *)
  Definition drain_item (d : dir) : act (log * @Drain V) (option (K * N)) :=
    fun '(l, (storage, it)) => let '(it', e) := enumerate_act d it in ((l, (storage, it')), e).
  Definition drain_take (i : N) : act (log * @Drain V) (option V) :=
    fun '(l, (storage, it)) =>
      match deref storage i with
      | Val o => ((l, (store_at storage i None, it)), Ended o)
      | _ => ((l, (storage, it)), Stuck)
      end.
  (** map/iter.rs:287-294 and 302-309 *)
  Fixpoint drain_key_loop (d : dir) (fuel : nat) : act (log * @Drain V) (option (K * V)) :=
    match fuel with
    | 0%nat => fun s => (s, Stuck)
    | S fuel' =>
        r <! drain_item d ;;
        match r with
        | None => ret None
        | Some (k, i) =>
            o <! drain_take i ;;
            match o with
            | Some v => ret (Some (k, v))
            | None => destroy boom (inl k) ;;! drain_key_loop d fuel'
            end
        end
    end.
  Definition drain_key_next (d : dir) : act (log * @Drain V) (option (K * V)) :=
    fun s => drain_key_loop d (S (length (e_items (snd (snd s))))) s.
  (** map/iter.rs:278-282, [for _ in self {}]: the pair is destroyed before the next call. *)
  Fixpoint drain_key_drop (fuel : nat) : act (log * @Drain V) unit :=
    match fuel with
    | 0%nat => fun s => (s, Stuck)
    | S fuel' =>
        r <! drain_key_next Front ;;
        match r with
        | None => ret tt
        | Some (k, v) => glue boom [inl k; inr v] ;;! drain_key_drop fuel'
        end
    end.
  (** A Drain in a local variable: calls of [next] and [next_back] up to the first that panics, then
      [mem::forget] or the destructor. The client keeps what the calls have returned in a vector
      declared before, and returns it after the Drain has been dropped. *)
  Definition drain_keys (sched : list dir) (leak : bool) : act (log * cells) out :=
    fun '(l, storage) =>
      let '(got, (l1, d), e) := calls drain_key_next sched (l, Drain_new storage (TIterMut_new (slots (length storage)))) in
      let over x :=
        let '((l2, d'), e) := drain_key_drop (S (length (e_items (snd d)))) (l1, d) in
        owning boom (pairs_of got) (fun s => (s, x e)) (l2, fst d') in
      match e, leak with
      | Ended _, true => ((l1, fst d), Ended (OutEntries got))
      | Ended _, false =>
          over (fun e => match e with Ended _ => Ended (OutEntries got) | Unwinds w => Unwinds w | Aborts => Aborts | Stuck => Stuck end)
      | Unwinds w, _ =>
          over (fun e => match e with Ended _ => Unwinds w | Unwinds _ => Aborts | Aborts => Aborts | Stuck => Stuck end)
      | Aborts, _ => ((l1, fst d), Aborts)
      | Stuck, _ => ((l1, fst d), Stuck)
      end.
  (** map/map.rs:142-144, map/array_map.rs:140-142 *)
  Definition clear_keys : act (log * cells) out := _ <! drain_keys [] false ;; ret OutUnit.

  (** ** Functions with a key as argument *)
  Definition olds (o : option V) : log := match o with Some v => [inr v] | None => [] end.
  (** map/map.rs:86-89, map/array_map.rs:85-87: the arguments are destroyed in reverse order if the
      function panics. Else the key is destroyed at the end, when the old value is the result. *)
  Definition insert_keys {M} (insert : act M (option V)) (k : K) (v : V) : act (log * M) out :=
    old <! owning boom [inr v; inl k] (calm insert) ;;
    owning boom (if drops_result then olds old else []) (destroy boom (inl k)) ;;!
    ret (OutValue old).
  (** [entry] owns the key until it is in the entry. *)
  Definition entry_keys {M} (entry : act M (Entry K)) (k : K) : act (log * M) (Entry K) :=
    owning boom [inl k] (calm entry).
  Definition entry_drop_keys {M} (entry : act M (Entry K)) (k : K) : act (log * M) out :=
    e <! entry_keys entry k ;; destroy boom (inl k) ;;! ret (entry_drop e).
  (** The value the client has taken out of an occupied entry. *)
  Definition taken (o : out) : log := match o with OutEntry _ old => olds old | _ => [] end.
  (** A client that matches on the entry (MapMachine.v), and lets go of it before it returns.
      map/entry.rs:58-60 destroys the key of a vacant entry after the value has been stored. *)
  Definition entry_match_keys (k : K) (v w : V) (e : Entry K) : act (log * cells) out :=
    o <! owning boom [inl k] (calm (replaces (fun m => entry_match m e v w))) ;;
    owning boom (taken o) (destroy boom (inl k)) ;;!
    ret o.
  (** map/entry.rs:83-88: the arm destroys the entry, the function an unused value. Then the client
      replaces the value behind the reference. *)
  Definition or_insert_keys (k : K) (v w : V) (e : Entry K) : act (log * cells) out :=
    '(i, m') <! owning boom [inl k; inr v] (calm (look (fun m => Entry_or_insert m e v))) ;;
    calm (put m') ;;!
    match e with Occupied _ => glue boom [inl k; inr v] | Vacant _ => destroy boom (inl k) end ;;!
    calm (replaces (fun m => cur <- deref m i ;; m' <- write_some m i w ;; Val (OutValue cur, m'))).

  (** ** OrdinalMap *)
  Definition stored_values (m : cells) : log := map inr (stored m).
  (** Functions that are lent a key destroy nothing: they are in ModelCatch.v. *)
  Definition heap_keys (op : map_op K V) : act (log * @OrdinalMap V) out :=
    match op with
    | OpInsert k v => insert_keys (OrdinalMap_insert_act O k v) k v
    | OpEntryDrop k => entry_drop_keys (OrdinalMap_entry_act O k) k
    | OpEntryMatch k v w => e <! entry_keys (OrdinalMap_entry_act O k) k ;; entry_match_keys k v w e
    | OpEntryOrInsert k v w => e <! entry_keys (OrdinalMap_entry_act O k) k ;; or_insert_keys k v w e
    | OpLen => len_keys
    | OpIsEmpty => is_empty_keys
    | OpDebug => debug_keys
    | OpIter sched => iter_keys sched
    | OpKeys sched => keys_keys sched
    | OpValues sched => values_keys sched
    | OpIterMut sched f => iter_mut_keys sched f
    | OpValuesMut sched f => values_mut_keys sched f
    | OpClear => clear_keys
    | OpDrain sched leak => drain_keys sched leak
    | OpClone _ => assign_life boom stored_values (heap_step O op)
    | OpGet _ | OpGetMut _ _ | OpContainsKey _ | OpRemove _ | OpRetain _ => calm (heap_act O op)
    end.

  (** ** OrdinalArrayMap *)
  (** map/array_map.rs:149-155: [key] is moved into the predicate, which destroys it at its end. *)
  Fixpoint retain_key_loop (f : K -> V -> V * bool) (fuel : nat) : act (log * @Drain V) unit :=
    match fuel with
    | 0%nat => fun s => (s, Stuck)
    | S fuel' =>
        r <! drain_item Front ;;
        match r with
        | None => ret tt
        | Some (k, i) =>
            o <! calm (look (fun d => deref (fst d) i)) ;;
            match o with
            | None => destroy boom (inl k) ;;! retain_key_loop f fuel'
            | Some v =>
                let '(v', keep) := f k v in
                calm (fun d => ((store_at (fst d) i (Some v'), snd d), Ended tt)) ;;!
                destroy boom (inl k) ;;!
                if (keep : bool) then retain_key_loop f fuel'
                else calm (fun d => ((store_at (fst d) i None, snd d), Ended tt)) ;;!
                     destroy boom (inr v') ;;!
                     retain_key_loop f fuel'
            end
        end
    end.
  Definition retain_keys (f : K -> V -> V * bool) : act (log * cells) out :=
    fun '(l, storage) =>
      let '((l', d), e) := retain_key_loop f (S (length storage)) (l, (storage, TIterMut_new (slots (length storage)))) in
      ((l', fst d), match e with Ended _ => Ended OutUnit | Unwinds w => Unwinds w | Aborts => Aborts | Stuck => Stuck end).

  Context (S : nat).
  Local Notation amap := (@OrdinalArrayMap V S).
  Definition on_slots_keys {A} (f : act (log * cells) A) : act (log * amap) A :=
    fun '(l, m) => let '((l', st), e) := f (l, arr_list m) in
                   match try_arr S st with Some m' => ((l', m'), e) | None => ((l', m), Stuck) end.
  Definition array_keys (op : map_op K V) : act (log * amap) out :=
    match op with
    | OpInsert k v => insert_keys (OrdinalArrayMap_insert_act O (S := S) k v) k v
    | OpEntryDrop k => entry_drop_keys (OrdinalArrayMap_entry_act O (S := S) k) k
    | OpEntryMatch k v w => e <! entry_keys (OrdinalArrayMap_entry_act O (S := S) k) k ;; on_slots_keys (entry_match_keys k v w e)
    | OpEntryOrInsert k v w => e <! entry_keys (OrdinalArrayMap_entry_act O (S := S) k) k ;; on_slots_keys (or_insert_keys k v w e)
    | OpLen => on_slots_keys len_keys
    | OpIsEmpty => on_slots_keys is_empty_keys
    | OpDebug => on_slots_keys debug_keys
    | OpIter sched => on_slots_keys (iter_keys sched)
    | OpKeys sched => on_slots_keys (keys_keys sched)
    | OpValues sched => on_slots_keys (values_keys sched)
    | OpIterMut sched f => on_slots_keys (iter_mut_keys sched f)
    | OpValuesMut sched f => on_slots_keys (values_mut_keys sched f)
    | OpClear => on_slots_keys clear_keys
    | OpDrain sched leak => on_slots_keys (drain_keys sched leak)
    | OpRetain f => on_slots_keys (retain_keys f)
    | OpClone _ => assign_life boom (fun m => stored_values (arr_list m)) (array_step O op)
    | OpGet _ | OpGetMut _ _ | OpContainsKey _ | OpRemove _ => calm (array_act O op)
    end.
End KeyLife.
