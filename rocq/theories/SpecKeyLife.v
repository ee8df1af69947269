(** * SpecKeyLife: what programs observe when the destructors of keys and values panic and every call
    is made inside [catch_unwind].

    The log lists the keys ([inl]) and values ([inr]) whose destructors were started; [boom log x] says
    whether the destructor of [x] panics then. A result [None] means that the process aborts. Nothing
    here refers to the implementation.

    The state of a map is its contents and the keys it has slots for: none before the first call of
    [insert] or [entry] of a heap map, else all. A client can tell by the destructors: an iterator
    makes the key of every slot it passes, and destroys those of the empty ones. *)
From Verif Require Import Base Spec SpecMap SpecCatch SpecLifeRun.
From Coq Require Import List. Import ListNotations.

Section Keys.
  Context {K V : Type} (boom : list (K + V) -> K + V -> option panic).
  Notation things := (list (K + V)).

  (** Destructors are started in order up to the first that panics. *)
  Fixpoint stops_at (log ts : things) : things * option panic :=
    match ts with
    | [] => (log, None)
    | t :: ts' => match boom log t with None => stops_at (log ++ [t]) ts' | Some w => (log ++ [t], Some w) end
    end.
  (** All of [ts] are destroyed while [w] unwinds the stack. *)
  Definition all_lost {A} (w : panic) (log ts : things) : things * option (seen A) :=
    let '(log', e) := destroyed_all boom (Some w) log ts in (log', opt_map (fun _ => Caught w) e).

  (** ** Iterators: the keys not passed yet, with what is in their slots. *)
  Section Walk.
    Context {B : Type}.
    Fixpoint walk (log : things) (l : list (K * option B)) : things * list (K * option B) * seen (option (K * B)) :=
      match l with
      | [] => (log, [], Seen None)
      | (k, Some b) :: l' => (log, l', Seen (Some (k, b)))
      | (k, None) :: l' =>
          match boom log (inl k) with
          | None => walk (log ++ [inl k]) l'
          | Some w => (log ++ [inl k], l', Caught w)
          end
      end.
    Definition next_entry (d : dir) (log : things) (l : list (K * option B)) : things * list (K * option B) * seen (option (K * B)) :=
      match d with
      | Front => walk log l
      | Back => let '(log', l', o) := walk log (rev l) in (log', rev l', o)
      end.
    (** [values()] and [values_mut()] destroy the keys of the entries, too. *)
    Definition next_value (d : dir) (log : things) (l : list (K * option B)) : things * list (K * option B) * seen (option B) :=
      let '(log', l', o) := next_entry d log l in
      match o with
      | Seen None => (log', l', Seen None)
      | Seen (Some (k, b)) => (log' ++ [inl k], l', match boom log' (inl k) with None => Seen (Some b) | Some w => Caught w end)
      | Caught w => (log', l', Caught w)
      end.
    (** Calls up to the first that panics. *)
    Fixpoint made_calls {A} (next : dir -> things -> list (K * option B) -> things * list (K * option B) * seen A)
        (sched : list dir) (log : things) (l : list (K * option B)) : list A * (things * list (K * option B)) * option panic :=
      match sched with
      | [] => ([], (log, l), None)
      | d :: ds =>
          let '(log', l', o) := next d log l in
          match o with
          | Seen x => let '(got, s, p) := made_calls next ds log' l' in (x :: got, s, p)
          | Caught w => ([], (log', l'), Some w)
          end
      end.
  End Walk.

  (** The destructor of a Drain over the slots [l]. *)
  Fixpoint emptied (log : things) (l : list (K * option V)) : things * list (K * option V) * option (seen unit) :=
    match l with
    | [] => (log, [], Some (Seen tt))
    | (k, None) :: l' =>
        match boom log (inl k) with
        | None => emptied (log ++ [inl k]) l'
        | Some w => (log ++ [inl k], l', Some (Caught w))
        end
    | (k, Some v) :: l' =>
        let '(log', e) := destroyed_all boom None log [inl k; inr v] in
        match e with
        | Some None => emptied log' l'
        | Some (Some w) => (log', l', Some (Caught w))
        | None => (log', l', None)
        end
    end.

  (** ** Maps *)
  Section Maps.
    Context (drops_result : bool) (eqd : forall a b : K, {a = b} + {a <> b}) (ks : list K).
    Notation state := (things * (list K * pmap K V))%type.
    Notation outcome := (state * option (seen (map_out K V)))%type.

    Definition slots_of (l : list K) (m : pmap K V) : list (K * option V) := map (fun k => (k, m k)) l.
    Definition values_in (o : option V) : things := match o with Some v => [inr v] | None => [] end.
    Definition keys_got {B} (got : list (option (K * B))) : things := map (fun p => inl (fst p)) (somes got).
    Definition pairs_got (got : list (option (K * V))) : things := flat_map (fun p => [inl (fst p); inr (snd p)]) (somes got).

    Definition ends {A} (s : list K * pmap K V) (x : things * A) : (things * (list K * pmap K V)) * A := ((fst x, s), snd x).
    (** The keys [l] are destroyed in order, then [o] is returned. *)
    Definition keys_end (l : list K) (log : things) (s : list K * pmap K V) (o : map_out K V) : outcome :=
      let '(log', p) := stops_at log (map inl l) in ((log', s), Some (shown o p)).

    (** The predicate destroys the key it is given at its end. *)
    Fixpoint retained (f : K -> V -> V * bool) (log : things) (l : list (K * option V)) (m : pmap K V) : things * pmap K V * option panic :=
      match l with
      | [] => (log, m, None)
      | (k, None) :: l' =>
          match boom log (inl k) with None => retained f (log ++ [inl k]) l' m | Some w => (log ++ [inl k], m, Some w) end
      | (k, Some v) :: l' =>
          let '(v', keep) := f k v in
          let log' := log ++ [inl k] in
          match boom log (inl k) with
          | Some w => (log', pm_set eqd m k (Some v'), Some w)
          | None =>
              if keep then retained f log' l' (pm_set eqd m k (Some v'))
              else match boom log' (inr v') with
                   | None => retained f (log' ++ [inr v']) l' (pm_set eqd m k None)
                   | Some w => (log' ++ [inr v'], pm_set eqd m k None, Some w)
                   end
          end
      end.

    (** What a Drain has left: the entries of [l]. *)
    Definition left_in (m : pmap K V) (l : list (K * option V)) : pmap K V := pm_restrict eqd m (map fst l).
    Definition drain_end (sched : list dir) (leak : bool) (log : things) (ks' : list K) (m : pmap K V) : outcome :=
      let '(got, (log1, l), p) := made_calls next_entry sched log (slots_of ks' m) in
      match p, leak with
      | None, true => ((log1, (ks', left_in m l)), Some (Seen (OutEntries got)))
      | _, _ =>
          let '(log2, l2, e) := emptied log1 l in
          let s := (ks', left_in m l2) in
          match p, e with
          | _, None => ((log2, s), None)
          | None, Some (Seen _) => ((log2, s), Some (Seen (OutEntries got)))
          | None, Some (Caught w) => ends s (all_lost w log2 (pairs_got got))
          | Some w, Some (Seen _) => ends s (all_lost w log2 (pairs_got got))
          | Some _, Some (Caught _) => ((log2, s), None)
          end
      end.

    (** A key without ordinal: [insert] and [entry] have got it and destroy it, the others were lent it. *)
    Definition no_ordinal (op : map_op K V) (w : panic) (st : state) : outcome :=
      let '(log, (ks', m)) := st in
      match op with
      | OpInsert k v => ends (ks, m) (all_lost w log [inr v; inl k])
      | OpEntryDrop k | OpEntryMatch k _ _ | OpEntryOrInsert k _ _ => ends (ks, m) (all_lost w log [inl k])
      | _ => (st, Some (Caught w))
      end.

    Definition has_ordinal (op : map_op K V) (st : state) : outcome :=
      let '(log, (ks', m)) := st in
      let '(o, m') := spec_step eqd ks op m in
      match op with
      (** The call takes effect before the key is destroyed. If that panics the old value is destroyed,
          too, or leaked if the compiler does not destroy results ([drops_result]). *)
      | OpInsert k v =>
          let log' := log ++ [inl k] in
          match boom log (inl k) with
          | None => ((log', (ks, m')), Some (Seen o))
          | Some w => ends (ks, m') (all_lost w log' (if drops_result then values_in (m k) else []))
          end
      | OpEntryDrop k => keys_end [k] log (ks, m) o
      (** The client takes the old value out, then the entry is destroyed. *)
      | OpEntryMatch k _ _ =>
          let log' := log ++ [inl k] in
          match boom log (inl k) with
          | None => ((log', (ks, m')), Some (Seen o))
          | Some w => ends (ks, m') (all_lost w log' (values_in (m k)))
          end
      (** [or_insert] destroys the key, then the value if it is not used. *)
      | OpEntryOrInsert k v _ =>
          if present m k then
            let '(log', e) := destroyed_all boom None log [inl k; inr v] in
            ((log', (ks, match e with Some None => m' | _ => m end)), opt_map (shown o) e)
          else
            let log' := log ++ [inl k] in
            match boom log (inl k) with
            | None => ((log', (ks, m')), Some (Seen o))
            | Some w => ((log', (ks, pm_set eqd m k (Some v))), Some (Caught w))
            end
      (** [len] and [{:?}] make and destroy the keys of all slots. *)
      | OpLen | OpDebug => keys_end ks' log (ks', m) o
      | OpIsEmpty =>
          let '(log', _, x) := next_value Front log (slots_of ks' m) in
          ((log', (ks', m)), Some (match x with Seen _ => Seen o | Caught w => Caught w end))
      | OpIter sched | OpKeys sched =>
          let '(got, (log', _), p) := made_calls next_entry sched log (slots_of ks' m) in
          match p with
          | None => ((log', (ks', m)), Some (Seen o))
          | Some w => ends (ks', m) (all_lost w log' (keys_got got))
          end
      | OpIterMut sched _ =>
          let '(got, (log', _), p) := made_calls next_entry sched log (slots_of ks' m) in
          match p with
          | None => ((log', (ks', m')), Some (Seen o))
          | Some w => ends (ks', m) (all_lost w log' (keys_got got))
          end
      | OpValues sched | OpValuesMut sched _ =>
          let '(_, (log', _), p) := made_calls next_value sched log (slots_of ks' m) in
          match p with
          | None => ((log', (ks', m')), Some (Seen o))
          | Some w => ((log', (ks', m)), Some (Caught w))
          end
      | OpClear => let '(log', s, x) := drain_end [] false log ks' m in
                   ((log', s), opt_map (fun y => match y with Seen _ => Seen o | Caught w => Caught w end) x)
      | OpDrain sched leak => drain_end sched leak log ks' m
      | OpRetain f => let '(log', m'', p) := retained f log (slots_of ks' m) m in ((log', (ks', m'')), Some (shown o p))
      | OpClone _ => let '(log', e) := destroyed_all boom None log (map inr (map snd (pm_entries ks m))) in
                     ((log', (ks', m')), opt_map (shown o) e)
      | OpGet _ | OpGetMut _ _ | OpContainsKey _ | OpRemove _ => ((log, (ks', m')), Some (Seen o))
      end.

    Definition key_life_step (O : Ordinal K) (op : map_op K V) (st : state) : outcome :=
      match key_panic O (map_key op) with Some w => no_ordinal op w st | None => has_ordinal op st end.
  End Maps.
End Keys.
