(** * SpecKeyEnds: total maps, collecting a map and taking a map apart, when destructors of keys and
    values panic.

    As in SpecKeyLife.v a log lists the keys ([inl]) and values ([inr]) whose destructors were started,
    [boom log x] says whether the destructor of [x] panics then, and [None] means that the process
    aborts. Nothing here refers to the implementation (ModelOrdinal.v is imported for Rust's [Result]). *)
From Verif Require Import Base Spec SpecMap SpecTotal SpecCatch SpecLifeRun SpecLifeEnds SpecKeyLife ModelOrdinal.
From Coq Require Import List. Import ListNotations.

Section Ends.
  Context {K V : Type} (boom : list (K + V) -> K + V -> option panic) (drops_result : bool).
  Notation things := (list (K + V)).

  (** ** Total maps *)
  Section Total.
    Context (eqd : forall a b : K, {a = b} + {a <> b}) (ks : list K) (O : Ordinal K).
    Notation state := (things * tmap K V)%type.

    Definition total_key_life_step (op : total_op K V) (s : state) : state * option (seen (total_out K V)) :=
      let '(log, m) := s in
      match key_panic O (total_key op) with
      | Some w =>
          match op with
          | TInsert k v => let '(log', x) := all_lost boom w log [inr v; inl k] in ((log', m), x)
          | _ => (s, Some (Caught w))
          end
      | None =>
          let '(o, m') := total_step eqd ks op m in
          match op with
          (** The key is destroyed after the call has taken effect, as in sparse maps. *)
          | TInsert k v =>
              let log' := log ++ [inl k] in
              match boom log (inl k) with
              | None => ((log', m'), Some (Seen o))
              | Some w => let '(log'', x) := all_lost boom w log' (if drops_result then [inr (m k)] else []) in ((log'', m'), x)
              end
          (** [{:?}] makes and destroys all keys. *)
          | TDebug_ => let '(log', p) := stops_at boom log (map inl ks) in ((log', m'), Some (shown o p))
          | TClone_ _ => let '(log', e) := destroyed_all boom None log (map inr (map m ks)) in ((log', m'), opt_map (shown o) e)
          (** Iterators give every key they make to the client. *)
          | _ => ((log, m'), Some (Seen o))
          end
      end.
  End Total.

  (** ** collect *)
  Section Collect.
    Context (O : Ordinal K) (eqd : forall a b : K, {a = b} + {a <> b}) (ks : list K).

    Definition pairs_in (l : list (K * V)) : things := flat_map (fun p => [inl (fst p); inr (snd p)]) l.
    Definition values_left (m : pmap K V) : things := map inr (map snd (pm_entries ks m)).
    (** The entries are inserted one after another; each call destroys its key, then a value that was replaced is
        destroyed. If anything panics, everything is destroyed: what was not inserted, or the replaced value
        unless the compiler leaks it, then the pairs not yet reached, then the values in the unfinished map. *)
    Fixpoint gathered (log : things) (l : list (K * V)) (m : pmap K V) : things * option (seen (pmap K V)) :=
      match l with
      | [] => (log, Some (Seen m))
      | (k, v) :: l' =>
          let m' := pm_set eqd m k (Some v) in
          let old := values_in (m k) in
          match key_panic O (Some k) with
          | Some w => all_lost boom w log ([inr v; inl k] ++ pairs_in l' ++ values_left m)
          | None =>
              match boom log (inl k) with
              | Some w => all_lost boom w (log ++ [inl k]) ((if drops_result then old else []) ++ pairs_in l' ++ values_left m')
              | None =>
                  let '(log', p) := stops_at boom (log ++ [inl k]) old in
                  match p with
                  | Some w => all_lost boom w log' (pairs_in l' ++ values_left m')
                  | None => gathered log' l' m'
                  end
              end
          end
      end.
  End Collect.

  (** ** into_iter: the items with their positions, as in SpecLifeEnds.v. *)
  Section Owned.
    Context {A : Type} (keep : A -> option V).
    Notation owned_state := (N * list (N * A))%type.

    (** A call that comes to the items in the order [l]; [keep] is the value in an item. The key of an
        item without value is destroyed. A value whose key cannot be made is destroyed. *)
    Fixpoint owned_key_walk (O : Ordinal K) (d : dir) (log : things) (lag : N) (l : list (N * A))
        : (things * owned_state) * option (seen (option (K * V))) :=
      match l with
      | [] => ((log, (lag, [])), Some (Seen None))
      | (p, a) :: l' =>
          match key_for O (p - lag) with
          | ResOk k =>
              match keep a with
              | Some v => ((log, (lag, l')), Some (Seen (Some (k, v))))
              | None =>
                  match boom log (inl k) with
                  | None => owned_key_walk O d (log ++ [inl k]) lag l'
                  | Some w => ((log ++ [inl k], (lag, l')), Some (Caught w))
                  end
              end
          | ResErr w =>
              let '(log', x) := all_lost boom w log (values_in (keep a)) in
              ((log', (match d with Front => lag + 1 | Back => lag end, l')), x)
          end
      end.
    Definition owned_key_spec (O : Ordinal K) (d : dir) (s : things * owned_state)
        : (things * owned_state) * option (seen (option (K * V))) :=
      let '(log, (lag, l)) := s in
      match d with
      | Front => owned_key_walk O d log lag l
      | Back => let '((log', (lag', l')), x) := owned_key_walk O d log lag (rev l) in ((log', (lag', rev l')), x)
      end.
    (** The iterator is destroyed with what is left. *)
    Definition rest_destroyed (log : things) (l : list (N * A)) : things * option (seen unit) :=
      let '(log', e) := destroyed_all boom None log (flat_map (fun x => values_in (keep (snd x))) l) in (log', opt_map (shown tt) e).
  End Owned.
End Ends.
