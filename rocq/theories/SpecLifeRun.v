(** * SpecLifeRun: what programs observe when destructors of values panic and every call is made
    inside [catch_unwind].

    The state is the list of the values whose destructors were started, and the contents of the
    map. [boom log v] says whether the destructor of [v] panics after those of [log] were
    started. A result [None] means that the process aborts. Nothing here refers to the
    implementation. *)
From Verif Require Import Base Spec SpecMap SpecTotal SpecCatch.
From Coq Require Import List. Import ListNotations.

Section Destructors.
  Context {V : Type} (boom : list V -> V -> option panic).

  (** The destructors of [l] are started in order up to the first that panics; what remains is
      not touched. *)
  Fixpoint destroyed_until {K} (log : list V) (l : list (K * V)) : list V * list (K * V) * option panic :=
    match l with
    | [] => (log, [], None)
    | (_, v) :: l' => match boom log v with
                      | None => destroyed_until (log ++ [v]) l'
                      | Some w => (log ++ [v], l', Some w)
                      end
    end.
  (** All destructors are started; the second panic aborts. [p]: the panic under way. *)
  Fixpoint destroyed_all (p : option panic) (log vs : list V) : list V * option (option panic) :=
    match vs with
    | [] => (log, Some p)
    | v :: vs' => match boom log v, p with
                  | None, _ => destroyed_all p (log ++ [v]) vs'
                  | Some w, None => destroyed_all (Some w) (log ++ [v]) vs'
                  | Some _, Some _ => (log ++ [v], None)
                  end
    end.
  Definition shown {A} (o : A) (p : option panic) : seen A :=
    match p with None => Seen o | Some w => Caught w end.

  (** [ordinal] panics on the key. *)
  Definition key_panic {K} (O : Ordinal K) (key : option K) : option panic :=
    match key with
    | Some k => match ordinal O k with Panic w => Some w | _ => None end
    | None => None
    end.

  Section Maps.
    Context {K : Type} (eqd : forall a b : K, {a = b} + {a <> b}) (ks : list K).
    Notation state := (list V * pmap K V)%type.

    (** [retain]: a rejected entry leaves the map even if its destructor panics. *)
    Fixpoint retain_until (f : K -> V -> V * bool) (log : list V) (l : list (K * V)) (m : pmap K V)
        : list V * pmap K V * option panic :=
      match l with
      | [] => (log, m, None)
      | (k, v) :: l' =>
          let '(v', keep) := f k v in
          if keep then retain_until f log l' (pm_set eqd m k (Some v'))
          else match boom log v' with
               | None => retain_until f (log ++ [v']) l' (pm_set eqd m k None)
               | Some w => (log ++ [v'], pm_set eqd m k None, Some w)
               end
      end.

    (** A call whose key has no ordinal changes nothing; the value of [insert] is destroyed. *)
    Definition no_key_step (op : map_op K V) (w : panic) (s : state) : state * option (seen (map_out K V)) :=
      let '(log, m) := s in
      match op with
      | OpInsert _ v => let '(log', e) := destroyed_all (Some w) log [v] in ((log', m), opt_map (fun _ => Caught w) e)
      | _ => ((log, m), Some (Caught w))
      end.
    Definition key_step (op : map_op K V) (s : state) : state * option (seen (map_out K V)) :=
      let '(log, m) := s in
      let '(o, m') := spec_step eqd ks op m in
      match op with
      | OpEntryOrInsert k v _ =>
          if present m k then
            match boom log v with
            | None => ((log ++ [v], m'), Some (Seen o))
            | Some w => ((log ++ [v], m), Some (Caught w))
            end
          else ((log, m'), Some (Seen o))
      (** The entries not reached stay in the map. *)
      | OpClear =>
          let '(log', rest, p) := destroyed_until log (pm_entries ks m) in
          ((log', pm_restrict eqd m (map fst rest)), Some (shown o p))
      (** What the client has taken is destroyed too if the destructor of the Drain panics. *)
      | OpDrain sched false =>
          let '(got, rest) := deque_run sched (pm_entries ks m) in
          let '(log', rest', p) := destroyed_until log rest in
          let m'' := pm_restrict eqd m (map fst rest') in
          match p with
          | None => ((log', m''), Some (Seen o))
          | Some w => let '(log'', e) := destroyed_all (Some w) log' (map snd (somes got)) in
                      ((log'', m''), opt_map (fun _ => Caught w) e)
          end
      | OpRetain f => let '(log', m'', p) := retain_until f log (pm_entries ks m) m in ((log', m''), Some (shown o p))
      (** The clone is there whatever happens to the old values. *)
      | OpClone _ => let '(log', e) := destroyed_all None log (map snd (pm_entries ks m)) in ((log', m'), opt_map (shown o) e)
      | _ => ((log, m'), Some (Seen o))
      end.
    Definition life_step (O : Ordinal K) (op : map_op K V) (s : state) : state * option (seen (map_out K V)) :=
      match key_panic O (map_key op) with Some w => no_key_step op w s | None => key_step op s end.

    Definition total_life_step (O : Ordinal K) (op : total_op K V) (s : list V * tmap K V)
        : (list V * tmap K V) * option (seen (total_out K V)) :=
      let '(log, m) := s in
      match key_panic O (total_key op) with
      | Some w =>
          match op with
          | TInsert _ v => let '(log', e) := destroyed_all (Some w) log [v] in ((log', m), opt_map (fun _ => Caught w) e)
          | _ => ((log, m), Some (Caught w))
          end
      | None =>
          let '(o, m') := total_step eqd ks op m in
          match op with
          | TClone_ _ => let '(log', e) := destroyed_all None log (map m ks) in ((log', m'), opt_map (shown o) e)
          | _ => ((log, m'), Some (Seen o))
          end
      end.
  End Maps.
End Destructors.

(** A program; [None] if a call aborts the process. *)
Fixpoint life_run {Op S Out} (step : Op -> S -> S * option (seen Out)) (ops : list Op) (s : S) : option (list (seen Out) * S) :=
  match ops with
  | [] => Some ([], s)
  | op :: ops' =>
      match step op s with
      | (_, None) => None
      | (s', Some o) => opt_map (fun '(os, s'') => (o :: os, s'')) (life_run step ops' s')
      end
  end.
