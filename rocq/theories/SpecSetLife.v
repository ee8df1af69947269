(** * SpecSetLife: what programs observe of sets when the destructors of the elements panic and every
    call is made inside [catch_unwind].

    The log lists the elements whose destructors were started; [boom log t] says whether the destructor
    of [t] panics then. A result [None] means that the process aborts. Nothing here refers to the
    implementation. A set holds no elements: they are made when they are looked at. *)
From Verif Require Import Base Spec SpecMap SpecSet SpecCatch SpecLifeRun.
From Coq Require Import List. Import ListNotations.

Section Sets.
  Context {T : Type} (boom : list T -> T -> option panic).
  Context (eqd : forall a b : T, {a = b} + {a <> b}) (ks : list T).

  (** All of [ts] are destroyed while [w] unwinds the stack. *)
  Definition lost_elements {A} (w : panic) (log ts : list T) : list T * option (seen A) :=
    let '(log', e) := destroyed_all boom (Some w) log ts in (log', opt_map (fun _ => Caught w) e).
  Definition with_set {A} (m : mset T) (x : list T * A) : (list T * mset T) * A := ((fst x, m), snd x).

  Section Call.
    Context (O : Ordinal T).
    Definition elem_panic (t : T) : option panic := key_panic O (Some t).

    (** An iterator that looks at the elements [l] in order, those that are not in the set included: it
        makes each, asks for its ordinal, and destroys it if nobody gets it. *)
    Fixpoint passes (m : mset T) (log : list T) (l : list T) : list T * list T * option (seen (option T)) :=
      match l with
      | [] => (log, [], Some (Seen None))
      | t :: l' =>
          match elem_panic t with
          | Some w => let '(log', e) := lost_elements w log [t] in (log', l', e)
          | None =>
              if m t then (log, l', Some (Seen (Some t)))
              else match boom log t with
                   | None => passes m (log ++ [t]) l'
                   | Some w => (log ++ [t], l', Some (Caught w))
                   end
          end
      end.
    Definition next_passed (m : mset T) (d : dir) (log l : list T) : list T * list T * option (seen (option T)) :=
      match d with
      | Front => passes m log l
      | Back => let '(log', l', o) := passes m log (rev l) in (log', rev l', o)
      end.
    (** An iterator over the members alone. *)
    Definition next_member (d : dir) (log l : list T) : list T * list T * option (seen (option T)) :=
      let '(o, l') := deque_step d l in (log, l', Some (Seen o)).
    (** Calls up to the first that panics, which destroys what the client has got. *)
    Fixpoint asked (next : dir -> list T -> list T -> list T * list T * option (seen (option T)))
        (sched : list dir) (got : list (option T)) (log l : list T) : list T * option (seen (set_out T)) :=
      match sched with
      | [] => (log, Some (Seen (SItems got)))
      | d :: ds =>
          let '(log', l', o) := next d log l in
          match o with
          | Some (Seen x) => asked next ds (got ++ [x]) log' l'
          | Some (Caught w) => lost_elements w log' (somes got)
          | None => (log', None)
          end
      end.
    (** [{:?}] makes and destroys every element, members or not. *)
    Fixpoint printed (o : set_out T) (log l : list T) : list T * option (seen (set_out T)) :=
      match l with
      | [] => (log, Some (Seen o))
      | t :: l' =>
          match elem_panic t, boom log t with
          | Some w, _ => lost_elements w log [t]
          | None, None => printed o (log ++ [t]) l'
          | None, Some w => (log ++ [t], Some (Caught w))
          end
      end.
    (** Collecting destroys each element once its ordinal is known; after a panic, the rest. *)
    Fixpoint collected (log l : list T) : list T * option (seen (set_out T)) :=
      match l with
      | [] => (log, Some (Seen SUnit_))
      | t :: l' =>
          match elem_panic t, boom log t with
          | Some w, _ => lost_elements w log (t :: l')
          | None, None => collected (log ++ [t]) l'
          | None, Some w => lost_elements w (log ++ [t]) l'
          end
      end.

    (** [scans]: whether [iter] looks at all elements (OrdinalSet) or at the members (OrdinalSet64). *)
    Definition set_life_step (scans : bool) (op : set_op T) (st : list T * mset T)
        : (list T * mset T) * option (seen (set_out T)) :=
      let '(log, m) := st in
      let '(o, m') := sspec_step eqd ks op m in
      match op with
      (** The element is in the set before its destructor runs. *)
      | SInsert t =>
          match elem_panic t with
          | Some w => with_set m (lost_elements w log [t])
          | None => ((log ++ [t], m'), Some (shown o (boom log t)))
          end
      | SContains t => (st, Some (shown o (elem_panic t)))
      | SIter sched =>
          with_set m (if scans then asked (next_passed m) sched [] log ks else asked next_member sched [] log (members ks m))
      | SDebug => with_set m (printed o log ks)
      (** The old set is replaced only if collecting succeeds. *)
      | SFromIter l => let '(log', e) := collected log l in ((log', match e with Some (Seen _) => m' | _ => m end), e)
      | SClone => (st, Some (Seen o))
      end.
  End Call.
End Sets.
