(** * ModelSetLife: who destroys the elements, when their destructors may panic.

    As ModelKeyLife.v, for the sets: the log lists the elements whose destructors have been started. *)
From Verif Require Import Base Spec SpecMap SpecSet SpecResume ModelOrdinal ModelValues ModelArrayBuilder ModelIter ModelSet
  ModelResume SetMachine ModelCatch ModelLife.
From Coq Require Import List. Import ListNotations.

Section SetLife.
  Context {T : Type} (boom : list T -> T -> option panic).
  Context {cfg : Config} (O : Ordinal T).
  Local Notation log := (list T).
  Local Notation out := (set_out T).

  (** ** Iterators *)

  (** [self.iter.next()] of set/iter.rs:29 and [next_back] of 46 *)
  Definition elements_act (d : dir) : act SetIter (option T) :=
    fun it => let '((_, v), r) := values_resume (pure_from O) d (tt, si_iter it) in
              ({| si_iter := v; si_set := si_set it |}, ending_of r).
  (** set/iter.rs:27-34 and 44-51: [next] is destroyed at the end of the body of the loop. *)
  Fixpoint elements_loop (d : dir) (fuel : nat) : act (log * SetIter) (option T) :=
    match fuel with
    | 0%nat => fun s => (s, Stuck)
    | S fuel' =>
        r <! calm (elements_act d) ;;
        match r with
        | None => ret None
        | Some t =>
            b <! owning boom [t] (calm (look (fun it => OrdinalSetRef_contains O (si_set it) t))) ;;
            if (b : bool) then ret (Some t) else destroy boom t ;;! elements_loop d fuel'
        end
    end.
  Definition elements_next (d : dir) : act (log * SetIter) (option T) :=
    fun s => elements_loop d (S (N.to_nat (range_len (si_iter (snd s))))) s.
  (** set/set64.rs:20-28 and 46-50 *)
  Definition members_next (d : dir) : act (log * Iter64) (option T) :=
    calm (fun it => let '((_, it'), r) := iter64_resume (pure_from O) d (tt, it) in (it', ending_of r)).

  (** A client calls [next] and [next_back] up to the first call that panics, and keeps the results in
      a vector. *)
  Fixpoint client_calls {It} (next : dir -> act (log * It) (option T)) (sched : list dir) (got : list (option T))
      : act (log * It) out :=
    match sched with
    | [] => ret (SItems got)
    | d :: ds => o <! owning boom (somes got) (next d) ;; client_calls next ds (got ++ [o])
    end.
  (** [DebugSet::entries] of std: [for entry in entries { self.entry(&entry); }] *)
  Fixpoint print_all {It} (next : act (log * It) (option T)) (fuel : nat) (l : list T) : act (log * It) out :=
    match fuel with
    | 0%nat => fun s => (s, Stuck)
    | S fuel' =>
        o <! next ;;
        match o with
        | None => ret (SElems l)
        | Some t => destroy boom t ;;! print_all next fuel' (l ++ [t])
        end
    end.
  (** An iterator made from the set and used in one expression. *)
  Definition made_from {It M A} (make : M -> res It) (x : It -> act (log * It) A) : act (log * M) A :=
    it <! calm (look make) ;;
    fun '(l, m) => let '((l', _), e) := x it (l, it) in ((l', m), e).
  (** set/set_ref.rs:55-57 *)
  Definition debug_elements {M} (iter : M -> res SetIter) : act (log * M) out :=
    made_from iter (fun it => print_all (elements_next Front) (S (N.to_nat (range_len (si_iter it)))) []).

  (** ** Functions with an element as argument *)

  (** set/set.rs:64-80, set/array.rs:71-73, set/set64.rs:110-115: the element is destroyed at the end. *)
  Definition insert_element {M} (insert : act M bool) (t : T) : act (log * M) bool :=
    b <! owning boom [t] (calm insert) ;; destroy boom t ;;! ret b.
  (** The [for] loops of set/set.rs:98-100, set/array.rs:89-91 and set/set64.rs:144-146 over a vector,
      which owns the elements not reached yet. *)
  Fixpoint collect_elements {M A} (body : T -> act (log * M) A) (l : list T) : act (log * M) unit :=
    match l with
    | [] => ret tt
    | t :: l' => owning boom l' (body t) ;;! collect_elements body l'
    end.
  (** set/set.rs:96-102, set/array.rs:87-93, set/set64.rs:142-148, and the assignment of the result *)
  Definition assign_collected {M A} (new : res M) (body : T -> act (log * M) A) (l : list T) : act (log * M) out :=
    s0 <! owning boom l (calm (look (fun _ => new))) ;;
    fun '(lg, m) => let '((lg', s), e) := collect_elements body l (lg, s0) in
                    match e with
                    | Ended _ => ((lg', s), Ended SUnit_)
                    | Unwinds w => ((lg', m), Unwinds w)
                    | Aborts => ((lg', m), Aborts)
                    | Stuck => ((lg', m), Stuck)
                    end.

  (** ** The three sets. Functions that are lent an element destroy nothing: they are in ModelCatch.v. *)
  Definition set_life (op : set_op T) : act (log * OrdinalSet) out :=
    match op with
    | SInsert t => b <! insert_element (OrdinalSet_insert_act O t) t ;; ret (SBool b)
    | SIter sched => made_from (OrdinalSet_iter O) (fun _ => client_calls elements_next sched [])
    | SDebug => debug_elements (OrdinalSet_iter O)
    | SFromIter l => assign_collected (OrdinalSet_new O) (fun t => insert_element (OrdinalSet_insert_act O t) t) l
    | SContains _ | SClone => calm (set_act O op)
    end.
  Definition array_set_life {S : nat} (op : set_op T) : act (log * OrdinalArraySet S) out :=
    match op with
    | SInsert t => b <! insert_element (OrdinalArraySet_insert_act O t) t ;; ret (SBool b)
    | SDebug => debug_elements (fun s => r <- OrdinalArraySet_as_ref O s ;; OrdinalSetRef_iter O r)
    | SFromIter l => assign_collected (OrdinalArraySet_new O S) (fun t => insert_element (OrdinalArraySet_insert_act O t) t) l
    | SIter _ | SContains _ | SClone => calm (array_set_act O op)
    end.
  (** set/set64.rs:145 *)
  Definition or_element (t : T) : act OrdinalSet64 bool :=
    i <! look (fun _ => ordinal O t) ;;
    b <! look (fun _ => u64_shl 1 i) ;;
    s <! look (fun s => Val s) ;;
    put (N.lor s b) ;;!
    ret true.
  Definition set64_life (op : set_op T) : act (log * OrdinalSet64) out :=
    match op with
    | SInsert t => b <! insert_element (OrdinalSet64_insert_act O t) t ;; ret (SBool b)
    | SIter sched => made_from (OrdinalSet64_iter O) (fun _ => client_calls members_next sched [])
    | SDebug => debug_elements (fun s => r <- OrdinalSet64_as_ref O s ;; OrdinalSetRef_iter O r)
    | SFromIter l => assign_collected (OrdinalSet64_new O) (fun t => insert_element (or_element t) t) l
    | SContains _ | SClone => calm (set64_act O op)
    end.
End SetLife.
