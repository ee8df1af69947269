(** * SpecAtomicLife: calls of an AtomicOrdinal with values that have destructors.

    A log lists the values whose destructors were started, and [boom log t] says whether that of [t] panics
    then; [shows t] says whether [Debug] of [t] panics. [None] means that the process aborts. What is shared is
    one number. Nothing here refers to the implementation. *)
From Verif Require Import Base Spec SpecAtomic SpecAtomicAny SpecCatch SpecLifeRun SpecLifeEnds.
From Coq Require Import List. Import ListNotations.

Section AtomicLife.
  Context {T : Type} (boom : list T -> T -> option panic) (drops_result : bool) (shows : T -> option panic) (O : Ordinal T).
  Notation state := (list T * N)%type.

  (** A panic before the number is looked at: of [ordinal], or for an ordering that is not allowed. *)
  Definition no_number (t : T) : option panic := match ordinal O t with Panic w => Some w | _ => None end.
  Definition first_of (a b : option panic) : option panic := match a with Some w => Some w | None => b end.
  Definition before (c : call T) : option panic :=
    let wrong := if legal c then None else Some POrdering in
    match c with
    | CStore t _ => first_of (no_number t) wrong
    | CCas old new _ _ => first_of (no_number old) (first_of (no_number new) wrong)
    | _ => wrong
    end.

  (** What a call owns, in the order in which it is destroyed, and what it returns. *)
  Definition arguments (c : call T) : list T :=
    match c with CStore t _ => [t] | CCas old new _ _ => [new; old] | _ => [] end.
  Definition results (o : out T) : list T :=
    match o with OVal t | OOk t | OErr t => [t] | OUnit => [] end.

  (** Returning [a]: [ts] are destroyed. If one panics, the others and [rs] are destroyed while unwinding. *)
  Fixpoint returning {A} (log ts rs : list T) (a : A) : list T * option (seen A) :=
    match ts with
    | [] => (log, Some (Seen a))
    | t :: ts' => match boom log t with
                  | None => returning (log ++ [t]) ts' rs a
                  | Some w => lost boom w (log ++ [t]) (ts' ++ rs)
                  end
    end.

  (** A call that finds the number [i]. [{:?}] destroys the value after it is shown. *)
  Definition atomic_step (c : call T) (s : state) : state * option (seen (out T)) :=
    let '(log, i) := s in
    let at_ j (p : list T * option (seen (out T))) := ((fst p, j), snd p) in
    match before c with
    | Some w => at_ i (lost boom w log (arguments c))
    | None =>
        let '(x, written) := effect O c i in
        at_ (match written with Some j => j | None => i end)
          (match x with
           | inr w => lost boom w log (arguments c)
           | inl o =>
               match c with
               | CDebug => match o with
                           | OVal t => match shows t with
                                       | Some w => lost boom w log [t]
                                       | None => returning log [t] [] o
                                       end
                           | _ => (log, Some (Seen o))
                           end
               | _ => returning log (arguments c) (if drops_result then results o else []) o
               end
           end)
    end.

  (** The values that a call makes, and those its caller gets. *)
  Definition makes (c : call T) (i : N) : list T :=
    match before c, fst (effect O c i) with None, inl o => results o | _, _ => [] end.
  Definition gets (c : call T) (o : out T) : list T := match c with CDebug => [] | _ => results o end.

  (** A thread makes calls inside [catch_unwind]; before a call others may have changed the number. *)
  Definition atomic_turn (t : option N * call T) (s : state) : state * option (seen (out T)) :=
    atomic_step (snd t) (match fst t with Some j => (fst s, j) | None => s end).
End AtomicLife.
