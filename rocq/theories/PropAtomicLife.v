(** * PropAtomicLife: C116 (properties.jsonl). [atomic_step], [returning], [arguments], [makes], [gets]: SpecAtomicLife.v. *)
From Verif Require Import Base Spec SpecAtomic SpecAtomicAny SpecCatch SpecLifeRun SpecLifeEnds SpecAtomicLife ModelAtomic ModelCatch ModelLife ModelAtomicLife
  AtomicLifeProofs.
From Coq Require Import List. Import ListNotations.

(** One call that finds the number [i]: what it destroys, what it writes, and how it ends. *)
Theorem C116_call : forall (T : Type) (boom : list T -> T -> option panic) (shows : T -> option panic) (O : Ordinal T)
  (drops_result : bool) (c : call T) (log : list T) (i : N), answers O ->
  let '(s', x) := atomic_step boom drops_result shows O c (log, i) in
  call_owned boom drops_result shows O c (log, i) =
    (s', match x with Some (Seen o) => Ended o | Some (Caught w) => Unwinds w | None => Aborts end).
Proof. exact @call_exact. Qed.
Print Assumptions C116_call.

Theorem C116_new : forall (T : Type) (boom : list T -> T -> option panic) (O : Ordinal T) (t : T) (log : list T), answers O ->
  let '(log', x) := match ordinal O t with
                    | Val i => returning boom log [t] [] i
                    | Panic w => lost boom w log [t]
                    | _ => (log, None)
                    end in
  new_owned boom O t (log, tt) = ((log', tt), match x with Some (Seen i) => Ended i | Some (Caught w) => Unwinds w | None => Aborts end).
Proof. exact @new_exact. Qed.
Print Assumptions C116_new.

(** A thread that catches panics and goes on, while others change the number between its calls. *)
Theorem C116_program : forall (T : Type) (boom : list T -> T -> option panic) (drops_result : bool) (shows : T -> option panic) (O : Ordinal T)
  (turns : list (option N * call T)), answers O -> forall s : list T * N,
  catch_run (turn_owned boom drops_result shows O) turns s = life_run (atomic_turn boom drops_result shows O) turns s.
Proof. exact @turns_are. Qed.
Print Assumptions C116_program.

(** The number does not depend on destructors or [Debug], not even if they abort the process. *)
Theorem C116_number : forall (T : Type) (boom : list T -> T -> option panic) (shows : T -> option panic) (O : Ordinal T)
  (drops_result : bool) (c : call T) (log : list T) (i : N), answers O ->
  snd (fst (call_owned boom drops_result shows O c (log, i))) = match before O c, snd (effect O c i) with None, Some j => j | _, _ => i end.
Proof. exact @number_is. Qed.
Print Assumptions C116_number.

(** Every value given to a call or made by it is destroyed once or returned. *)
Theorem C116_nothing_lost : forall (T : Type) (boom : list T -> T -> option panic) (shows : T -> option panic) (O : Ordinal T)
  (c : call T) (log log' : list T) (i i' : N) (e : ending (out T)), answers O ->
  call_owned boom true shows O c (log, i) = ((log', i'), e) -> e <> Aborts ->
  log' ++ match e with Ended o => gets c o | _ => [] end = log ++ arguments c ++ makes O c i.
Proof. exact @account. Qed.
Print Assumptions C116_nothing_lost.

(** ** Cases: values are their numbers, 3 has none and cannot be made, the destructor of 1 panics, that of 2 only if
    something was destroyed before, and 4 cannot be shown. *)
Definition numbers : Ordinal N := {|
  ORDINAL_SIZE := Val 10;
  ordinal := fun t => if t =? 3 then Panic PAssert else Val t;
  from_ordinal := fun i => if i =? 3 then Panic PUser else if i <? 10 then Val (Some i) else Val None |}.
Definition one_or_two (log : list N) (t : N) : option panic :=
  if t =? 1 then Some PDivZero else if t =? 2 then match log with [] => None | _ => Some PIndex end else None.
Definition not_four (t : N) : option panic := if t =? 4 then Some PUnwrap else None.
Example C116_hypothesis : answers numbers.
Proof.
  split; intros i; cbn; destruct (i =? 3); try exact I. destruct (i <? 10); exact I.
Qed.
(** The values stored are there though their destructors panic; an exchange that cannot make what it found has exchanged. *)
Example C116_call_case :
  let run d c i := call_owned one_or_two d not_four numbers c ([], i) in
  run true (CStore 5 Release) 0 = (([5], 5), Ended OUnit) /\
  run true (CStore 1 Release) 0 = (([1], 1), Unwinds PDivZero) /\
  run true (CStore 3 Acquire) 0 = (([3], 0), Unwinds PAssert) /\
  run true (CStore 1 Acquire) 0 = (([1], 0), Aborts) /\
  run true (CLoad Acquire) 7 = (([], 7), Ended (OVal 7)) /\
  run true (CLoad Acquire) 10 = (([], 10), Unwinds PUnwrap) /\
  run true (CCas 0 5 SeqCst Relaxed) 0 = (([5; 0], 5), Ended (OOk 0)) /\
  run true (CCas 0 5 SeqCst Relaxed) 6 = (([5; 0], 6), Ended (OErr 6)) /\
  run true (CCas 0 1 SeqCst Relaxed) 0 = (([1; 0; 0], 1), Unwinds PDivZero) /\
  run false (CCas 0 1 SeqCst Relaxed) 0 = (([1; 0], 1), Unwinds PDivZero) /\
  run true (CCas 2 1 SeqCst Relaxed) 0 = (([1; 2], 0), Aborts) /\
  run true (CCas 2 5 SeqCst Relaxed) 2 = (([5; 2; 2], 5), Aborts) /\
  run false (CCas 2 5 SeqCst Relaxed) 2 = (([5; 2], 5), Unwinds PIndex) /\
  run true (CCas 10 5 SeqCst Relaxed) 10 = (([5; 10], 5), Unwinds PUnwrap) /\
  run true (CCas 3 5 SeqCst Relaxed) 3 = (([5; 3], 3), Unwinds PAssert) /\
  run true CDebug 7 = (([7], 7), Ended (OVal 7)) /\
  run true CDebug 4 = (([4], 4), Unwinds PUnwrap) /\
  run true CDebug 1 = (([1], 1), Unwinds PDivZero).
Proof. vm_compute; repeat split. Qed.
Example C116_spec_case :
  atomic_step one_or_two true not_four numbers (CCas 0 1 SeqCst Relaxed) ([], 0) = (([1; 0; 0], 1), Some (Caught PDivZero)) /\
  atomic_step one_or_two true not_four numbers (CCas 2 5 SeqCst Relaxed) ([], 2) = (([5; 2; 2], 5), None) /\
  arguments (CCas 0 1 SeqCst Relaxed) = [1; 0] /\ makes numbers (CCas 0 1 SeqCst Relaxed) 0 = [0] /\
  before numbers (CStore 3 Acquire) = Some PAssert /\ before numbers (CCas 0 1 SeqCst AcqRel) = Some POrdering.
Proof. vm_compute; repeat split. Qed.
Example C116_new_case :
  new_owned one_or_two numbers 5 ([], tt) = (([5], tt), Ended 5) /\ new_owned one_or_two numbers 3 ([], tt) = (([3], tt), Unwinds PAssert) /\
  new_owned one_or_two numbers 2 ([0], tt) = (([0; 2], tt), Unwinds PIndex).
Proof. vm_compute; repeat split. Qed.
Example C116_program_case :
  catch_run (turn_owned one_or_two true not_four numbers)
    [(None, CStore 1 Relaxed); (None, CCas 1 8 SeqCst SeqCst); (Some 4, CCas 4 6 SeqCst SeqCst); (None, CLoad Release); (None, CDebug)] ([], 0) =
  None /\
  catch_run (turn_owned one_or_two true not_four numbers)
    [(None, CStore 1 Relaxed); (None, CLoad SeqCst); (Some 4, CCas 4 6 SeqCst SeqCst); (None, CLoad Release); (None, CDebug)] ([], 0) =
  Some ([Caught PDivZero; Seen (OVal 1); Seen (OOk 4); Caught POrdering; Seen (OVal 6)], ([1; 6; 4; 6], 6)).
Proof. vm_compute; repeat split. Qed.
