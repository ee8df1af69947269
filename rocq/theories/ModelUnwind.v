(** * ModelUnwind: IterMut after a caught panic, and Drain with its destructor when
    [from_ordinal] panics.

    As in ModelResume the user's [from_ordinal] is [from], with a state [U] of its own. *)
From Verif Require Import Base Spec ModelValues ModelIter ModelResume.
From Coq Require Import List. Import ListNotations.

Section Unwind.
  Context {cfg : Config} {U K V : Type} (from : U -> N -> U * res (option K)).

  (** map/iter.rs:90-95 and 107-112; the items are slots of the borrowed [storage]. *)
  Fixpoint iter_mut_resume (storage : list (option V)) (d : dir) (fuel : nat) (st : U * enumerate N)
      : (U * enumerate N) * res (option (K * N)) :=
    match fuel with
    | 0%nat => (st, OutOfFuel)
    | S fuel' =>
        let '(st', r) := enumerate_resume from d st in
        match r with
        | Val None => (st', Val None)
        | Val (Some (k, i)) =>
            match deref storage i with
            | Val (Some _) => (st', Val (Some (k, i)))
            | Val None => iter_mut_resume storage d fuel' st'
            | r => (st', r ;;; Val None)
            end
        | r => (st', r ;;; Val None)
        end
    end.
  Definition iter_mut_resume_step (storage : list (option V)) (d : dir) (st : U * enumerate N) :=
    iter_mut_resume storage d (S (length (e_items (snd st)))) st.

  (** map/iter.rs:278-282, [for _ in self {}]: the entries dropped one after another, and the
      state when the loop ends or a panic leaves it. *)
  Fixpoint drain_drop_loop (fuel : nat) (st : U * @Drain V) : list (K * V) * (U * @Drain V) * res unit :=
    match fuel with
    | 0%nat => ([], st, OutOfFuel)
    | S fuel' =>
        let '(st', r) := drain_resume_step from Front st in
        match r with
        | Val None => ([], st', Val tt)
        | Val (Some e) => let '(l, st'', r') := drain_drop_loop fuel' st' in (e :: l, st'', r')
        | r => ([], st', r ;;; Val tt)
        end
    end.
  Definition drain_drop_resume (st : U * @Drain V) :=
    drain_drop_loop (S (length (e_items (snd (snd st))))) st.

  (** Calls of [next] and [next_back] up to the first that panics. *)
  Fixpoint drain_calls (sched : list dir) (st : U * @Drain V)
      : list (option (K * V)) * (U * @Drain V) * res unit :=
    match sched with
    | [] => ([], st, Val tt)
    | d :: ds =>
        let '(st', r) := drain_resume_step from d st in
        match r with
        | Val o => let '(l, st'', r') := drain_calls ds st' in (o :: l, st'', r')
        | r => ([], st', r ;;; Val tt)
        end
    end.

  (** How a program with a Drain in a local variable ends.  The destructor runs in any case;
      if it panics while a panic is already unwinding the stack, the process is aborted
      (std's documentation of [Drop]). *)
  Inductive fate := Returned | Unwound (w : panic) | Aborted | Wrong.

  Definition drain_use (sched : list dir) (st : U * @Drain V)
      : list (option (K * V)) * list (K * V) * list (option V) * fate :=
    let '(got, st1, r) := drain_calls sched st in
    let '(dropped, (_, (storage, _)), r') := drain_drop_resume st1 in
    (got, dropped, storage,
     match r, r' with
     | Val _, Val _ => Returned
     | Val _, Panic w => Unwound w
     | Panic w, Val _ => Unwound w
     | Panic _, Panic _ => Aborted
     | _, _ => Wrong
     end).

  (** [let mut d = map.drain(); ...; drop(d)]: map/map.rs:136-138, map/array_map.rs:134-136. *)
  Definition drain_map (sched : list dir) (u : U) (storage : list (option V)) :=
    drain_use sched (u, Drain_new storage (TIterMut_new (slots (length storage)))).
  (** map/map.rs:142-144, map/array_map.rs:140-142 *)
  Definition clear_map (u : U) (storage : list (option V)) := drain_map [] u storage.
End Unwind.
