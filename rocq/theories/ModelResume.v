(** * ModelResume: the iterators when a call of [next] or [next_back] panics and the panic
    is caught.

    The other model files give no state after a panic.  Here a step returns the state in
    every case, so that the iterator can be used again after [catch_unwind].  User code is
    [from], the [from_ordinal] of the key type: it has a state [U] of its own, so it may
    for example fail once and work later. *)
From Verif Require Import Base Spec ModelValues ModelIter ModelSet.
From Coq Require Import List. Import ListNotations.

Section Resume.
  Context {cfg : Config} {U T : Type} (from : U -> N -> U * res (option T)).

  (** [T::from_ordinal(i).unwrap()] *)
  Definition ask (u : U) (i : N) : U * res T :=
    let '(u', r) := from u i in (u', o <- r ;; unwrap o).

  (** values.rs:40-43 and 76-79: the range has moved on before [from_ordinal] is called. *)
  Definition values_resume (d : dir) (st : U * OrdinalValues) : (U * OrdinalValues) * res (option T) :=
    let '(u, s) := st in
    match (match d with Front => range_next s | Back => range_next_back s end) with
    | None => ((u, s), Val None)
    | Some (i, s') => let '(u', r) := ask u i in ((u', s'), t <- r ;; Val (Some t))
    end.

  (** set/set64.rs:20-28 and 46-50: the bit is cleared before [from_ordinal] is called. (The
      shift does not fail: its amount is below 64.) *)
  Definition iter64_resume (d : dir) (st : U * Iter64) : (U * Iter64) * res (option T) :=
    let '(u, s) := st in
    match (match d with
           | Front => if trailing_zeros s =? 64 then None else Some (trailing_zeros s)
           | Back => checked_sub (64 - 1) (leading_zeros s)
           end) with
    | None => ((u, s), Val None)
    | Some i =>
        match u64_shl 1 i with
        | Val b => let '(u', r) := ask u i in ((u', N.land s (u64_not b)), t <- r ;; Val (Some t))
        | r => ((u, s), r ;;; Val None)
        end
    end.

  (** map/enumerate.rs:25-30: the wrapped iterator has moved on, [self.next] has not. *)
  Definition enumerate_resume_next {A} (st : U * enumerate A) : (U * enumerate A) * res (option (T * A)) :=
    let '(u, s) := st in
    match pop_front (e_items s) with
    | None => ((u, s), Val None)
    | Some (v, rest) =>
        let '(u', r) := ask u (e_next s) in
        match r with
        | Val k =>
            match uadd (e_next s) 1 with
            | Val next => ((u', {| e_next := next; e_items := rest |}), Val (Some (k, v)))
            | r => ((u', {| e_next := e_next s; e_items := rest |}), r ;;; Val None)
            end
        | r => ((u', {| e_next := e_next s; e_items := rest |}), r ;;; Val None)
        end
    end.

  (** map/enumerate.rs:49-53 *)
  Definition enumerate_resume_back {A} (st : U * enumerate A) : (U * enumerate A) * res (option (T * A)) :=
    let '(u, s) := st in
    match pop_back (e_items s) with
    | None => ((u, s), Val None)
    | Some (v, rest) =>
        match uadd (e_next s) (llen rest) with
        | Val i =>
            let '(u', r) := ask u i in
            ((u', {| e_next := e_next s; e_items := rest |}), k <- r ;; Val (Some (k, v)))
        | r => ((u, {| e_next := e_next s; e_items := rest |}), r ;;; Val None)
        end
    end.

  Definition enumerate_resume {A} (d : dir) (st : U * enumerate A) : (U * enumerate A) * res (option (T * A)) :=
    match d with Front => enumerate_resume_next st | Back => enumerate_resume_back st end.

  (** The loops of map/iter.rs:27-32, 44-49 (and the other places listed at [sparse_loop])
      over the [Option<V>] slots. *)
  Fixpoint sparse_resume {V} (d : dir) (fuel : nat) (st : U * enumerate (option V))
      : (U * enumerate (option V)) * res (option (T * V)) :=
    match fuel with
    | 0%nat => (st, OutOfFuel)
    | S fuel' =>
        let '(st', r) := enumerate_resume d st in
        match r with
        | Val None => (st', Val None)
        | Val (Some (k, Some v)) => (st', Val (Some (k, v)))
        | Val (Some (_, None)) => sparse_resume d fuel' st'
        | r => (st', r ;;; Val None)
        end
    end.
  Definition sparse_resume_step {V} (d : dir) (st : U * enumerate (option V)) :=
    sparse_resume d (S (length (e_items (snd st)))) st.
End Resume.

(** A schedule of calls, each inside its own [catch_unwind]. *)
Fixpoint run_caught {St A} (step : dir -> St -> St * res A) (sched : list dir) (s : St) : list (res A) * St :=
  match sched with
  | [] => ([], s)
  | d :: ds =>
      let '(s1, r) := step d s in
      let '(rs, s2) := run_caught step ds s1 in (r :: rs, s2)
  end.

(** The [from_ordinal] of an impl, as user code without a state. *)
Definition pure_from {T} (O : Ordinal T) (u : unit) (i : N) : unit * res (option T) := (u, from_ordinal O i).

Section ResumeMore.
  Context {cfg : Config} {U T : Type} (from : U -> N -> U * res (option T)).

  (** set/iter.rs:27-34 and 44-51; [contains] is [self.set.contains], which runs the user's
      [ordinal] and may panic as well. *)
  Fixpoint set_resume (contains : T -> res bool) (d : dir) (fuel : nat) (st : U * OrdinalValues)
      : (U * OrdinalValues) * res (option T) :=
    match fuel with
    | 0%nat => (st, OutOfFuel)
    | S fuel' =>
        let '(st', r) := values_resume from d st in
        match r with
        | Val (Some t) =>
            match contains t with
            | Val true => (st', Val (Some t))
            | Val false => set_resume contains d fuel' st'
            | r => (st', r ;;; Val None)
            end
        | r => (st', r)
        end
    end.
  Definition set_resume_step (contains : T -> res bool) (d : dir) (st : U * OrdinalValues) :=
    set_resume contains d (S (N.to_nat (range_len (snd st)))) st.

  (** map/iter.rs:287-294 and 302-309: the value is taken out of its slot after the key has
      been made. *)
  Fixpoint drain_resume {V} (d : dir) (fuel : nat) (st : U * @Drain V) : (U * @Drain V) * res (option (T * V)) :=
    match fuel with
    | 0%nat => (st, OutOfFuel)
    | S fuel' =>
        let '(u, (storage, iter)) := st in
        let '((u', iter'), r) := enumerate_resume from d (u, iter) in
        match r with
        | Val None => ((u', (storage, iter')), Val None)
        | Val (Some (k, i)) =>
            match deref storage i with
            | Val (Some v) => ((u', (store_at storage i None, iter')), Val (Some (k, v)))
            | Val None => drain_resume d fuel' (u', (store_at storage i None, iter'))
            | r => ((u', (storage, iter')), r ;;; Val None)
            end
        | r => ((u', (storage, iter')), r ;;; Val None)
        end
    end.
  Definition drain_resume_step {V} (d : dir) (st : U * @Drain V) :=
    drain_resume d (S (length (e_items (snd (snd st))))) st.
End ResumeMore.
