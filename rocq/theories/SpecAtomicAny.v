(** * SpecAtomicAny: threads sharing an AtomicOrdinal of a type with any implementation of
    [Ordinal], lawful or not.

    What is shared is one number. Nothing here refers to how the crate works. *)
From Verif Require Import Base Spec SpecAtomic.
From Coq Require Import List.
Import ListNotations.

(** The two functions of the implementation return or panic. *)
Definition answers {T} (O : Ordinal T) : Prop :=
  (forall t, match ordinal O t with Val _ | Panic _ => True | _ => False end) /\
  (forall i, match from_ordinal O i with Val _ | Panic _ => True | _ => False end).

(** What a call hands out for the number [i] it read: the result, or its panic. *)
Definition handed {T} (O : Ordinal T) (i : N) (wrap : T -> out T) : out T + panic :=
  match from_ordinal O i with
  | Val (Some t) => inl (wrap t)
  | Val None => inr PUnwrap
  | Panic why => inr why
  | _ => inr PUnreachable
  end.

(** A call (one that does not die before, see [dies]) that finds the number [i]: what comes
    of it and what it writes. A [compare_exchange] compares numbers, not values; a write
    stays even if the call panics afterwards. *)
Definition effect {T} (O : Ordinal T) (c : call T) (i : N) : (out T + panic) * option N :=
  match c with
  | CLoad _ | CDebug => (handed O i (@OVal T), None)
  | CStore t _ => (inl OUnit, match ordinal O t with Val j => Some j | _ => None end)
  | CCas old new _ _ =>
      match ordinal O old, ordinal O new with
      | Val a, Val b => if i =? a then (handed O i (@OOk T), Some b) else (handed O i (@OErr T), None)
      | _, _ => (inl OUnit, None)
      end
  end.

(** Thread, call, what came of it; in the order in which the calls took effect. *)
Definition deed (T : Type) : Type := nat * call T * (out T + panic).
Definition deeds_of {T} (i : nat) (tr : list (deed T)) : list (deed T) :=
  filter (fun e => Nat.eqb (fst (fst e)) i) tr.
Definition d_call {T} (e : deed T) : call T := snd (fst e).
Definition d_end {T} (e : deed T) : out T + panic := snd e.

(** The number is [i0] at first and [i] after the trace; every call finds the number that
    the one before it left. *)
Inductive number_trace {T} (O : Ordinal T) (i0 : N) : list (deed T) -> N -> Prop :=
| nt_start : number_trace O i0 [] i0
| nt_call tr i n c : number_trace O i0 tr i ->
    number_trace O i0 (tr ++ [(n, c, fst (effect O c i))])
      (match snd (effect O c i) with Some j => j | None => i end).

(** The same where a call may find any of the numbers [is] written before it. *)
Inductive stale_number_trace {T} (O : Ordinal T) (i0 : N) : list (deed T) -> list N -> Prop :=
| snt_start : stale_number_trace O i0 [] [i0]
| snt_call tr is i n c : stale_number_trace O i0 tr is -> In i is ->
    stale_number_trace O i0 (tr ++ [(n, c, fst (effect O c i))])
      (match snd (effect O c i) with Some j => is ++ [j] | None => is end).

(** The trace explains what is seen of the threads. Each thread runs its program in order,
    one call at a time, and returns what the trace says. It panics in a call that dies
    before it takes effect, or with the panic the trace has for its last call; either way it
    does nothing more. *)
Definition explains_any {T} (O : Ordinal T) (progs : list (list (call T))) (tr : list (deed T))
    (vs : list (view T)) : Prop :=
  length vs = length progs /\
  Forall (fun e => (fst (fst e) < length progs)%nat) tr /\
  forall i p w, nth_error progs i = Some p -> nth_error vs i = Some w ->
    let mine := deeds_of i tr in
    prefix (v_begun w) p /\
    prefix (map d_call mine) (v_begun w) /\
    prefix (map inl (v_returned w)) (map d_end mine) /\
    Forall (fun c => forall why, ~ dies O c why) (map d_call mine) /\
    (length (v_begun w) <= S (length (v_returned w)))%nat /\
    match v_panic w with
    | None => True
    | Some why =>
        (exists c, v_begun w = map d_call mine ++ [c] /\ dies O c why /\
           map inl (v_returned w) = map d_end mine) \/
        (v_begun w = map d_call mine /\ map d_end mine = map inl (v_returned w) ++ [inr why])
    end.
