(** * SpecAtomic: an atomic register of [T] shared by threads.

    Nothing here refers to how the crate works. *)
From Verif Require Import Base Spec.

(** [std::sync::atomic::Ordering]. *)
Inductive mem_ordering := Relaxed | Release | Acquire | AcqRel | SeqCst.

(** The calls a thread can make. *)
Inductive call (T : Type) :=
| CLoad (o : mem_ordering)                       (* a.load(o) *)
| CStore (t : T) (o : mem_ordering)              (* a.store(t, o) *)
| CCas (old new : T) (success failure : mem_ordering)  (* a.compare_exchange(old, new, ..) *)
| CDebug.                                        (* the value printed by {:?} *)
Arguments CLoad {T} o.
Arguments CDebug {T}.

(** What a call returns. *)
Inductive out (T : Type) :=
| OVal (t : T)      (* the value *)
| OUnit
| OOk (t : T)       (* Ok(t) *)
| OErr (t : T).     (* Err(t) *)
Arguments OUnit {T}.

(** The orderings for which the standard library documents no panic. *)
Definition legal {T} (c : call T) : bool :=
  match c with
  | CLoad Release | CLoad AcqRel => false
  | CStore _ Acquire | CStore _ AcqRel => false
  | CCas _ _ _ Release | CCas _ _ _ AcqRel => false
  | _ => true
  end.

(** One call on a variable holding [v]. *)
Definition reg_step {T} (eqd : forall a b : T, {a = b} + {a <> b}) (c : call T) (v : T) : out T * T :=
  match c with
  | CLoad _ | CDebug => (OVal v, v)
  | CStore t _ => (OUnit, t)
  | CCas old new _ _ => if eqd v old then (OOk v, new) else (OErr v, v)
  end.

Fixpoint reg_run {T} (eqd : forall a b : T, {a = b} + {a <> b}) (cs : list (call T)) (v : T)
  : list (out T) * T :=
  match cs with
  | [] => ([], v)
  | c :: cs' =>
      let '(o, v') := reg_step eqd c v in
      let '(os, v'') := reg_run eqd cs' v' in
      (o :: os, v'')
  end.

(** An event: thread, call, result. A trace lists events in the order in which the calls
    took effect. *)
Definition event (T : Type) : Type := nat * call T * out T.
Definition ev_thread {T} (e : event T) : nat := fst (fst e).
Definition ev_call {T} (e : event T) : call T := snd (fst e).
Definition ev_out {T} (e : event T) : out T := snd e.

(** The events of thread [i]. *)
Definition of_thread {T} (i : nat) (tr : list (event T)) : list (event T) :=
  filter (fun e => Nat.eqb (ev_thread e) i) tr.

(** The results in the trace are those of one variable initially [v0]. *)
Definition register_trace {T} (eqd : forall a b : T, {a = b} + {a <> b}) (v0 : T) (tr : list (event T)) : Prop :=
  map ev_out tr = fst (reg_run eqd (map ev_call tr) v0).

(** The values passed to [store] or to a successful [compare_exchange]. *)
Definition written {T} (tr : list (event T)) : list T :=
  flat_map (fun e => match ev_call e, ev_out e with
                     | CStore t _, _ => [t]
                     | CCas _ new _ _, OOk _ => [new]
                     | _, _ => []
                     end) tr.

(** A read may return any of the values in [ws]. *)
Definition stale_result {T} (ws : list T) (c : call T) (o : out T) : Prop :=
  match c with
  | CLoad _ | CDebug => exists t, o = OVal t /\ In t ws
  | CStore _ _ => o = OUnit
  | CCas old _ _ _ => (o = OOk old /\ In old ws) \/ (exists t, o = OErr t /\ t <> old /\ In t ws)
  end.

(** Every result is one of the values written before it took effect (or [v0]). *)
Definition stale_trace {T} (v0 : T) (tr : list (event T)) : Prop :=
  forall before e after, tr = before ++ e :: after ->
    stale_result (v0 :: written before) (ev_call e) (ev_out e).

Definition prefix {A} (a b : list A) : Prop := exists r, b = a ++ r.

(** What can be seen of a thread: the calls begun, the results returned, and whether it
    panicked. *)
Record view (T : Type) := {
  v_begun : list (call T);
  v_returned : list (out T);
  v_panic : option panic
}.

(** The trace [tr] explains what is seen of the threads running the programs [progs]: each
    thread runs its program in order; a call takes effect after it began and before it
    returned, and returns what the trace says; a thread panics only by beginning a call
    with illegal orderings, which then takes no effect. *)
Definition explains {T} (progs : list (list (call T))) (tr : list (event T)) (vs : list (view T)) : Prop :=
  length vs = length progs /\
  Forall (fun e => (ev_thread e < length progs)%nat) tr /\
  forall i p w, nth_error progs i = Some p -> nth_error vs i = Some w ->
    let mine := of_thread i tr in
    prefix (v_begun w) p /\
    prefix (map ev_call mine) (v_begun w) /\
    prefix (v_returned w) (map ev_out mine) /\
    Forall (fun c => legal c = true) (map ev_call mine) /\
    (length (v_begun w) <= S (length (v_returned w)))%nat /\
    match v_panic w with
    | None => True
    | Some why => why = POrdering /\
        exists c, v_begun w = map ev_call mine ++ [c] /\ legal c = false /\ v_returned w = map ev_out mine
    end.

(** A schedule lists which thread makes the next step (and a choice for its read). How
    often thread [i] gets its turn: *)
Definition turns (i : nat) (sched : list (nat * nat)) : nat :=
  length (filter (fun ic => Nat.eqb (fst ic) i) sched).

(** ** Implementations whose [ordinal] panics on some values *)

(** Where [ordinal] returns, [from_ordinal] undoes it; elsewhere it panics. *)
Definition undone {T} (O : Ordinal T) : Prop :=
  forall t, match ordinal O t with
            | Val i => from_ordinal O i = Val (Some t)
            | Panic _ => True
            | _ => False
            end.

(** The call panics with [why] before it accesses the variable: on an argument without an
    ordinal, or else on illegal orderings. *)
Definition refuses {T} (O : Ordinal T) (c : call T) (why : panic) : Prop :=
  match c with
  | CStore t _ => ordinal O t = Panic why
  | CCas old new _ _ =>
      ordinal O old = Panic why \/ ((exists i, ordinal O old = Val i) /\ ordinal O new = Panic why)
  | CLoad _ | CDebug => False
  end.
Definition dies {T} (O : Ordinal T) (c : call T) (why : panic) : Prop :=
  refuses O c why \/ ((forall w, ~ refuses O c w) /\ legal c = false /\ why = POrdering).

(** Like [explains], when calls panic as [O] says. *)
Definition explains_partly {T} (O : Ordinal T) (progs : list (list (call T))) (tr : list (event T))
    (vs : list (view T)) : Prop :=
  length vs = length progs /\
  Forall (fun e => (ev_thread e < length progs)%nat) tr /\
  forall i p w, nth_error progs i = Some p -> nth_error vs i = Some w ->
    let mine := of_thread i tr in
    prefix (v_begun w) p /\
    prefix (map ev_call mine) (v_begun w) /\
    prefix (v_returned w) (map ev_out mine) /\
    Forall (fun c => forall why, ~ dies O c why) (map ev_call mine) /\
    (length (v_begun w) <= S (length (v_returned w)))%nat /\
    match v_panic w with
    | None => True
    | Some why =>
        exists c, v_begun w = map ev_call mine ++ [c] /\ dies O c why /\ v_returned w = map ev_out mine
    end.
