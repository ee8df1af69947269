(** * SpecGraph: executions of threads over several shared variables, as graphs of events.

    An axiomatic memory model (that of C++20, say) accepts or rejects an execution by looking at
    its events -- which thread, which location, load or store or exchange, which ordering -- and at
    which write each read takes its value from, but not at the values.  Here it is any
    predicate [M] on such skeletons; further relations (modification order, ...) are
    existentially quantified inside of [M].  Nothing here refers to how the crate works. *)
From Verif Require Import Base Spec SpecAtomic.

(** The action of an event. *)
Inductive act :=
| ALoad (o : mem_ordering)
| AStore (o : mem_ordering)
| AExchange (success : mem_ordering)   (* a compare_exchange that succeeds *)
| AFail (failure : mem_ordering).      (* one that fails, which is a load *)

Definition is_read (a : act) : bool := match a with AStore _ => false | _ => true end.

(** An event: location, action, value written.  A graph: the events of each thread in program
    order, and for each event (thread, index) the event from which it takes the value it reads, or
    [None] for the initial value of the location. *)
Definition node (A : Type) : Type := nat * act * option A.
Record graph (A : Type) := {
  g_threads : list (list (node A));
  g_from : nat -> nat -> option (nat * nat)
}.

Definition node_label {A} (e : node A) : nat * act := fst e.
Definition shape {A} (g : graph A) : list (list (nat * act)) := map (map node_label) (g_threads g).

Definition node_at {A} (g : graph A) (i k : nat) : option (node A) :=
  match nth_error (g_threads g) i with Some es => nth_error es k | None => None end.

(** The value an event on location [x] reads: initial, or written to [x] by the event it
    reads from. *)
Definition value_read {A} (init : nat -> A) (g : graph A) (i k x : nat) : option A :=
  match g_from g i k with
  | None => Some (init x)
  | Some (j, l) =>
      match node_at g j l with
      | Some (y, _, Some v) => if Nat.eqb x y then Some v else None
      | _ => None
      end
  end.

(** A thread decides from the results so far which call to make next on which variable. *)
Definition strategy (T : Type) : Type := list (out T) -> option (nat * call T).

(** How far a thread got. *)
Inductive outcome := Running | Died (why : panic) | Broken.

(** One thread: events, results, how far it got. *)
Definition thread_result (A T : Type) : Type := list (node A) * list (out T) * outcome.

(** The threads ran as in the graph [g]: [run p rd n] is what a thread with strategy [p] does in
    at most [n] calls if its event number [k] reads [rd k]. *)
Definition execution {A T} (run : strategy T -> (nat -> A) -> nat -> thread_result A T)
    (init : nat -> A) (progs : list (strategy T)) (g : graph A)
    (results : list (list (out T) * outcome)) : Prop :=
  length (g_threads g) = length progs /\ length results = length progs /\
  forall i p, nth_error progs i = Some p ->
    exists rd n es os st, run p rd n = (es, os, st) /\
      nth_error (g_threads g) i = Some es /\ nth_error results i = Some (os, st) /\
      forall k x a w, nth_error es k = Some (x, a, w) -> is_read a = true ->
        value_read init g i k x = Some (rd k).

(** The results that the memory model [M] allows. *)
Definition allowed {A T} (M : list (list (nat * act)) -> (nat -> nat -> option (nat * nat)) -> Prop)
    (run : strategy T -> (nat -> A) -> nat -> thread_result A T)
    (init : nat -> A) (progs : list (strategy T)) (results : list (list (out T) * outcome)) : Prop :=
  exists g, M (shape g) (g_from g) /\ execution run init progs g results.

(** ** Variables of type [T] *)

(** The panic of a call before it accesses its variable, if any. *)
Definition refusal {T} (O : Ordinal T) (c : call T) : option panic :=
  let argument t := match ordinal O t with Panic w => Some w | _ => None end in
  let orderings := if legal c then None else Some POrdering in
  match c with
  | CLoad _ | CDebug => orderings
  | CStore t _ => match argument t with Some w => Some w | None => orderings end
  | CCas old new _ _ =>
      match argument old with
      | Some w => Some w
      | None => match argument new with Some w => Some w | None => orderings end
      end
  end.

(** A call that reads [v]: its action, the value it writes, its result. *)
Definition call_on {T} (eqd : forall a b : T, {a = b} + {a <> b}) (c : call T) (v : T)
  : act * option T * out T :=
  match c with
  | CLoad o => (ALoad o, None, OVal v)
  | CStore t o => (AStore o, Some t, OUnit)
  | CCas old new s f => if eqd v old then (AExchange s, Some new, OOk v) else (AFail f, None, OErr v)
  | CDebug => (ALoad Relaxed, None, OVal v)
  end.

(** The value that a call with this result wrote. *)
Definition wrote {T} (c : call T) (o : out T) : option T :=
  match c, o with
  | CStore t _, _ => Some t
  | CCas _ new _ _, OOk _ => Some new
  | _, _ => None
  end.

Fixpoint run_variable {T} (O : Ordinal T) (eqd : forall a b : T, {a = b} + {a <> b})
    (p : strategy T) (rd : nat -> T) (n : nat) (es : list (node T)) (os : list (out T))
  : thread_result T T :=
  match n with
  | 0%nat => (es, os, Running)
  | S n' =>
      match p os with
      | None => (es, os, Running)
      | Some (x, c) =>
          match refusal O c with
          | Some w => (es, os, Died w)
          | None =>
              let '(a, w, o) := call_on eqd c (rd (length es)) in
              run_variable O eqd p rd n' (es ++ [(x, a, w)]) (os ++ [o])
          end
      end
  end.
Definition variable {T} (O : Ordinal T) eqd : strategy T -> (nat -> T) -> nat -> thread_result T T :=
  fun p rd n => run_variable O eqd p rd n [] [].
