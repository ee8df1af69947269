(** * ModelAtomic: ordinal-map/src/atomic.rs and the threads that use it.

    The standard library's [AtomicUsize] is modelled as a cell that performs one request
    at a time; which orderings panic is taken from its documentation. *)
From Verif Require Import Base Spec SpecAtomic.

(** ** AtomicUsize (standard library) *)

Inductive request :=
| RLoad (o : mem_ordering)
| RStore (v : N) (o : mem_ordering)
| RCas (old new : N) (success failure : mem_ordering).

Inductive response :=
| SVal (v : N)
| SUnit
| SOk (v : N)
| SErr (v : N).

(** Documented panics: [load] on Release/AcqRel, [store] on Acquire/AcqRel,
    [compare_exchange] on a failure ordering Release/AcqRel. *)
Definition illegal_request (q : request) : bool :=
  match q with
  | RLoad Release | RLoad AcqRel => true
  | RStore _ Acquire | RStore _ AcqRel => true
  | RCas _ _ _ Release | RCas _ _ _ AcqRel => true
  | _ => false
  end.

(** The effect of a request on a cell when the value it reads is [v]. *)
Definition perform (q : request) (v : N) : response * option N :=
  match q with
  | RLoad _ => (SVal v, None)
  | RStore w _ => (SUnit, Some w)
  | RCas old new _ _ => if v =? old then (SOk v, Some new) else (SErr v, None)
  end.

(** Sequentially consistent cell: reads see the last write. *)
Definition sc_apply (q : request) (cell : N) : res response * N :=
  if illegal_request q then (Panic POrdering, cell)
  else
    let '(r, w) := perform q cell in
    (Val r, match w with Some x => x | None => cell end).

(** Weak cell: all the writes so far, oldest first; a read may see any of them
    ([choice] says which). This over-approximates every memory model in which a read
    returns the value of some write that happened earlier in the execution. *)
Definition weak_apply (choice : nat) (q : request) (cell : list N) : res response * list N :=
  if illegal_request q then (Panic POrdering, cell)
  else
    let '(r, w) := perform q (nth choice cell (hd 0 cell)) in
    (Val r, match w with Some x => cell ++ [x] | None => cell end).

(** ** AtomicOrdinal *)

(** A method prepares one request and, given the response, finishes. *)
Definition method (A : Type) : Type := res (request * (response -> res A)).

Section Atomic.
  Context {T : Type} (O : Ordinal T).

  (** atomic.rs:50-55; the content of the cell. *)
  Definition AtomicOrdinal_new (value : T) : res N := ordinal O value.

  Definition decode (v : N) : res T := o <- from_ordinal O v ;; unwrap o.

  (** atomic.rs:58-60 *)
  Definition AtomicOrdinal_load (o : mem_ordering) : method T :=
    Val (RLoad o, fun r => match r with SVal v => decode v | _ => UB end).

  (** atomic.rs:63-65 *)
  Definition AtomicOrdinal_store (value : T) (o : mem_ordering) : method unit :=
    v <- ordinal O value ;;
    Val (RStore v o, fun r => match r with SUnit => Val tt | _ => UB end).

  (** atomic.rs:68-84; [inl] is [Ok], [inr] is [Err]. *)
  Definition AtomicOrdinal_compare_exchange (old new : T) (success failure : mem_ordering)
    : method (T + T) :=
    old_ord <- ordinal O old ;;
    new_ord <- ordinal O new ;;
    Val (RCas old_ord new_ord success failure,
         fun r => match r with
                  | SOk v => t <- decode v ;; Val (inl t)
                  | SErr v => t <- decode v ;; Val (inr t)
                  | _ => UB
                  end).

  (** atomic.rs:40-45; returns the value that is then formatted. *)
  Definition AtomicOrdinal_fmt : method T := AtomicOrdinal_load Relaxed.

  Definition method_map {A B} (f : A -> B) (m : method A) : method B :=
    '(q, k) <- m ;; Val (q, fun r => a <- k r ;; Val (f a)).

  Definition call_method (c : call T) : method (out T) :=
    match c with
    | CLoad o => method_map (@OVal T) (AtomicOrdinal_load o)
    | CStore t o => method_map (fun _ => OUnit) (AtomicOrdinal_store t o)
    | CCas old new s f =>
        method_map (fun r => match r with inl t => OOk t | inr t => OErr t end)
          (AtomicOrdinal_compare_exchange old new s f)
    | CDebug => method_map (@OVal T) AtomicOrdinal_fmt
    end.

  (** A call without interference: its outcome and the new content of the cell. *)
  Definition call_alone (c : call T) (cell : N) : res (out T) * N :=
    match call_method c with
    | Val (q, k) => let '(r, cell') := sc_apply q cell in (x <- r ;; k x, cell')
    | Panic w => (Panic w, cell)
    | NoCompile => (NoCompile, cell)
    | UB => (UB, cell)
    | OutOfFuel => (OutOfFuel, cell)
    end.

  (** ** Threads *)

  Inductive phase :=
  | PIdle
  | PReady (q : request) (k : response -> res (out T))  (* about to perform the request *)
  | PGot (r : response) (k : response -> res (out T))   (* performed, about to return *)
  | PDead (why : panic)                                 (* panicked *)
  | PWrong.                                             (* compile error or undefined behaviour *)

  Record thread := {
    t_todo : list (call T);
    t_phase : phase;
    t_begun : list (call T);
    t_returned : list (out T)
  }.

  Definition thread_init (p : list (call T)) : thread :=
    {| t_todo := p; t_phase := PIdle; t_begun := []; t_returned := [] |}.

  Definition in_phase (th : thread) (ph : phase) : thread :=
    {| t_todo := t_todo th; t_phase := ph; t_begun := t_begun th; t_returned := t_returned th |}.

  Section Machine.
    Context {Mem : Type} (apply : nat -> request -> Mem -> res response * Mem).

    (** One step of a thread: begin the next call, or perform the request, or return. *)
    Definition thread_step (choice : nat) (th : thread) (m : Mem) : thread * Mem :=
      match t_phase th with
      | PIdle =>
          match t_todo th with
          | [] => (th, m)
          | c :: todo =>
              let ph := match call_method c with
                        | Val (q, k) => PReady q k
                        | Panic w => PDead w
                        | _ => PWrong
                        end in
              ({| t_todo := todo; t_phase := ph; t_begun := t_begun th ++ [c];
                  t_returned := t_returned th |}, m)
          end
      | PReady q k =>
          let '(r, m') := apply choice q m in
          (in_phase th (match r with
                        | Val x => PGot x k
                        | Panic w => PDead w
                        | _ => PWrong
                        end), m')
      | PGot r k =>
          match k r with
          | Val o => ({| t_todo := t_todo th; t_phase := PIdle; t_begun := t_begun th;
                         t_returned := t_returned th ++ [o] |}, m)
          | Panic w => (in_phase th (PDead w), m)
          | _ => (in_phase th PWrong, m)
          end
      | PDead _ | PWrong => (th, m)
      end.

    (** Thread [i] makes a step. *)
    Definition system_step (sys : list thread * Mem) (ic : nat * nat) : list thread * Mem :=
      let '(ths, m) := sys in
      match nth_error ths (fst ic) with
      | Some th => let '(th', m') := thread_step (snd ic) th m in (list_set ths (fst ic) th', m')
      | None => sys
      end.

    (** An execution: any number of threads, any schedule. *)
    Definition execute (progs : list (list (call T))) (m0 : Mem) (sched : list (nat * nat))
      : list thread * Mem :=
      fold_left system_step sched (map thread_init progs, m0).
  End Machine.

  Definition thread_view (th : thread) : option (view T) :=
    match t_phase th with
    | PWrong => None
    | PDead w => Some {| v_begun := t_begun th; v_returned := t_returned th; v_panic := Some w |}
    | _ => Some {| v_begun := t_begun th; v_returned := t_returned th; v_panic := None |}
    end.

  Fixpoint views (ths : list thread) : option (list (view T)) :=
    match ths with
    | [] => Some []
    | th :: ths' =>
        match thread_view th, views ths' with
        | Some v, Some vs => Some (v :: vs)
        | _, _ => None
        end
    end.
End Atomic.
Arguments thread T : clear implicits.
Arguments phase T : clear implicits.
