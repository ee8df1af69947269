(** * ModelAtomicLife: who destroys the values given to an AtomicOrdinal and made by it.

    ModelAtomic.v with the log of the values whose destructors were started (ModelLife.v). A method looks at the
    cell at most once, so that the other threads are the content it finds. *)
From Verif Require Import Base Spec SpecAtomic SpecCatch ModelAtomic ModelCatch ModelLife.
From Coq Require Import List. Import ListNotations.

Section AtomicLife.
  Context {T : Type} (boom : list T -> T -> option panic) (drops_result : bool) (shows : T -> option panic) (O : Ordinal T).
  Local Notation log := (list T).
  Local Notation method_of := (act (log * N)).

  (** A request to the AtomicUsize. *)
  Definition asks (q : request) : method_of response :=
    calm (fun cell => let '(r, cell') := sc_apply q cell in (cell', ending_of r)).
  Definition wrong_answer {A} : method_of A := fun s => (s, Stuck).

  (** atomic.rs:50-55: [value] is destroyed on return; the cell has no destructor. *)
  Definition new_owned {M} (value : T) : act (log * M) N :=
    v <! owning boom [value] (look (fun _ => AtomicOrdinal_new O value)) ;;
    destroy boom value ;;!
    ret v.
  (** atomic.rs:58-60 *)
  Definition load_owned (o : mem_ordering) : method_of T :=
    r <! asks (RLoad o) ;;
    match r with SVal v => look (fun _ => decode O v) | _ => wrong_answer end.
  (** atomic.rs:63-65 *)
  Definition store_owned (value : T) (o : mem_ordering) : method_of unit :=
    owning boom [value]
      (v <! look (fun _ => ordinal O value) ;;
       r <! asks (RStore v o) ;;
       match r with SUnit => ret tt | _ => wrong_answer end) ;;!
    destroy boom value.
  (** atomic.rs:68-84; the arguments are destroyed in reverse order. *)
  Definition compare_exchange_owned (old new : T) (success failure : mem_ordering) : method_of (T + T) :=
    res <! owning boom [new; old]
      (old_ord <! look (fun _ => ordinal O old) ;;
       new_ord <! look (fun _ => ordinal O new) ;;
       r <! asks (RCas old_ord new_ord success failure) ;;
       match r with
       | SOk v => t <! look (fun _ => decode O v) ;; ret (inl t)
       | SErr v => t <! look (fun _ => decode O v) ;; ret (inr t)
       | _ => wrong_answer
       end) ;;
    owning boom (if drops_result then [match res with inl t | inr t => t end] else []) (glue boom [new; old]) ;;!
    ret res.
  (** atomic.rs:40-45: [v] is destroyed on return. *)
  Definition fmt_owned : method_of T :=
    v <! load_owned Relaxed ;;
    owning boom [v] (look (fun _ => match shows v with None => Val tt | Some w => Panic w end)) ;;!
    destroy boom v ;;!
    ret v.

  Definition call_owned (c : call T) : method_of (out T) :=
    match c with
    | CLoad o => t <! load_owned o ;; ret (OVal t)
    | CStore t o => store_owned t o ;;! ret OUnit
    | CCas old new s f => r <! compare_exchange_owned old new s f ;; ret (match r with inl t => OOk t | inr t => OErr t end)
    | CDebug => t <! fmt_owned ;; ret (OVal t)
    end.
  (** A call after the other threads have written [fst t], if anything. *)
  Definition turn_owned (t : option N * call T) : method_of (out T) :=
    match fst t with Some j => calm (put j) | None => ret tt end ;;! call_owned (snd t).
End AtomicLife.
