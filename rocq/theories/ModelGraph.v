(** * ModelGraph: threads that use several AtomicOrdinals (ordinal-map/src/atomic.rs), event by
    event; the memory is whatever gives each event the number it reads. *)
From Verif Require Import Base Spec SpecAtomic SpecGraph ModelAtomic.

(** The action of a request to AtomicUsize (standard library), given what it writes. *)
Definition act_of (q : request) (w : option N) : act :=
  match q with
  | RLoad o => ALoad o
  | RStore _ o => AStore o
  | RCas _ _ s f => match w with Some _ => AExchange s | None => AFail f end
  end.

(** A thread: each call of a method of AtomicOrdinal (atomic.rs:40-84, [call_method]) makes one
    request, which becomes an event; the response is finished by the method. *)
Fixpoint run_atomic {T} (O : Ordinal T) (p : strategy T) (rd : nat -> N) (n : nat)
    (es : list (node N)) (os : list (out T)) : thread_result N T :=
  match n with
  | 0%nat => (es, os, Running)
  | S n' =>
      match p os with
      | None => (es, os, Running)
      | Some (x, c) =>
          match call_method O c with
          | Panic w => (es, os, Died w)
          | Val (q, k) =>
              if illegal_request q then (es, os, Died POrdering)
              else
                let '(r, w) := perform q (rd (length es)) in
                let es' := es ++ [(x, act_of q w, w)] in
                match k r with
                | Val o => run_atomic O p rd n' es' (os ++ [o])
                | Panic why => (es', os, Died why)
                | _ => (es', os, Broken)
                end
          | _ => (es, os, Broken)
          end
      end
  end.
Definition atomic {T} (O : Ordinal T) : strategy T -> (nat -> N) -> nat -> thread_result N T :=
  fun p rd n => run_atomic O p rd n [] [].
