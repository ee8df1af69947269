(** * PropAtomicAny: property C112 (atomic.rs, any implementation of [Ordinal]).

    As PropAtomic.v, but nothing is assumed of [ordinal] and [from_ordinal] except that they
    return or panic ([answers]), and the initial number is arbitrary. [effect],
    [number_trace], [stale_number_trace], [explains_any]: SpecAtomicAny.v. *)
From Verif Require Import Base Spec SpecAtomic SpecAtomicAny ModelAtomic AtomicProofs3.
From Coq Require Import List Lia.
Import ListNotations.

Theorem C112_any_implementation_linearizable : forall (T : Type) (O : Ordinal T),
  answers O ->
  forall (cell : N) (progs : list (list (call T))) (s1 s2 : list (nat * nat)),
  exists t1 t2 vs1 vs2,
    views (fst (execute O (fun _ => sc_apply) progs cell s1)) = Some vs1 /\
    views (fst (execute O (fun _ => sc_apply) progs cell (s1 ++ s2))) = Some vs2 /\
    number_trace O cell t1 (snd (execute O (fun _ => sc_apply) progs cell s1)) /\
    explains_any O progs t1 vs1 /\
    number_trace O cell (t1 ++ t2) (snd (execute O (fun _ => sc_apply) progs cell (s1 ++ s2))) /\
    explains_any O progs (t1 ++ t2) vs2.
Proof. exact @sc_any. Qed.
Print Assumptions C112_any_implementation_linearizable.

Theorem C112_any_implementation_weak_memory : forall (T : Type) (O : Ordinal T),
  answers O ->
  forall (cell : N) (progs : list (list (call T))) (s1 s2 : list (nat * nat)),
  exists t1 t2 vs1 vs2,
    views (fst (execute O weak_apply progs [cell] s1)) = Some vs1 /\
    views (fst (execute O weak_apply progs [cell] (s1 ++ s2))) = Some vs2 /\
    stale_number_trace O cell t1 (snd (execute O weak_apply progs [cell] s1)) /\
    explains_any O progs t1 vs1 /\
    stale_number_trace O cell (t1 ++ t2) (snd (execute O weak_apply progs [cell] (s1 ++ s2))) /\
    explains_any O progs (t1 ++ t2) vs2.
Proof. exact @weak_any. Qed.
Print Assumptions C112_any_implementation_weak_memory.

Theorem C112_any_implementation_wait_free : forall (T : Type) (O : Ordinal T),
  answers O ->
  forall (cell : N) (progs : list (list (call T))) (sched : list (nat * nat)) (i : nat) (p : list (call T)),
  nth_error progs i = Some p -> (3 * length p <= turns i sched)%nat ->
  exists vs w, views (fst (execute O (fun _ => sc_apply) progs cell sched)) = Some vs /\
    nth_error vs i = Some w /\
    (v_panic w <> None \/ v_begun w = p /\ length (v_returned w) = length p).
Proof. exact @sc_any_wait_free. Qed.
Print Assumptions C112_any_implementation_wait_free.

Theorem C112_any_implementation_wait_free_weak_memory : forall (T : Type) (O : Ordinal T),
  answers O ->
  forall (cell : N) (progs : list (list (call T))) (sched : list (nat * nat)) (i : nat) (p : list (call T)),
  nth_error progs i = Some p -> (3 * length p <= turns i sched)%nat ->
  exists vs w, views (fst (execute O weak_apply progs [cell] sched)) = Some vs /\
    nth_error vs i = Some w /\
    (v_panic w <> None \/ v_begun w = p /\ length (v_returned w) = length p).
Proof. exact @weak_any_wait_free. Qed.
Print Assumptions C112_any_implementation_wait_free_weak_memory.

(** [true] and [false] share the number 5, which nobody turns back into a value; the other
    numbers panic on their own. A [compare_exchange] writes and then panics: its thread does
    nothing more, the number stays, and the other thread panics on it, too. *)
Example C112_case :
  let O := {| ORDINAL_SIZE := Val 2; ordinal := fun _ : bool => Val 5;
              from_ordinal := fun i => if i =? 5 then Val None else Panic PUser |} in
  answers O /\
  option_map (map (fun v => (length (v_begun v), v_returned v, v_panic v)))
    (views (fst (execute O (fun _ => sc_apply)
      [[CCas true false SeqCst SeqCst; CLoad Acquire]; [CStore true Release; CDebug; CDebug]] 3
      [(1, 0); (1, 0); (1, 0); (0, 0); (0, 0); (0, 0); (0, 0); (0, 0);
       (1, 0); (1, 0); (1, 0); (1, 0); (1, 0)]%nat)))
  = Some [(1%nat, [], Some PUnwrap); (2%nat, [OUnit], Some PUnwrap)] /\
  (3 * 2 <= turns 1 [(1, 0); (1, 0); (1, 0); (0, 0); (1, 0); (1, 0); (1, 0)])%nat.
Proof.
  split; [split; intros; cbn; [exact I|]; destruct (_ =? 5); exact I|].
  split; [reflexivity|]. cbn. lia.
Qed.

(** The write of a [compare_exchange] that panics on what it read stays. *)
Example C112_written_before_the_panic :
  let O := {| ORDINAL_SIZE := Val 2; ordinal := fun b : bool => Val (if b then 5 else 3);
              from_ordinal := fun i => if i =? 5 then Val None else Val (Some false) |} in
  answers O /\
  number_trace O 5 [(0%nat, CCas true false SeqCst Relaxed, inr PUnwrap); (1%nat, CLoad Relaxed, inl (OVal false))] 3 /\
  snd (execute O (fun _ => sc_apply) [[CCas true false SeqCst Relaxed]] 5 [(0, 0); (0, 0); (0, 0)]%nat) = 3.
Proof.
  intros O. split; [split; intros; cbn; [exact I|]; destruct (_ =? 5); exact I|]. split; [|reflexivity].
  exact (@nt_call _ O 5 [_] 3 1%nat (CLoad Relaxed)
    (@nt_call _ O 5 [] 5 0%nat (CCas true false SeqCst Relaxed) (nt_start O 5))).
Qed.
