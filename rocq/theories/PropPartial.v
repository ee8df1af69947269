(** * PropPartial: C91, AtomicOrdinal when [ordinal] panics on some values (atomic.rs).

    [undone O]: [ordinal] returns or panics, and where it returns [from_ordinal] undoes it.
    Every lawful implementation is one, with overflow checks so is every implementation of a type
    with too many values (C79), and so is one that refuses some values by a panic.
    [dies O c why]: the call panics because [ordinal] panics on an argument, or because of its
    orderings.  [explains_partly] is [explains] of C23 with these panics (SpecAtomic.v). *)
From Verif Require Import Base Spec SpecAtomic ModelOrdinal ModelAtomic SpecUniverse ModelUniverse ModelMono
  UniverseProofs4 OrdinalProofs AtomicProofs AtomicProofs2 UseProofs5.
From Coq Require Import List.
Import ListNotations.

(** A call without interference: panics without effect, or acts as on a variable. *)
Theorem C91_calls : forall (T : Type) (O : Ordinal T), undone O ->
  forall (eqd : forall a b : T, {a = b} + {a <> b}) (c : call T) (t : T) (i : N),
  ordinal O t = Val i ->
  (exists why, dies O c why /\ call_alone O c i = (Panic why, i)) \/
  (forall why, ~ dies O c why) /\
  exists j, call_alone O c i = (Val (fst (reg_step eqd c t)), j) /\
    ordinal O (snd (reg_step eqd c t)) = Val j.
Proof. exact @call_alone_partly. Qed.
Print Assumptions C91_calls.

(** Any number of threads, any schedule: one variable. *)
Theorem C91_one_variable : forall (T : Type) (O : Ordinal T), undone O ->
  forall (eqd : forall a b : T, {a = b} + {a <> b}) (v0 : T) (cell : N) (progs : list (list (call T)))
    (s1 s2 : list (nat * nat)),
  AtomicOrdinal_new O v0 = Val cell ->
  exists t1 t2 vs1 vs2,
    views (fst (execute O (fun _ => sc_apply) progs cell s1)) = Some vs1 /\
    views (fst (execute O (fun _ => sc_apply) progs cell (s1 ++ s2))) = Some vs2 /\
    register_trace eqd v0 t1 /\ explains_partly O progs t1 vs1 /\
    register_trace eqd v0 (t1 ++ t2) /\ explains_partly O progs (t1 ++ t2) vs2.
Proof. exact @sc_linearizable. Qed.
Print Assumptions C91_one_variable.

(** Reads that may return any earlier write. *)
Theorem C91_weak_memory : forall (T : Type) (O : Ordinal T), undone O ->
  (forall a b : T, {a = b} + {a <> b}) ->
  forall (v0 : T) (cell : N) (progs : list (list (call T))) (s1 s2 : list (nat * nat)),
  AtomicOrdinal_new O v0 = Val cell ->
  exists t1 t2 vs1 vs2,
    views (fst (execute O weak_apply progs [cell] s1)) = Some vs1 /\
    views (fst (execute O weak_apply progs [cell] (s1 ++ s2))) = Some vs2 /\
    stale_trace v0 t1 /\ explains_partly O progs t1 vs1 /\
    stale_trace v0 (t1 ++ t2) /\ explains_partly O progs (t1 ++ t2) vs2.
Proof. exact @weak_sound. Qed.
Print Assumptions C91_weak_memory.

(** A thread none of whose calls panics completes, whatever becomes of the others. *)
Theorem C91_wait_free : forall (T : Type) (O : Ordinal T), undone O ->
  (forall a b : T, {a = b} + {a <> b}) ->
  forall (v0 : T) (cell : N) (progs : list (list (call T))) (sched : list (nat * nat)) (i : nat) (p : list (call T)),
  AtomicOrdinal_new O v0 = Val cell ->
  nth_error progs i = Some p -> Forall (fun c => forall why, ~ dies O c why) p ->
  (3 * length p <= turns i sched)%nat ->
  exists vs w, views (fst (execute O (fun _ => sc_apply) progs cell sched)) = Some vs /\
    nth_error vs i = Some w /\ v_begun w = p /\ length (v_returned w) = length p /\ v_panic w = None.
Proof. exact @sc_wait_free. Qed.
Print Assumptions C91_wait_free.

Theorem C91_wait_free_weak_memory : forall (T : Type) (O : Ordinal T), undone O ->
  (forall a b : T, {a = b} + {a <> b}) ->
  forall (v0 : T) (cell : N) (progs : list (list (call T))) (sched : list (nat * nat)) (i : nat) (p : list (call T)),
  AtomicOrdinal_new O v0 = Val cell ->
  nth_error progs i = Some p -> Forall (fun c => forall why, ~ dies O c why) p ->
  (3 * length p <= turns i sched)%nat ->
  exists vs w, views (fst (execute O weak_apply progs [cell] sched)) = Some vs /\
    nth_error vs i = Some w /\ v_begun w = p /\ length (v_returned w) = length p /\ v_panic w = None.
Proof. exact @weak_wait_free. Qed.
Print Assumptions C91_wait_free_weak_memory.

(** ** Implementations that meet the hypothesis *)
Theorem C91_lawful : forall (cfg : Config) (T : Type) (O : Ordinal T) (n : N), ordinal_bijection O n -> undone O.
Proof. exact @bijection_undone. Qed.
Print Assumptions C91_lawful.

Theorem C91_too_many_values : forall (cfg : Config) (t : ty), overflow_checks = true ->
  inst_ordinal t = Val tt -> undone (impl_of t).
Proof. exact @inst_undone. Qed.
Print Assumptions C91_too_many_values.

(** One that refuses [Eq]. *)
Definition fussy : Ordinal comparison :=
  {| ORDINAL_SIZE := Val 2;
     ordinal := fun c => match c with Lt => Val 0 | Gt => Val 1 | Eq => Panic PUser end;
     from_ordinal := fun i => Val (if i =? 0 then Some Lt else if i =? 1 then Some Gt else None) |}.

(** The second thread stores [Eq] and panics; the first one goes on and never sees it. *)
Example C91_case :
  undone fussy /\ dies fussy (CStore Eq Acquire) PUser /\ dies fussy (CStore Lt Acquire) POrdering /\
  (forall why, ~ dies fussy (CCas Lt Gt SeqCst SeqCst) why) /\
  AtomicOrdinal_new fussy Lt = Val 0 /\ AtomicOrdinal_new fussy Eq = Panic PUser /\
  option_map (map (fun w => (v_returned w, v_panic w))) (views (fst (execute fussy (fun _ => sc_apply)
    [[CCas Lt Gt SeqCst SeqCst; CLoad Acquire]; [CStore Gt Relaxed; CStore Eq Release; CStore Lt Release]] 0
    [(1, 0); (0, 0); (0, 0); (1, 0); (1, 0); (0, 0); (0, 0); (1, 0); (1, 0); (1, 0); (0, 0); (0, 0)]%nat)))
  = Some [([OOk Lt; OVal Gt], None); ([OUnit], Some PUser)].
Proof.
  split; [intros []; cbn; auto|]. split; [left; reflexivity|].
  split; [right; split; [cbn; discriminate|split; reflexivity]|].
  split; [intros w [[H|[_ H]]|(_ & H & _)]; discriminate H|].
  repeat split.
Qed.
