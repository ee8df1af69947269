(** * PropAtomic: properties C23 - C25 and C63 (atomic.rs).

    [execute O mem progs m0 sched]: threads running the programs [progs] of calls on one
    AtomicOrdinal, interleaved per [sched] (ModelAtomic.v), where each call is three steps:
    begin, the access to the AtomicUsize, return. [explains], [register_trace],
    [stale_trace]: SpecAtomic.v. The trace of a longer run extends that of a shorter one,
    so the order of the trace respects real time. *)
From Verif Require Import Base Spec SpecAtomic ModelOrdinal ModelAtomic OrdinalProofs AtomicProofs.
From Coq Require Import List.
Import ListNotations.

(** ** C23 *)
Theorem C23_linearizable_register : forall (cfg : Config) (T : Type) (O : Ordinal T) (n : N),
  ordinal_bijection O n ->
  forall (eqd : forall a b : T, {a = b} + {a <> b}) (v0 : T) (cell : N) (progs : list (list (call T)))
    (s1 s2 : list (nat * nat)),
  AtomicOrdinal_new O v0 = Val cell ->
  exists t1 t2 vs1 vs2,
    views (fst (execute O (fun _ => sc_apply) progs cell s1)) = Some vs1 /\
    views (fst (execute O (fun _ => sc_apply) progs cell (s1 ++ s2))) = Some vs2 /\
    register_trace eqd v0 t1 /\ explains progs t1 vs1 /\
    register_trace eqd v0 (t1 ++ t2) /\ explains progs (t1 ++ t2) vs2.
Proof. exact @sc_linearizable. Qed.
Print Assumptions C23_linearizable_register.

(** Every call on its own: the result and the new content are those of a variable. *)
Theorem C23_sequential_calls : forall (cfg : Config) (T : Type) (O : Ordinal T) (n : N),
  ordinal_bijection O n ->
  forall (eqd : forall a b : T, {a = b} + {a <> b}) (c : call T) (t : T) (i : N),
  ordinal O t = Val i -> legal c = true ->
  exists j, call_alone O c i = (Val (fst (reg_step eqd c t)), j) /\
    ordinal O (snd (reg_step eqd c t)) = Val j.
Proof. exact @call_alone_legal. Qed.
Print Assumptions C23_sequential_calls.

(** Two threads race to replace [Lt]; the second one loses and sees the first one's value. *)
Example C23_case :
  AtomicOrdinal_new Ordinal_Ordering Lt = Val 0 /\
  option_map (map (@v_returned comparison)) (views (fst (execute Ordinal_Ordering (fun _ => sc_apply)
    [[CCas Lt Gt SeqCst SeqCst; CLoad Acquire]; [CCas Lt Eq AcqRel Relaxed; CStore Lt Release]] 0
    [(1, 0); (0, 0); (0, 0); (1, 0); (1, 0); (0, 0); (0, 0); (1, 0); (1, 0); (0, 0); (0, 0)]%nat)))
  = Some [[OOk Lt; OVal Lt]; [OErr Gt]].
Proof. split; reflexivity. Qed.

(** ** C24 *)
Theorem C24_weak_memory_decodes : forall (cfg : Config) (T : Type) (O : Ordinal T) (n : N),
  ordinal_bijection O n ->
  (forall a b : T, {a = b} + {a <> b}) ->
  forall (v0 : T) (cell : N) (progs : list (list (call T))) (s1 s2 : list (nat * nat)),
  AtomicOrdinal_new O v0 = Val cell ->
  exists t1 t2 vs1 vs2,
    views (fst (execute O weak_apply progs [cell] s1)) = Some vs1 /\
    views (fst (execute O weak_apply progs [cell] (s1 ++ s2))) = Some vs2 /\
    stale_trace v0 t1 /\ explains progs t1 vs1 /\
    stale_trace v0 (t1 ++ t2) /\ explains progs (t1 ++ t2) vs2.
Proof. exact @weak_sound. Qed.
Print Assumptions C24_weak_memory_decodes.

(** A load after a store may still see the initial value. *)
Example C24_case :
  AtomicOrdinal_new Ordinal_Ordering Lt = Val 0 /\
  option_map (map (@v_returned comparison)) (views (fst (execute Ordinal_Ordering weak_apply
    [[CStore Gt Relaxed]; [CLoad Relaxed; CLoad Relaxed]] [0]
    [(0, 0); (0, 0); (0, 0); (1, 0); (1, 1); (1, 0); (1, 0); (1, 0); (1, 0)]%nat)))
  = Some [[OUnit]; [OVal Gt; OVal Lt]].
Proof. split; reflexivity. Qed.

(** ** C25 *)
Theorem C25_panics_exactly_on_illegal_orderings : forall (cfg : Config) (T : Type) (O : Ordinal T) (n : N),
  ordinal_bijection O n ->
  (forall a b : T, {a = b} + {a <> b}) ->
  forall (c : call T) (t : T) (i : N),
  ordinal O t = Val i ->
  ((exists why, fst (call_alone O c i) = Panic why) <->
   match c with
   | CLoad o => o = Release \/ o = AcqRel
   | CStore _ o => o = Acquire \/ o = AcqRel
   | CCas _ _ _ failure => failure = Release \/ failure = AcqRel
   | CDebug => False
   end) /\
  ((exists why, fst (call_alone O c i) = Panic why) -> snd (call_alone O c i) = i).
Proof. exact @panics_exactly. Qed.
Print Assumptions C25_panics_exactly_on_illegal_orderings.

Example C25_case :
  call_alone Ordinal_Ordering (CCas Lt Gt SeqCst Release) 0 = (Panic POrdering, 0) /\
  call_alone Ordinal_Ordering (CCas Lt Gt Relaxed SeqCst) 0 = (Val (OOk Lt), 2).
Proof. split; reflexivity. Qed.

(** ** C63 *)
Theorem C63_wait_free : forall (cfg : Config) (T : Type) (O : Ordinal T) (n : N),
  ordinal_bijection O n ->
  (forall a b : T, {a = b} + {a <> b}) ->
  forall (v0 : T) (cell : N) (progs : list (list (call T))) (sched : list (nat * nat)) (i : nat) (p : list (call T)),
  AtomicOrdinal_new O v0 = Val cell ->
  nth_error progs i = Some p -> Forall (fun c => legal c = true) p ->
  (3 * length p <= turns i sched)%nat ->
  exists vs w, views (fst (execute O (fun _ => sc_apply) progs cell sched)) = Some vs /\
    nth_error vs i = Some w /\ v_begun w = p /\ length (v_returned w) = length p /\ v_panic w = None.
Proof. exact @sc_wait_free. Qed.
Print Assumptions C63_wait_free.

Theorem C63_wait_free_weak_memory : forall (cfg : Config) (T : Type) (O : Ordinal T) (n : N),
  ordinal_bijection O n ->
  (forall a b : T, {a = b} + {a <> b}) ->
  forall (v0 : T) (cell : N) (progs : list (list (call T))) (sched : list (nat * nat)) (i : nat) (p : list (call T)),
  AtomicOrdinal_new O v0 = Val cell ->
  nth_error progs i = Some p -> Forall (fun c => legal c = true) p ->
  (3 * length p <= turns i sched)%nat ->
  exists vs w, views (fst (execute O weak_apply progs [cell] sched)) = Some vs /\
    nth_error vs i = Some w /\ v_begun w = p /\ length (v_returned w) = length p /\ v_panic w = None.
Proof. exact @weak_wait_free. Qed.
Print Assumptions C63_wait_free_weak_memory.

Example C63_case :
  nth_error [[CLoad SeqCst]; [CStore Gt Release; CDebug]] 1 = Some [CStore Gt Release; @CDebug comparison] /\
  Forall (fun c => legal c = true) [CStore Gt Release; @CDebug comparison] /\
  (3 * length [CStore Gt Release; @CDebug comparison] <= turns 1 [(1, 0); (0, 0); (1, 0); (1, 0); (1, 0); (1, 0); (1, 0)])%nat.
Proof. split; [reflexivity|]. split; [repeat constructor|]. cbn. lia. Qed.
