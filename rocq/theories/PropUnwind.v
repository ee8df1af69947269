(** * PropUnwind: C82, draining and clearing when [from_ordinal] panics; and C80 for IterMut.

    [drain_map from sched u before = (got, dropped, after, f)]: a Drain of a map with the
    slots [before] is made, [next] and [next_back] are called as [sched] says until one of
    them panics, and the Drain is dropped.  [got] is what the calls returned, [dropped] the
    entries the destructor removed, [after] the slots left and [f] how it ended. *)
From Verif Require Import Base Spec SpecMem SpecMap SpecValues SpecIter SpecResume SpecUnwind ModelOrdinal ModelValues ModelIter
  ModelResume ModelUnwind ResumeCases UnwindProofs UnwindProofs2.
From Coq Require Import List Permutation. Import ListNotations.

(** ** The destructor is the one of ModelIter.v, plus the state after a panic. *)
Theorem C82_same_destructor : forall (cfg : Config) (K V : Type) (O : Ordinal K) (s : @Drain V),
  Drain_drop O s = (let '(l, (_, s'), r) := drain_drop_resume (pure_from O) (tt, s) in r ;;; Val (fst s', l)).
Proof. exact @drain_drop_agree. Qed.
Print Assumptions C82_same_destructor.

(** ** Every value is returned, dropped or still in the map, exactly once. *)
Theorem C82_no_value_lost : forall (cfg : Config) (U K V : Type) (from : U -> N -> U * res (option K)) (before : list (option V))
  (sched : list dir) (u : U) (got : list (option (K * V))) (dropped : list (K * V)) (after : list (option V)) (f : fate),
  (forall u i, safe (snd (from u i))) -> llen before <= usize_max ->
  drain_map from sched u before = (got, dropped, after, f) ->
  f <> Wrong /\ length after = length before /\
  Permutation (stored before) (map snd (somes got) ++ map snd dropped ++ stored after).
Proof. exact @drain_no_loss. Qed.
Print Assumptions C82_no_value_lost.

(** ** Without a panic the map is empty afterwards. *)
Theorem C82_returned : forall (cfg : Config) (U K V : Type) (from : U -> N -> U * res (option K)) (before : list (option V))
  (sched : list dir) (u : U) (got : list (option (K * V))) (dropped : list (K * V)) (after : list (option V)) (f : fate),
  (forall u i, safe (snd (from u i))) -> llen before <= usize_max ->
  drain_map from sched u before = (got, dropped, after, f) ->
  f = Returned -> length got = length sched /\ Forall (fun o => o = None) after.
Proof. exact @drain_returned. Qed.
Print Assumptions C82_returned.

(** ** After one, the slots left are next to each other, and only one if a call panicked. *)
Theorem C82_unwound : forall (cfg : Config) (U K V : Type) (from : U -> N -> U * res (option K)) (before : list (option V))
  (sched : list dir) (u : U) (got : list (option (K * V))) (dropped : list (K * V)) (after : list (option V)) (f : fate),
  (forall u i, safe (snd (from u i))) -> llen before <= usize_max ->
  drain_map from sched u before = (got, dropped, after, f) ->
  forall w, f = Unwound w -> exists a b, (a < b <= length before)%nat /\ left_between a b before after /\
    ((length got < length sched)%nat -> b = S a).
Proof. exact @drain_unwound. Qed.
Print Assumptions C82_unwound.

(** ** The process is aborted only if [from_ordinal] fails twice. *)
Theorem C82_never_fails : forall (cfg : Config) (U K V : Type) (from : U -> N -> U * res (option K)) (before : list (option V))
  (sched : list dir) (u : U) (got : list (option (K * V))) (dropped : list (K * V)) (after : list (option V)) (f : fate),
  (forall u i, safe (snd (from u i))) -> llen before <= usize_max ->
  drain_map from sched u before = (got, dropped, after, f) ->
  fails_at_most from (length before) 0 u -> f = Returned.
Proof. exact @drain_never_fails. Qed.
Print Assumptions C82_never_fails.
Theorem C82_fails_once : forall (cfg : Config) (U K V : Type) (from : U -> N -> U * res (option K)) (before : list (option V))
  (sched : list dir) (u : U) (got : list (option (K * V))) (dropped : list (K * V)) (after : list (option V)) (f : fate),
  (forall u i, safe (snd (from u i))) -> llen before <= usize_max ->
  drain_map from sched u before = (got, dropped, after, f) ->
  fails_at_most from (length before) 1 u -> f <> Aborted.
Proof. exact @drain_fails_once. Qed.
Print Assumptions C82_fails_once.

(** ** clear: all slots are emptied, or those before the failing one; never an abort. *)
Theorem C82_clear : forall (cfg : Config) (U K V : Type) (from : U -> N -> U * res (option K)),
  (forall u i, safe (snd (from u i))) ->
  forall before : list (option V), llen before <= usize_max ->
  forall (u : U) (got : list (option (K * V))) (dropped : list (K * V)) (after : list (option V)) (f : fate),
  clear_map from u before = (got, dropped, after, f) ->
  got = [] /\ Permutation (stored before) (map snd dropped ++ stored after) /\
  (f = Returned /\ after = repeat None (length before) \/
   exists w a, f = Unwound w /\ (a < length before)%nat /\ left_between a (length before) before after).
Proof. exact @clear_facts. Qed.
Print Assumptions C82_clear.

(** ** IterMut after caught panics: the outcomes are those of Iter, and no slot is handed out
    twice, so that no two of the mutable references are to the same value. *)
Theorem C80_iter_mut_same_step : forall (cfg : Config) (K V : Type) (O : Ordinal K) (storage : list (option V)) (d : dir)
  (s : enumerate N),
  IterMut_step O storage d s = forget (iter_mut_resume_step (pure_from O) storage d (tt, s)).
Proof. exact @iter_mut_agree. Qed.
Print Assumptions C80_iter_mut_same_step.
Theorem C80_iter_mut : forall (cfg : Config) (U K V : Type) (from : U -> N -> U * res (option K)) (storage : list (option V))
  (sched : list dir) (u : U),
  let slots_run := run_caught (iter_mut_resume_step from storage) sched (u, TIterMut_new (slots (length storage))) in
  Forall2 (same_entry storage) (fst slots_run)
    (fst (run_caught (sparse_resume_step from) sched (u, enumerate_new storage 0))) /\
  NoDup (map snd (yielded (fst slots_run))).
Proof. exact @iter_mut_caught. Qed.
Print Assumptions C80_iter_mut.

(** ** Examples: three slots keyed by [Ordering]. *)
Example clear_fails_first : forall cfg : Config,
  clear_map fails_once true [Some 10; Some 20; Some 30] = ([], [], [Some 10; Some 20; Some 30], Unwound PUser).
Proof. intros [[] [] []]; reflexivity. Qed.
Example next_fails_once : forall cfg : Config,
  drain_map fails_once [Front; Front] true [Some 10; Some 20; Some 30]
    = ([], [(Lt, 20); (Eq, 30)], [Some 10; None; None], Unwound PUser).
Proof. intros [[] [] []]; reflexivity. Qed.
Example back_then_destructor : forall cfg : Config,
  drain_map (pure_from no_zero) [Back] tt [Some 10; None; Some 30]
    = ([Some (Gt, 30)], [], [Some 10; None; None], Unwound PUser).
Proof. intros [[] [] []]; reflexivity. Qed.
(** A second failure during unwinding: the process is aborted. *)
Example fails_twice : forall cfg : Config,
  drain_map (pure_from no_zero) [Front] tt [Some 10; Some 20; Some 30] = ([], [], [Some 10; Some 20; Some 30], Aborted).
Proof. intros [[] [] []]; reflexivity. Qed.
Example never_panics : forall cfg : Config,
  drain_map (pure_from Ordinal_Ordering) [Back; Front] tt [Some 10; Some 20; Some 30]
    = ([Some (Gt, 30); Some (Lt, 10)], [(Eq, 20)], [None; None; None], Returned).
Proof. intros [[] [] []]; reflexivity. Qed.
(** The hypotheses hold of these impls. *)
Example impls_safe : (forall u i, safe (snd (fails_once u i))) /\ (forall u i, safe (snd (pure_from no_zero u i))).
Proof. exact (conj fails_once_safe no_zero_safe). Qed.
Example impls_fail : fails_at_most (pure_from Ordinal_Ordering) 3 0 tt /\ fails_at_most fails_once 3 1 true.
Proof. exact (conj ordering_never fails_once_at_most). Qed.
Example mutable_slots : forall cfg : Config,
  fst (run_caught (iter_mut_resume_step fails_once [Some 10; None; Some 30]) [Front; Back; Front] (true, TIterMut_new (slots 3)))
    = [Panic PUser; Val (Some (Eq, 2)); Val None].
Proof. intros [[] [] []]; reflexivity. Qed.
