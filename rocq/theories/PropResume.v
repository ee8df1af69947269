(** * PropResume: C80, iterators after a caught panic.

    [run_caught step sched s]: the outcomes of a schedule of [next]/[next_back] calls, each
    inside its own [catch_unwind]. [answers from u qs]: the answers of the user's
    [from_ordinal] to the questions [qs], one after another, failures included.
    [lagging from lag u qs]: the same when the ordinal asked for is [lag] below the position
    of the item, where [lag] grows by one with each failing [next]. *)
From Verif Require Import Base Spec SpecValues SpecIter SpecResume ModelOrdinal ModelValues ModelIter ModelSet ModelResume
  OrdinalProofs ResumeProofs ResumeCases.
From Coq Require Import List Permutation. Import ListNotations.

(** ** The steps are those of the other model files, plus the state after a panic. *)
Theorem C80_same_steps : forall (cfg : Config) (K V : Type) (O : Ordinal K) (d : dir),
  (forall s, values_step O d s = forget (values_resume (pure_from O) d (tt, s))) /\
  (forall s, Iter64_step O d s = forget (iter64_resume (pure_from O) d (tt, s))) /\
  (forall s : enumerate V, TIter_step O d s = forget (enumerate_resume (pure_from O) d (tt, s))) /\
  (forall s : enumerate (option V), Iter_step O d s = forget (sparse_resume_step (pure_from O) d (tt, s))).
Proof. exact (fun cfg K V O d => conj (values_agree O d) (conj (iter64_agree O d) (conj (enumerate_agree O d) (iter_agree O d)))). Qed.
Print Assumptions C80_same_steps.

(** ** all_values and OrdinalSet64: every ordinal is asked for once, in order, failures or not. *)
Theorem C80_all_values : forall (U T : Type) (from : U -> N -> U * res (option T)) (n : N) (sched : list dir) (u : U),
  exists s', run_caught (values_resume from) sched (u, {| r_start := 0; r_end := n |}) =
    (fst (answers from u (fst (deque_run sched (ordinals n)))),
     (snd (answers from u (fst (deque_run sched (ordinals n)))), s')) /\
    values_len s' = llen (snd (deque_run sched (ordinals n))).
Proof. exact @values_caught. Qed.
Print Assumptions C80_all_values.
Theorem C80_set64 : forall (cfg : Config) (U T : Type) (from : U -> N -> U * res (option T)) (w : N) (sched : list dir) (u : U),
  w < 2 ^ 64 ->
  let members := filter (N.testbit w) (ordinals 64) in
  exists s', run_caught (iter64_resume from) sched (u, w) =
    (fst (answers from u (fst (deque_run sched members))), (snd (answers from u (fst (deque_run sched members))), s')).
Proof. exact @iter64_caught. Qed.
Print Assumptions C80_set64.

(** ** Maps: exactly which ordinal is asked for. *)
Theorem C80_total_map_exact : forall (cfg : Config) (U T A : Type) (from : U -> N -> U * res (option T)) (items : list A)
  (sched : list dir) (u : U),
  llen items <= usize_max ->
  fst (run_caught (enumerate_resume from) sched (u, enumerate_new items 0)) = lagging from 0 u (calls sched items).
Proof. exact @enumerate_caught. Qed.
Print Assumptions C80_total_map_exact.

(** [no_zero]: an impl for [Ordering] that panics for ordinal 0 and is right otherwise;
    [fails_once]: one that panics in the first call only (ResumeCases.v). *)

(** The full statement, "a pair handed out is right", is false: after a failing [next] the
    keys are one too low, at both ends, in total maps and in sparse maps. *)
Theorem C80_pairs_refuted : forall cfg : Config,
  exists r, In r (fst (run_caught (enumerate_resume (pure_from no_zero)) [Front; Back] (tt, enumerate_new [10; 20; 30] 0))) /\
    ~ pair_right no_zero [10; 20; 30] r.
Proof. exact pairs_refuted. Qed.
Print Assumptions C80_pairs_refuted.
Theorem C80_sparse_pairs_refuted : forall cfg : Config,
  exists r, In r (fst (run_caught (sparse_resume_step fails_once) [Front; Front]
                    (true, enumerate_new [Some 10; Some 20; None] 0))) /\
    ~ some_right Ordinal_Ordering [Some 10; Some 20; None] r.
Proof. exact sparse_pairs_refuted. Qed.
Print Assumptions C80_sparse_pairs_refuted.
Example C80_refuted_case : forall cfg : Config,
  fst (run_caught (enumerate_resume (pure_from no_zero)) [Front; Back; Back; Back] (tt, enumerate_new [10; 20; 30] 0)) =
    [Panic PUser; Val (Some (Eq, 30)); Panic PUser; Val None] /\
  fst (run_caught (enumerate_resume fails_once) [Front; Front; Front] (true, enumerate_new [10; 20; 30] 0)) =
    [Panic PUser; Val (Some (Lt, 20)); Val (Some (Eq, 30))] /\
  lagging fails_once 0 true (calls [Front; Front; Front] [10; 20; 30]) =
    [Panic PUser; Val (Some (Lt, 20)); Val (Some (Eq, 30))].
Proof. intros [[] [] []]; repeat split; vm_compute; reflexivity. Qed.

(** What holds: as long as no [next] has failed, pairs are right (failing [next_back]s do no
    harm). [from] may have a state; its successful answers must be right. *)
Theorem C80_total_pairs_partial : forall (cfg : Config) (U K V : Type) (from : U -> N -> U * res (option K)) (O : Ordinal K),
  (forall u i u' k, i <= usize_max -> from u i = (u', Val (Some k)) -> ordinal O k = Val i) ->
  forall (items : list V) (sched : list dir) (u : U), llen items <= usize_max ->
  front_never_fails sched (fst (run_caught (enumerate_resume from) sched (u, enumerate_new items 0))) ->
  Forall (pair_right O items) (fst (run_caught (enumerate_resume from) sched (u, enumerate_new items 0))).
Proof. exact @total_pairs. Qed.
Print Assumptions C80_total_pairs_partial.
Theorem C80_sparse_pairs_partial : forall (cfg : Config) (U K V : Type) (from : U -> N -> U * res (option K)) (O : Ordinal K),
  (forall u i u' k, i <= usize_max -> from u i = (u', Val (Some k)) -> ordinal O k = Val i) ->
  forall (items : list (option V)) (sched : list dir) (u : U), llen items <= usize_max ->
  front_never_fails sched (fst (run_caught (sparse_resume_step from) sched (u, enumerate_new items 0))) ->
  Forall (some_right O items) (fst (run_caught (sparse_resume_step from) sched (u, enumerate_new items 0))).
Proof. exact @sparse_pairs. Qed.
Print Assumptions C80_sparse_pairs_partial.
Example C80_back_failure_case : forall cfg : Config,
  let rs := fst (run_caught (enumerate_resume fails_once) [Back; Front; Back] (true, enumerate_new [10; 20; 30] 0)) in
  rs = [Panic PUser; Val (Some (Lt, 10)); Val (Some (Eq, 20))] /\
  fst (run_caught (sparse_resume_step fails_once) [Back; Front; Back] (true, enumerate_new [Some 10; Some 20; Some 30] 0)) = rs.
Proof. intros [[] [] []]; split; vm_compute; reflexivity. Qed.

(** With a lawful impl the only panics are those of an array longer than the key type
    ([from_array], C44), and no schedule gets a wrong pair. *)
Theorem C80_lawful_pairs_partial : forall (cfg : Config) (K V : Type) (O : Ordinal K) (n : N), lawful O n ->
  forall (items : list V) (sched : list dir) (u : unit), llen items <= usize_max ->
  Forall (pair_right O items) (fst (run_caught (enumerate_resume (pure_from O)) sched (u, enumerate_new items 0))).
Proof. exact @lawful_pairs_new. Qed.
Print Assumptions C80_lawful_pairs_partial.
Example C80_lawful_case : forall cfg : Config,
  fst (run_caught (enumerate_resume (pure_from Ordinal_bool)) [Front; Back; Back; Front; Back]
    (tt, enumerate_new [10; 20; 30; 40] 0)) =
    [Val (Some (false, 10)); Panic PUnwrap; Panic PUnwrap; Val (Some (true, 20)); Val None] /\
  fst (run_caught (values_resume (pure_from no_zero)) [Front; Front; Back; Back] (tt, {| r_start := 0; r_end := 3 |})) =
    [Panic PUser; Val (Some Eq); Val (Some Gt); Val None] /\
  fst (run_caught (iter64_resume (pure_from no_zero)) [Front; Back; Front] (tt, 5)) =
    [Panic PUser; Val (Some Gt); Val None].
Proof. intros [[] [] []]; repeat split; vm_compute; reflexivity. Qed.

(** ** set::Iter and Drain *)
Theorem C80_same_steps_set_and_drain : forall (cfg : Config) (K V : Type) (O : Ordinal K) (d : dir),
  (forall s : SetIter, SetIter_step O d s =
     ('(o, it) <- forget (set_resume_step (pure_from O) (OrdinalSetRef_contains O (si_set s)) d (tt, si_iter s)) ;;
      Val (o, {| si_iter := it; si_set := si_set s |}))) /\
  (forall s : @Drain V, Drain_step O d s = forget (drain_resume_step (pure_from O) d (tt, s))).
Proof. exact (fun cfg K V O d => conj (set_agree O d) (drain_agree O d)). Qed.
Print Assumptions C80_same_steps_set_and_drain.

(** No element is handed out twice, and only members are. *)
Theorem C80_set_iter : forall (U T : Type) (from : U -> N -> U * res (option T)) (O : Ordinal T) (contains : T -> res bool),
  (forall u i u' k, from u i = (u', Val (Some k)) -> ordinal O k = Val i) ->
  forall (sched : list dir) (u : U) (s : OrdinalValues),
  let ts := yielded (fst (run_caught (set_resume_step from contains) sched (u, s))) in
  NoDup ts /\ forall t, In t ts -> contains t = Val true /\ exists i, ordinal O t = Val i /\ r_start s <= i < r_end s.
Proof. exact @set_caught. Qed.
Print Assumptions C80_set_iter.
Example C80_set_iter_case :
  (forall u i u' k, fails_once u i = (u', Val (Some k)) -> ordinal Ordinal_Ordering k = Val i) /\
  fst (run_caught (set_resume_step fails_once (fun t => Val (match t with Eq => false | _ => true end)))
         [Back; Front; Front] (true, {| r_start := 0; r_end := 3 |})) = [Panic PUser; Val (Some Lt); Val None].
Proof. exact (conj fails_once_right eq_refl). Qed.

(** No value is lost or copied: it is handed out or still in its slot. *)
Theorem C80_drain_loses_nothing : forall (cfg : Config) (U K V : Type) (from : U -> N -> U * res (option K))
  (sched : list dir) (u : U) (s : @Drain V),
  Permutation (stored (fst s))
    (handed_out (fst (run_caught (drain_resume_step from) sched (u, s))) ++
     stored (fst (snd (snd (run_caught (drain_resume_step from) sched (u, s)))))).
Proof. exact @drain_caught. Qed.
Print Assumptions C80_drain_loses_nothing.
(** But a drained map need not be empty: the drain runs to its end and the value whose call
    failed is still there. *)
Theorem C80_drain_empties_refuted : forall cfg : Config, exists (outcomes : list (res (option (comparison * N)))) st,
  run_caught (drain_resume_step fails_once) [Front; Front; Front; Front] (true, ([Some 10; Some 20; Some 30], {| e_next := 0; e_items := [0; 1; 2] |}))
    = (outcomes, st) /\
  outcomes = [Panic PUser; Val (Some (Lt, 20)); Val (Some (Eq, 30)); Val None] /\
  fst (snd st) = [Some 10; None; None].
Proof. exact drain_refuted. Qed.
Print Assumptions C80_drain_empties_refuted.
