(** * PropBuild: C105 (properties.jsonl).

    [c] and [d]: two configurations, that is widths of usize and settings of the overflow checks and
    debug assertions. Programs catch panics (ModelCatch.v, ModelResume.v); [Ordinal] is implemented in
    any way, and for maps each call may find another implementation, so that [ordinal] and
    [from_ordinal] may answer as they like. *)
From Verif Require Import Base Spec SpecMap SpecTotal SpecSet SpecCatch SpecBuild ModelOrdinal ModelValues ModelArrayBuilder
  ModelIter ModelTotal ModelMap ModelSet ModelResume ModelUnwind ModelCatch MapMachine TotalMachine SetMachine BuildProofs4.
From Coq Require Import List. Import ListNotations.

(** ** Maps: nothing depends on the configuration. *)
Theorem C105_maps : forall (c d : Config) (K V : Type) (ops : list (Ordinal K * map_op K V)),
  Forall (fun p => sized_both c d (fst p)) ops ->
  forall m : @OrdinalMap V, llen m <= @usize_max c -> llen m <= @usize_max d ->
  catch_run (fun p => @heap_act c K V (fst p) (snd p)) ops m = catch_run (fun p => @heap_act d K V (fst p) (snd p)) ops m.
Proof. exact @build_heap. Qed.
Print Assumptions C105_maps.

Theorem C105_array_maps : forall (c d : Config) (K V : Type) (S : nat) (ops : list (Ordinal K * map_op K V)),
  N.of_nat S <= @usize_max c -> N.of_nat S <= @usize_max d -> forall m : @OrdinalArrayMap V S,
  catch_run (fun p => @array_act c K V (fst p) S (snd p)) ops m = catch_run (fun p => @array_act d K V (fst p) S (snd p)) ops m.
Proof. exact @build_array. Qed.
Print Assumptions C105_array_maps.

Theorem C105_total_maps : forall (c d : Config) (K V : Type) (ops : list (Ordinal K * total_op K V)) (m : @OrdinalTotalMap V),
  llen m <= @usize_max c -> llen m <= @usize_max d ->
  catch_run (fun p => @htotal_act c K V (fst p) (snd p)) ops m = catch_run (fun p => @htotal_act d K V (fst p) (snd p)) ops m.
Proof. exact @build_htotal. Qed.
Print Assumptions C105_total_maps.

Theorem C105_total_array_maps : forall (c d : Config) (K V : Type) (S : nat) (ops : list (Ordinal K * total_op K V)),
  N.of_nat S <= @usize_max c -> N.of_nat S <= @usize_max d -> forall m : OrdinalTotalArrayMap S V,
  catch_run (fun p => @atotal_act c K V (fst p) S (snd p)) ops m = catch_run (fun p => @atotal_act d K V (fst p) S (snd p)) ops m.
Proof. exact @build_atotal. Qed.
Print Assumptions C105_total_array_maps.

(** [retain], whatever the closure does to its state, and [map]. *)
Theorem C105_retain : forall (c d : Config) (K V : Type) (S : nat) (O : Ordinal K) (St : Type)
  (f : St -> K -> V -> St * V * res bool) (m : @OrdinalArrayMap V S) (st : St),
  N.of_nat S <= @usize_max c -> N.of_nat S <= @usize_max d ->
  @OrdinalArrayMap_retain c K V O S St f m st = @OrdinalArrayMap_retain d K V O S St f m st.
Proof. exact @build_retain. Qed.
Print Assumptions C105_retain.

Theorem C105_map : forall (c d : Config) (K V : Type) (S : nat) (O : Ordinal K) (W St : Type)
  (f : St -> K -> V -> St * res W) (m : OrdinalTotalArrayMap S V) (st : St),
  N.of_nat S <= @usize_max c -> N.of_nat S <= @usize_max d ->
  @OrdinalTotalArrayMap_map c K O S V W St f m st = @OrdinalTotalArrayMap_map d K O S V W St f m st.
Proof. exact @build_map. Qed.
Print Assumptions C105_map.

(** Iterators over the slots of a map, when panics are caught and the iterator is used further. *)
Theorem C105_iterators : forall (c d : Config) (U T : Type) (from : U -> N -> U * res (option T)) (sched : list dir) (u : U),
  (forall (V : Type) (m : list (option V)), llen m <= @usize_max c -> llen m <= @usize_max d ->
    run_caught (@sparse_resume_step c U T from V) sched (u, enumerate_new m 0) =
    run_caught (@sparse_resume_step d U T from V) sched (u, enumerate_new m 0)) /\
  (forall (V : Type) (m : list V), llen m <= @usize_max c -> llen m <= @usize_max d ->
    run_caught (@enumerate_resume c U T from V) sched (u, enumerate_new m 0) =
    run_caught (@enumerate_resume d U T from V) sched (u, enumerate_new m 0)) /\
  (forall (V : Type) (m : list (option V)), llen m <= @usize_max c -> llen m <= @usize_max d ->
    run_caught (@iter_mut_resume_step c U T V from m) sched (u, TIterMut_new (slots (length m))) =
    run_caught (@iter_mut_resume_step d U T V from m) sched (u, TIterMut_new (slots (length m)))) /\
  (forall (V : Type) (m : list (option V)), llen m <= @usize_max c -> llen m <= @usize_max d ->
    run_caught (@drain_resume_step c U T from V) sched (u, Drain_new m (TIterMut_new (slots (length m)))) =
    run_caught (@drain_resume_step d U T from V) sched (u, Drain_new m (TIterMut_new (slots (length m))))) /\
  (forall (V : Type) (m : list (option V)), llen m <= @usize_max c -> llen m <= @usize_max d ->
    @drain_use c U T V from sched (u, Drain_new m (TIterMut_new (slots (length m)))) =
    @drain_use d U T V from sched (u, Drain_new m (TIterMut_new (slots (length m))))) /\
  (forall s, s <= u64_max ->
    run_caught (@iter64_resume c U T from) sched (u, s) = run_caught (@iter64_resume d U T from) sched (u, s)) /\
  (forall (O : Ordinal T) (words : list N) st,
    run_caught (set_resume_step from (@OrdinalSetRef_contains c T O words)) sched (u, st) =
    run_caught (set_resume_step from (@OrdinalSetRef_contains d T O words)) sched (u, st)).
Proof. exact build_iterators. Qed.
Print Assumptions C105_iterators.

(** ** Sets: all that depends on the configuration is what a type without values, a type with
    almost as many values as usize, and an [ordinal] of 64 or more lead to. *)
Theorem C105_sets : forall (c d : Config) (T : Type) (O : Ordinal T) (n : N), ORDINAL_SIZE O = Val n ->
  n <= @usize_max c -> n <= @usize_max d ->
  n <> 0 \/ @debug_assertions c = @debug_assertions d ->
  @usize_width c = @usize_width d \/ n <= 64 \/ n + 64 <= @usize_max c /\ n + 64 <= @usize_max d ->
  forall s0 ops, OrdinalSet_new O = Val s0 -> catch_run (@set_act c T O) ops s0 = catch_run (@set_act d T O) ops s0.
Proof. exact @build_set. Qed.
Print Assumptions C105_sets.

Theorem C105_array_sets : forall (c d : Config) (T : Type) (O : Ordinal T) (n : N), ORDINAL_SIZE O = Val n ->
  n <= @usize_max c -> n <= @usize_max d -> forall (S : nat) ops (s : OrdinalArraySet S),
  catch_run (@array_set_act c T O S) ops s = catch_run (@array_set_act d T O S) ops s.
Proof. exact @build_array_set. Qed.
Print Assumptions C105_array_sets.

Theorem C105_set64 : forall (c d : Config) (T : Type) (O : Ordinal T) (n : N), ORDINAL_SIZE O = Val n ->
  n <= @usize_max c -> n <= @usize_max d -> n <= 64 ->
  n <> 0 \/ @debug_assertions c = @debug_assertions d ->
  (forall t i, ordinal O t = Val i -> i < 64) \/ @overflow_checks c = @overflow_checks d ->
  forall s ops, s <= u64_max -> catch_run (@set64_act c T O) ops s = catch_run (@set64_act d T O) ops s.
Proof. exact @build_set64. Qed.
Print Assumptions C105_set64.

(** OrdinalSet64::all: exactly the size 64 makes a difference (C55). *)
Theorem C105_set64_all : forall (c d : Config) (T : Type) (O : Ordinal T) (n : N), ORDINAL_SIZE O = Val n -> n <= 64 ->
  (@OrdinalSet64_all c T O = @OrdinalSet64_all d T O <-> n < 64 \/ @overflow_checks c = @overflow_checks d).
Proof. exact @build_all64. Qed.
Print Assumptions C105_set64_all.

(** A run with all checks in which none fails is the same run in every build for that width. *)
Theorem C105_checked_sets : forall (c d : Config) (T : Type) (O : Ordinal T) (n : N), ORDINAL_SIZE O = Val n ->
  n <= @usize_max c -> n <= @usize_max d -> all_checks c -> @usize_width c = @usize_width d ->
  forall s0 ops outs s, OrdinalSet_new O = Val s0 ->
  catch_run (@set_act c T O) ops s0 = Some (outs, s) -> (forall w, In (Caught w) outs -> ~ failed_check w) ->
  catch_run (@set_act d T O) ops s0 = Some (outs, s).
Proof. exact @checked_set. Qed.
Print Assumptions C105_checked_sets.

Theorem C105_checked_set64 : forall (c d : Config) (T : Type) (O : Ordinal T) (n : N), ORDINAL_SIZE O = Val n ->
  n <= @usize_max c -> n <= @usize_max d -> all_checks c -> n <= 64 ->
  forall s0 ops outs s, s0 <= u64_max ->
  catch_run (@set64_act c T O) ops s0 = Some (outs, s) -> (forall w, In (Caught w) outs -> ~ failed_check w) ->
  catch_run (@set64_act d T O) ops s0 = Some (outs, s).
Proof. exact @checked_set64. Qed.
Print Assumptions C105_checked_set64.

(** ** Examples *)

(** Calls that return and calls that panic, the implementation changing in between. *)
Example C105_case_map :
  let ops := [(sloppy 3, OpInsert 2 5); (sloppy 9, OpInsert 7 6); (sloppy 3, OpGet 13); (sloppy 3, OpGet 2)] in
  Forall (fun p : Ordinal N * map_op N N => sized_both debug64 release32 (fst p)) ops /\
  catch_run (fun p => @heap_act debug64 N N (fst p) (snd p)) ops OrdinalMap_new =
    Some ([Seen (OutValue None); Caught PIndex; Caught PUser; Seen (OutValue (Some 5))], [None; None; Some 5]).
Proof.
  split; [|vm_compute; reflexivity].
  repeat constructor; intros n [= <-]; vm_compute; discriminate.
Qed.

(** The exceptions are real. An [ordinal] of 70 in an OrdinalSet64: *)
Example C105_case_set64 :
  catch_run (@set64_act debug64 N (sloppy 3)) [SInsert 70; SContains 6] 0 = Some ([Caught POverflow; Seen (SBool false)], 0) /\
  catch_run (@set64_act release64 N (sloppy 3)) [SInsert 70; SContains 6] 0 = Some ([Seen (SBool true); Seen (SBool true)], 64).
Proof. split; vm_compute; reflexivity. Qed.
(** a type without values: *)
Example C105_case_empty :
  catch_run (@set_act debug64 N (sloppy 0)) [SIter []] (Small 0) = Some ([Caught PDebugAssert], Small 0) /\
  catch_run (@set_act release64 N (sloppy 0)) [SIter []] (Small 0) = Some ([Seen (SItems [])], Small 0).
Proof. split; vm_compute; reflexivity. Qed.
(** almost as many values as usize: *)
Example C105_case_large :
  snd (@set_act release32 N (sloppy 4294967290) (SInsert 13) (Large [])) = Unwinds PUnwrap /\
  snd (@set_act release64 N (sloppy 4294967290) (SInsert 13) (Large [])) = Unwinds PUser.
Proof. split; lazy; reflexivity. Qed.
(** A run in which no check fails, with panics of [ordinal]: *)
Example C105_case_checked :
  all_checks debug64 /\
  catch_run (@set64_act debug64 N (sloppy 3)) [SInsert 2; SInsert 13; SIter [Front; Front]; SDebug] 0 =
    Some ([Seen (SBool true); Caught PUser; Seen (SItems [Some 2; None]); Seen (SElems [2])], 4) /\
  forall w, In (Caught w) [Seen (SBool true); Caught PUser; Seen (SItems [Some 2; None]); Seen (SElems [2])] -> ~ failed_check w.
Proof.
  split; [now split|]. split; [vm_compute; reflexivity|]. intros w H. cbn in H.
  repeat destruct H as [H|H]; try discriminate H; [|destruct H]. injection H as <-. intros [E|E]; discriminate E.
Qed.
