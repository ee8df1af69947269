(** * SetMachine: client programs run on the model of the three sets.

    Each operation of SpecSet is carried out by calling the modelled functions of set/. *)
From Verif Require Import Base Spec SpecSet ModelOrdinal ModelValues ModelArrayBuilder ModelSet.

Section Run.
  Context {St Op Out : Type} (step : Op -> St -> res (Out * St)).
  Fixpoint run_ops (ops : list Op) (s : St) : res (list Out * St) :=
    match ops with
    | [] => Val ([], s)
    | op :: ops' =>
        '(o, s1) <- step op s ;;
        '(os, s2) <- run_ops ops' s1 ;;
        Val (o :: os, s2)
    end.
End Run.

Section Machine.
  Context {cfg : Config} {T : Type} (O : Ordinal T).

  Definition set_step (op : set_op T) (s : OrdinalSet) : res (set_out T * OrdinalSet) :=
    match op with
    | SInsert t => '(b, s) <- OrdinalSet_insert O s t ;; Val (SBool b, s)
    | SContains t => b <- OrdinalSet_contains O s t ;; Val (SBool b, s)
    | SIter sched =>
        it <- OrdinalSet_iter O s ;;
        '(got, _) <- drive (SetIter_step O) sched it ;; Val (SItems got, s)
    | SFromIter l => s <- OrdinalSet_from_iter O l ;; Val (SUnit_, s)
    | SClone => Val (SUnit_, OrdinalSet_clone s)
    | SDebug => l <- OrdinalSet_debug O s ;; Val (SElems l, s)
    end.
  Definition set_run := run_ops set_step.

  Definition array_set_step {S : nat} (op : set_op T) (s : OrdinalArraySet S)
      : res (set_out T * OrdinalArraySet S) :=
    match op with
    | SInsert t => '(b, s) <- OrdinalArraySet_insert O s t ;; Val (SBool b, s)
    | SContains t => b <- OrdinalArraySet_contains O s t ;; Val (SBool b, s)
    | SIter sched => NoCompile             (* OrdinalArraySet has no [iter] *)
    | SFromIter l => s <- OrdinalArraySet_from_iter O S l ;; Val (SUnit_, s)
    | SClone => Val (SUnit_, OrdinalArraySet_clone s)
    | SDebug => l <- OrdinalArraySet_debug O s ;; Val (SElems l, s)
    end.
  Definition array_set_run {S : nat} := run_ops (@array_set_step S).

  Definition set64_step (op : set_op T) (s : OrdinalSet64) : res (set_out T * OrdinalSet64) :=
    match op with
    | SInsert t => '(b, s) <- OrdinalSet64_insert O s t ;; Val (SBool b, s)
    | SContains t => b <- OrdinalSet64_contains O s t ;; Val (SBool b, s)
    | SIter sched =>
        it <- OrdinalSet64_iter O s ;;
        '(got, _) <- drive (Iter64_step O) sched it ;; Val (SItems got, s)
    | SFromIter l => s <- OrdinalSet64_from_iter O l ;; Val (SUnit_, s)
    | SClone => Val (SUnit_, OrdinalSet64_clone s)
    | SDebug => l <- OrdinalSet64_debug O s ;; Val (SElems l, s)
    end.
  Definition set64_run := run_ops set64_step.

  (** The sets that programs can produce. *)
  Definition set_reachable (s : OrdinalSet) : Prop :=
    exists s0 ops outs, OrdinalSet_new O = Val s0 /\ set_run ops s0 = Val (outs, s).
  Definition array_set_reachable {S : nat} (s : OrdinalArraySet S) : Prop :=
    exists s0 ops outs, OrdinalArraySet_new O S = Val s0 /\ array_set_run ops s0 = Val (outs, s).
  Definition set64_reachable (s : OrdinalSet64) : Prop :=
    exists s0 ops outs, (OrdinalSet64_new O = Val s0 \/ OrdinalSet64_all O = Val s0) /\
      set64_run ops s0 = Val (outs, s).
End Machine.
