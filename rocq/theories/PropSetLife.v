(** * PropSetLife: C113 (properties.jsonl). *)
From Verif Require Import Base Spec SpecMap SpecSet SpecCatch SpecLifeRun SpecSetLife ModelOrdinal ModelValues ModelArrayBuilder
  ModelIter ModelSet SetMachine ModelCatch ModelLife ModelSetLife OrdinalProofs SetLifeProofs3.
From Coq Require Import List. Import ListNotations.

(** Every call is made inside [catch_unwind], with an implementation that is lawful except that its
    [ordinal] panics on some elements; the destructors of the elements may panic at any time. What the
    program sees, which elements are destroyed, in which order, and what the set contains in the end
    are as SpecSetLife.v says; the process is aborted exactly if it says so. The hypotheses on [n] are
    those of C50 and C52. *)
Theorem C113_set : forall (cfg : Config) (T : Type) (boom : list T -> T -> option panic) (O : Ordinal T) (n : N),
  ordinal_bijection O n ->
  forall (eqd : forall a b : T, {a = b} + {a <> b}) (ks : list T), enumeration O ks ->
  forall ops : list (Ordinal T * set_op T), n <= usize_max - 64 \/ n <= 64 -> 1 <= n \/ debug_assertions = false ->
  Forall (fun p => panicking_version (fst p) O) ops ->
  exists s0, OrdinalSet_new O = Val s0 /\
  match life_run (fun p => set_life_step boom eqd ks (fst p) true (snd p)) ops ([], ms_empty) with
  | Some (outs, (log, m)) => exists s,
      catch_run (fun p => set_life boom (fst p) (snd p)) ops ([], s0) = Some (outs, (log, s)) /\
      forall t, OrdinalSet_contains O s t = Val (m t)
  | None => exists ops1 p ops2 outs st, ops = ops1 ++ p :: ops2 /\
      catch_run (fun p => set_life boom (fst p) (snd p)) ops1 ([], s0) = Some (outs, st) /\
      snd (set_life boom (fst p) (snd p) st) = Aborts
  end.
Proof. exact @set_life_exact. Qed.
Print Assumptions C113_set.

(** OrdinalArraySet has no [iter]. *)
Theorem C113_array_set : forall (cfg : Config) (T : Type) (boom : list T -> T -> option panic) (O : Ordinal T) (n : N),
  ordinal_bijection O n ->
  forall (eqd : forall a b : T, {a = b} + {a <> b}) (ks : list T), enumeration O ks ->
  forall (S : nat) (ops : list (Ordinal T * set_op T)), N.of_nat S = (n + 63) / 64 ->
  Forall (fun p => panicking_version (fst p) O /\ not_iter (snd p) = true) ops ->
  exists s0 : OrdinalArraySet S, OrdinalArraySet_new O S = Val s0 /\
  match life_run (fun p => set_life_step boom eqd ks (fst p) true (snd p)) ops ([], ms_empty) with
  | Some (outs, (log, m)) => exists s,
      catch_run (fun p => array_set_life boom (fst p) (S := S) (snd p)) ops ([], s0) = Some (outs, (log, s)) /\
      forall t, OrdinalArraySet_contains O s t = Val (m t)
  | None => exists ops1 p ops2 outs st, ops = ops1 ++ p :: ops2 /\
      catch_run (fun p => array_set_life boom (fst p) (S := S) (snd p)) ops1 ([], s0) = Some (outs, st) /\
      snd (array_set_life boom (fst p) (S := S) (snd p) st) = Aborts
  end.
Proof. exact @array_set_life_exact. Qed.
Print Assumptions C113_array_set.

(** The iterator of OrdinalSet64 makes the members only. *)
Theorem C113_set64 : forall (cfg : Config) (T : Type) (boom : list T -> T -> option panic) (O : Ordinal T) (n : N),
  ordinal_bijection O n ->
  forall (eqd : forall a b : T, {a = b} + {a <> b}) (ks : list T), enumeration O ks ->
  forall ops : list (Ordinal T * set_op T), n <= 64 ->
  Forall (fun p => panicking_version (fst p) O /\ (not_debug (snd p) = true \/ 1 <= n \/ debug_assertions = false)) ops ->
  OrdinalSet64_new O = Val 0 /\
  match life_run (fun p => set_life_step boom eqd ks (fst p) false (snd p)) ops ([], ms_empty) with
  | Some (outs, (log, m)) => exists s,
      catch_run (fun p => set64_life boom (fst p) (snd p)) ops ([], 0) = Some (outs, (log, s)) /\
      forall t, OrdinalSet64_contains O s t = Val (m t)
  | None => exists ops1 p ops2 outs st, ops = ops1 ++ p :: ops2 /\
      catch_run (fun p => set64_life boom (fst p) (snd p)) ops1 ([], 0) = Some (outs, st) /\
      snd (set64_life boom (fst p) (snd p) st) = Aborts
  end.
Proof. exact @set64_life_exact. Qed.
Print Assumptions C113_set64.

(** The specification: if nothing panics, every call does what the mathematical set does (SpecSet.v). *)
Theorem C113_calm : forall (T : Type) (eqd : forall a b : T, {a = b} + {a <> b}) (ks : list T) (O : Ordinal T),
  (forall t, exists i, ordinal O t = Val i) ->
  forall (scans : bool) (op : set_op T) (log : list T) (m : mset T),
  exists log', set_life_step (fun _ _ => None) eqd ks O scans op (log, m) =
    ((log', snd (sspec_step eqd ks op m)), Some (Seen (fst (sspec_step eqd ks op m)))).
Proof. exact @calm_step. Qed.
Print Assumptions C113_calm.

(** ** Cases: the destructor of Eq panics if an odd number of destructors was started before. *)
Definition moody (log : list comparison) (t : comparison) : option panic :=
  match t with Eq => if N.odd (N.of_nat (length log)) then Some PUser else None | _ => None end.
Definition shy_of_lt : Ordinal comparison := {|
  ORDINAL_SIZE := ORDINAL_SIZE Ordinal_Ordering;
  ordinal := fun c => match c with Lt => Panic PAssert | _ => ordinal Ordinal_Ordering c end;
  from_ordinal := from_ordinal Ordinal_Ordering |}.
Definition ordering_eq_dec (a b : comparison) : {a = b} + {a <> b}.
Proof. decide equality. Defined.
Notation all := [Lt; Eq; Gt] (only parsing).
Notation good := Ordinal_Ordering (only parsing).
Definition sample : list (Ordinal comparison * set_op comparison) :=
  [(good, SInsert Lt); (shy_of_lt, SInsert Lt); (good, SInsert Gt); (good, SInsert Eq); (good, SInsert Eq);
   (good, SIter [Front; Front; Back; Back]); (shy_of_lt, SIter [Back; Front; Front]); (good, SDebug); (shy_of_lt, SDebug);
   (good, SFromIter [Gt; Lt]); (good, SFromIter [Eq; Gt]); (good, SFromIter [Lt; Gt; Eq]); (shy_of_lt, SFromIter [Eq; Lt; Eq; Gt]); (shy_of_lt, SContains Lt);
   (good, SFromIter [Gt; Gt; Gt]); (good, SIter [Front]); (good, SIter [Back; Back]); (good, SClone)].
Example C113_hypotheses : forall cfg : Config, ordinal_bijection good 3 /\ enumeration good all /\
  Forall (fun p => panicking_version (fst p) good) sample /\ (3 <= usize_max - 64 \/ 3 <= 64) /\ 1 <= 3 /\ N.of_nat 1 = (3 + 63) / 64.
Proof.
  intros cfg. split; [apply Ordering_lawful|]. split; [split; [intros []; cbn; auto|]; repeat constructor; eexists _, _; repeat split|].
  split; [|repeat split; try (right; discriminate); discriminate].
  assert (G : panicking_version good good) by (repeat split; intros k; now left).
  assert (H : panicking_version shy_of_lt good) by (repeat split; intros []; cbn; eauto).
  unfold sample. repeat (apply Forall_cons; [assumption|]). apply Forall_nil.
Qed.
Definition seen_by_sample : list (seen (set_out comparison)) :=
  [Seen (SBool true); Caught PAssert; Seen (SBool true); Caught PUser; Seen (SBool false);
   Seen (SItems [Some Lt; Some Eq; Some Gt; None]); Caught PAssert; Seen (SElems [Lt; Eq; Gt]); Caught PAssert; Seen SUnit_;
   Caught PUser; Caught PUser; Caught PAssert; Caught PAssert; Seen SUnit_; Seen (SItems [Some Gt]); Caught PUser; Seen SUnit_].
Definition destroyed_in_sample : list comparison :=
  [Lt; Lt; Gt; Eq; Eq; Lt; Gt; Lt; Eq; Gt; Lt; Gt; Lt; Eq; Gt; Lt; Gt; Eq; Eq; Lt; Eq; Gt; Gt; Gt; Gt; Lt; Eq; Eq; Gt].
Example C113_set_case : forall cfg : Config,
  catch_run (fun p => set_life moody (fst p) (snd p)) sample ([], Small 0) = Some (seen_by_sample, (destroyed_in_sample, Small 4)).
Proof. intros [[] [] []]; vm_compute; reflexivity. Qed.
(** The specification says the same; and it lets a program abort: the destructor of Eq panics while a
    panic of [ordinal] destroys what was left to collect. *)
Example C113_set_spec :
  match life_run (fun p => set_life_step moody ordering_eq_dec all (fst p) true (snd p)) sample ([], ms_empty) with
  | Some (outs, (log, m)) => outs = seen_by_sample /\ log = destroyed_in_sample /\ members all m = [Gt]
  | None => False
  end /\
  life_run (fun p => set_life_step moody ordering_eq_dec all (fst p) true (snd p)) [(shy_of_lt, SFromIter [Lt; Eq])] ([], ms_empty) = None.
Proof. vm_compute. repeat split. Qed.
Example C113_set_aborts : forall cfg : Config, snd (set_life moody shy_of_lt (SFromIter [Lt; Eq]) ([], Small 0)) = Aborts.
Proof. intros [[] [] []]; vm_compute; reflexivity. Qed.

(** OrdinalArraySet on the calls it has. *)
Definition array_sample : list (Ordinal comparison * set_op comparison) := filter (fun p => not_iter (snd p)) sample.
Example C113_array_set_case : forall cfg : Config,
  option_map (fun r => (fst r, fst (snd r), arr_list (snd (snd r))))
    (catch_run (fun p => array_set_life moody (fst p) (S := 1) (snd p)) array_sample ([], mk_arr 1 [0] eq_refl)) =
  match life_run (fun p => set_life_step moody ordering_eq_dec all (fst p) true (snd p)) array_sample ([], ms_empty) with
  | Some (outs, (log, m)) => Some (outs, log, [4])
  | None => None
  end /\
  Forall (fun p => panicking_version (fst p) good /\ not_iter (snd p) = true) array_sample /\ length array_sample = 14%nat.
Proof.
  intros cfg. split; [destruct cfg as [[] [] []]; vm_compute; reflexivity|]. split; [|reflexivity].
  assert (G : panicking_version good good) by (repeat split; intros k; now left).
  assert (H : panicking_version shy_of_lt good) by (repeat split; intros []; cbn; eauto).
  cbn [array_sample sample filter not_iter snd]. repeat (apply Forall_cons; [split; [assumption|reflexivity]|]). apply Forall_nil.
Qed.

(** OrdinalSet64: iterating asks for no ordinal and makes the members only. *)
Definition seen_by_sample64 : list (seen (set_out comparison)) :=
  [Seen (SBool true); Caught PAssert; Seen (SBool true); Caught PUser; Seen (SBool false);
   Seen (SItems [Some Lt; Some Eq; Some Gt; None]); Seen (SItems [Some Gt; Some Lt; Some Eq]); Seen (SElems [Lt; Eq; Gt]); Caught PAssert;
   Seen SUnit_; Caught PUser; Caught PUser; Caught PAssert; Caught PAssert; Seen SUnit_; Seen (SItems [Some Gt]);
   Seen (SItems [Some Gt; None]); Seen SUnit_].
Definition destroyed_in_sample64 : list comparison :=
  [Lt; Lt; Gt; Eq; Eq; Lt; Eq; Gt; Lt; Gt; Lt; Eq; Gt; Lt; Gt; Eq; Eq; Lt; Eq; Gt; Gt; Gt; Gt].
Example C113_set64_case : forall cfg : Config,
  catch_run (fun p => set64_life moody (fst p) (snd p)) sample ([], 0) = Some (seen_by_sample64, (destroyed_in_sample64, 4)) /\
  match life_run (fun p => set_life_step moody ordering_eq_dec all (fst p) false (snd p)) sample ([], ms_empty) with
  | Some (outs, (log, m)) => outs = seen_by_sample64 /\ log = destroyed_in_sample64 /\ members all m = [Gt]
  | None => False
  end.
Proof. intros [[] [] []]; vm_compute; repeat split. Qed.
Example C113_calm_hypotheses : forall t, exists i, ordinal good t = Val i.
Proof. intros []; eexists; reflexivity. Qed.
