(** * SetLifeProofs3: lemmas for C113, whole programs. *)
From Verif Require Import Base Spec SpecMap SpecSet SpecCatch SpecLifeRun SpecSetLife ModelOrdinal ModelValues ModelArrayBuilder
  ModelIter ModelSet SetMachine ModelCatch ModelLife ModelSetLife
  OrdinalProofs ArrayProofs SetProofs LifeProofs5 SetLifeProofs2.
From Coq Require Import List Lia. Import ListNotations.
Set Implicit Arguments. Unset Strict Implicit.

Section Lawful.
  Context {cfg : Config} {T : Type} (boom : list T -> T -> option panic) (O : Ordinal T) (n : N) (HO : ordinal_bijection O n).
  Context (eqd : forall a b : T, {a = b} + {a <> b}).
  Context (ks : list T) (He : enumeration O ks).
  Implicit Type ops : list (Ordinal T * set_op T).

  Lemma set_life_exact ops : n <= usize_max - 64 \/ n <= 64 -> 1 <= n \/ debug_assertions = false ->
    Forall (fun p => panicking_version (fst p) O) ops ->
    exists s0, OrdinalSet_new O = Val s0 /\
    match life_run (fun p => set_life_step boom eqd ks (fst p) true (snd p)) ops ([], ms_empty) with
    | Some (outs, (log, m)) => exists s,
        catch_run (fun p => set_life boom (fst p) (snd p)) ops ([], s0) = Some (outs, (log, s)) /\
        forall t, OrdinalSet_contains O s t = Val (m t)
    | None => exists ops1 p ops2 outs st, ops = ops1 ++ p :: ops2 /\
        catch_run (fun p => set_life boom (fst p) (snd p)) ops1 ([], s0) = Some (outs, st) /\
        snd (set_life boom (fst p) (snd p) st) = Aborts
    end.
  Proof.
    intros Hn Hi Hops. destruct (set_new_law HO) as (s0 & E0 & H0). exists s0. split; [exact E0|].
    assert (Hf : forall p, panicking_version (fst p) O ->
      follows (fun p => set_life boom (fst p) (snd p)) (fun p => set_life_step boom eqd ks (fst p) true (snd p)) (set_inv O n) p).
    { intros [O1 op] HP log s m R. exact (set_follows boom HP HO eqd He op Hn Hi log R). }
    pose proof (follows_run Hf Hops [] H0) as Q.
    destruct (life_run (fun p => set_life_step boom eqd ks (fst p) true (snd p)) ops ([], ms_empty)) as [[outs [log m]]|]; [|exact Q].
    destruct Q as (s & E & R). exists s. split; [exact E|]. intros t. exact (set_contains_law HO t R).
  Qed.
  Lemma array_set_life_exact (S : nat) ops : N.of_nat S = (n + 63) / 64 ->
    Forall (fun p => panicking_version (fst p) O /\ not_iter (snd p) = true) ops ->
    exists s0 : OrdinalArraySet S, OrdinalArraySet_new O S = Val s0 /\
    match life_run (fun p => set_life_step boom eqd ks (fst p) true (snd p)) ops ([], ms_empty) with
    | Some (outs, (log, m)) => exists s,
        catch_run (fun p => array_set_life boom (fst p) (S := S) (snd p)) ops ([], s0) = Some (outs, (log, s)) /\
        forall t, OrdinalArraySet_contains O s t = Val (m t)
    | None => exists ops1 p ops2 outs st, ops = ops1 ++ p :: ops2 /\
        catch_run (fun p => array_set_life boom (fst p) (S := S) (snd p)) ops1 ([], s0) = Some (outs, st) /\
        snd (array_set_life boom (fst p) (S := S) (snd p) st) = Aborts
    end.
  Proof.
    intros HS Hops. assert (HS' : N.of_nat S = wcount n) by (unfold wcount; lia).
    destruct (array_new_law HO HS') as (s0 & E0 & H0). exists s0. split; [exact E0|].
    assert (Hf : forall p, panicking_version (fst p) O /\ not_iter (snd p) = true ->
      follows (fun p => array_set_life boom (fst p) (S := S) (snd p)) (fun p => set_life_step boom eqd ks (fst p) true (snd p))
        (array_set_inv O n (S := S)) p).
    { intros [O1 op] [HP Hop] log s m R. exact (array_set_follows boom HP HO eqd He HS' Hop log R). }
    pose proof (follows_run Hf Hops [] H0) as Q.
    destruct (life_run (fun p => set_life_step boom eqd ks (fst p) true (snd p)) ops ([], ms_empty)) as [[outs [log m]]|]; [|exact Q].
    destruct Q as (s & E & R). exists s. split; [exact E|]. intros t. exact (array_contains_law HO t R).
  Qed.
  Lemma set64_life_exact ops : n <= 64 ->
    Forall (fun p => panicking_version (fst p) O /\ (not_debug (snd p) = true \/ 1 <= n \/ debug_assertions = false)) ops ->
    OrdinalSet64_new O = Val 0 /\
    match life_run (fun p => set_life_step boom eqd ks (fst p) false (snd p)) ops ([], ms_empty) with
    | Some (outs, (log, m)) => exists s,
        catch_run (fun p => set64_life boom (fst p) (snd p)) ops ([], 0) = Some (outs, (log, s)) /\
        forall t, OrdinalSet64_contains O s t = Val (m t)
    | None => exists ops1 p ops2 outs st, ops = ops1 ++ p :: ops2 /\
        catch_run (fun p => set64_life boom (fst p) (snd p)) ops1 ([], 0) = Some (outs, st) /\
        snd (set64_life boom (fst p) (snd p) st) = Aborts
    end.
  Proof.
    intros Hn Hops. destruct (set64_new_law HO Hn) as [E0 H0]. split; [exact E0|].
    assert (Hf : forall p, panicking_version (fst p) O /\ (not_debug (snd p) = true \/ 1 <= n \/ debug_assertions = false) ->
      follows (fun p => set64_life boom (fst p) (snd p)) (fun p => set_life_step boom eqd ks (fst p) false (snd p)) (set64_inv O n) p).
    { intros [O1 op] [HP Hop] log s m R. exact (set64_follows boom HP HO eqd He Hn Hop log R). }
    pose proof (follows_run Hf Hops [] H0) as Q.
    destruct (life_run (fun p => set_life_step boom eqd ks (fst p) false (snd p)) ops ([], ms_empty)) as [[outs [log m]]|]; [|exact Q].
    destruct Q as (s & E & R). exists s. split; [exact E|]. intros t. exact (set64_contains_law HO t R).
  Qed.
End Lawful.

(** If nothing panics, every call returns what the plain specification says. *)
Section Calm.
  Context {T : Type} (eqd : forall a b : T, {a = b} + {a <> b}) (ks : list T) (O : Ordinal T).
  Notation calm_boom := (fun (_ : list T) (_ : T) => @None panic).
  Context (H : forall t, exists i, ordinal O t = Val i).
  Implicit Types (m : mset T) (l log : list T).

  Lemma calm_elem t : elem_panic O t = None.
  Proof. unfold elem_panic, key_panic. destruct (H t) as (i & ->). reflexivity. Qed.
  Lemma calm_passes m l : forall log, exists log',
    passes calm_boom O m log l = (log', snd (fst (passes calm_boom O m log l)), Some (Seen (fst (deque_step Front (filter m l))))) /\
    filter m (snd (fst (passes calm_boom O m log l))) = snd (deque_step Front (filter m l)).
  Proof.
    induction l as [|t l IH]; intros log; cbn [passes filter]; [exists log; auto|]. rewrite calm_elem.
    destruct (m t); [exists log; auto|]. apply IH.
  Qed.
  Lemma filter_back m l : filter m (rev l) = rev (filter m l).
  Proof.
    induction l as [|t l IH]; [reflexivity|]. cbn [rev filter]. rewrite filter_app, IH. cbn [filter]. destruct (m t); cbn [rev]; [reflexivity|].
    apply app_nil_r.
  Qed.
  Lemma calm_next m d log l : exists log' l', next_passed calm_boom O m d log l = (log', l', Some (Seen (fst (deque_step d (filter m l))))) /\
    filter m l' = snd (deque_step d (filter m l)).
  Proof.
    destruct d; cbn [next_passed].
    - destruct (calm_passes m l log) as (log' & E & F). exists log', (snd (fst (passes calm_boom O m log l))). auto.
    - destruct (calm_passes m (rev l) log) as (log' & E & F). rewrite E. exists log', (rev (snd (fst (passes calm_boom O m log (rev l))))).
      rewrite (filter_back m (snd _)), F, (filter_back m l). unfold deque_step. destruct (rev (filter m l)) as [|t r] eqn:E2; cbn [fst snd]; split; try reflexivity.
  Qed.
  Lemma calm_asked_scan m sched : forall got log l, exists log',
    asked calm_boom (next_passed calm_boom O m) sched got log l = (log', Some (Seen (SItems (got ++ fst (deque_run sched (filter m l)))))).
  Proof.
    induction sched as [|d ds IH]; intros got log l; cbn [asked deque_run]; [exists log; now rewrite app_nil_r|].
    destruct (calm_next m d log l) as (log' & l' & -> & F). destruct (IH (got ++ [fst (deque_step d (filter m l))]) log' l') as (log2 & ->).
    exists log2. rewrite F. destruct (deque_step d (filter m l)) as [o r]. cbn [fst snd]. destruct (deque_run ds r) as [os r']. cbn [fst].
    now rewrite <- app_assoc.
  Qed.
  Lemma calm_asked_members sched : forall got log l, exists log',
    asked calm_boom (T := T) next_member sched got log l = (log', Some (Seen (SItems (got ++ fst (deque_run sched l))))).
  Proof.
    induction sched as [|d ds IH]; intros got log l; cbn [asked deque_run]; [exists log; now rewrite app_nil_r|].
    unfold next_member at 1. destruct (deque_step d l) as [o r]. destruct (IH (got ++ [o]) log r) as (log2 & ->).
    exists log2. destruct (deque_run ds r) as [os r']. cbn [fst]. now rewrite <- app_assoc.
  Qed.
  Lemma calm_printed o l : forall log, printed calm_boom O o log l = (log ++ l, Some (Seen o)).
  Proof.
    induction l as [|t l IH]; intros log; cbn [printed]; [now rewrite app_nil_r|]. rewrite calm_elem, IH, <- app_assoc. reflexivity.
  Qed.
  Lemma calm_collected l : forall log, collected calm_boom O log l = (log ++ l, Some (Seen SUnit_)).
  Proof.
    induction l as [|t l IH]; intros log; cbn [collected]; [now rewrite app_nil_r|]. rewrite calm_elem, IH, <- app_assoc. reflexivity.
  Qed.
  Lemma calm_step scans op log m : exists log', set_life_step calm_boom eqd ks O scans op (log, m) =
    ((log', snd (sspec_step eqd ks op m)), Some (Seen (fst (sspec_step eqd ks op m)))).
  Proof.
    unfold set_life_step. destruct op as [t|t|sched|l| |]; cbn [sspec_step fst snd].
    - rewrite calm_elem. eexists. reflexivity.
    - rewrite calm_elem. eexists. reflexivity.
    - destruct scans.
      + destruct (calm_asked_scan m sched [] log ks) as (log' & ->). exists log'. reflexivity.
      + destruct (calm_asked_members sched [] log (members ks m)) as (log' & ->). exists log'. reflexivity.
    - rewrite calm_collected. eexists. reflexivity.
    - eexists. reflexivity.
    - rewrite calm_printed. eexists. reflexivity.
  Qed.
End Calm.
