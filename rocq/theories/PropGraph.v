(** * PropGraph: C92, several AtomicOrdinals under any memory model (atomic.rs).

    [allowed M run init progs results] (SpecGraph.v): threads with strategies [progs], each of which
    chooses its next call from its results so far, may get [results] under the memory
    model [M]; [M] is any predicate on the events and on which write each read takes its value from.
    [atomic O]: calls on AtomicOrdinals (ModelGraph.v).  [variable O]: calls on variables of
    type [T] that refuse what AtomicOrdinal refuses. *)
From Verif Require Import Base Spec SpecAtomic SpecGraph ModelOrdinal ModelAtomic ModelGraph OrdinalProofs
  AtomicProofs2 GraphProofs.
From Coq Require Import List.
Import ListNotations.

(** AtomicOrdinals allow exactly the results that variables of type [T] allow. *)
Theorem C92_same_as_variables : forall (T : Type) (O : Ordinal T), undone O ->
  forall (eqd : forall a b : T, {a = b} + {a <> b}) (init : nat -> T) (initN : nat -> N),
  (forall x, AtomicOrdinal_new O (init x) = Val (initN x)) ->
  forall M progs results,
  allowed M (atomic O) initN progs results <-> allowed M (variable O eqd) init progs results.
Proof. exact @same_results. Qed.
Print Assumptions C92_same_as_variables.

(** In particular decoding never panics: a thread dies only in a call that refuses its argument or
    its orderings, ... *)
Theorem C92_dies_only_in_refused_calls : forall (T : Type) (O : Ordinal T), undone O ->
  (forall a b : T, {a = b} + {a <> b}) -> forall (init : nat -> T) (initN : nat -> N),
  (forall x, AtomicOrdinal_new O (init x) = Val (initN x)) ->
  forall M progs results, allowed M (atomic O) initN progs results ->
  forall i p os st, nth_error progs i = Some p -> nth_error results i = Some (os, st) ->
  st = Running \/ exists x c why, st = Died why /\ p os = Some (x, c) /\ refusal O c = Some why.
Proof. exact @ends. Qed.
Print Assumptions C92_dies_only_in_refused_calls.

(** ... and each value returned is the initial one of the variable or was written to it by a call
    that has returned. *)
Theorem C92_values_were_written : forall (T : Type) (O : Ordinal T), undone O ->
  (forall a b : T, {a = b} + {a <> b}) -> forall (init : nat -> T) (initN : nat -> N),
  (forall x, AtomicOrdinal_new O (init x) = Val (initN x)) ->
  forall M progs results, allowed M (atomic O) initN progs results ->
  forall i p os st m o t, nth_error progs i = Some p -> nth_error results i = Some (os, st) ->
  nth_error os m = Some o -> (o = OVal t \/ o = OOk t \/ o = OErr t) ->
  exists x c, p (firstn m os) = Some (x, c) /\
    (t = init x \/
     exists j q osj stj l c' o', nth_error progs j = Some q /\ nth_error results j = Some (osj, stj) /\
       nth_error osj l = Some o' /\ q (firstn l osj) = Some (x, c') /\ wrote c' o' = Some t).
Proof. exact @values_given. Qed.
Print Assumptions C92_values_were_written.

(** ** Examples *)

(** A model in which no event reads from the future of its own thread or of those it reads from
    (there is a time for each event). *)
Definition causal (sh : list (list (nat * act))) (from : nat -> nat -> option (nat * nat)) : Prop :=
  exists time : nat -> nat -> nat,
    (forall i k, (time i k < time i (S k))%nat) /\
    (forall i k j l, from i k = Some (j, l) -> (time j l < time i k)%nat).

(** Message passing: the second thread looks at variable 0 only if it has seen variable 1 set. *)
Definition sender : strategy comparison := fun os =>
  match os with [] => Some (0, CStore Gt Relaxed) | [_] => Some (1, CStore Gt Relaxed) | _ => None end%nat.
Definition receiver : strategy comparison := fun os =>
  match os with [] => Some (1, CLoad Relaxed) | [OVal Gt] => Some (0, CLoad Relaxed) | _ => None end%nat.

(** Under [causal] it may still find the old value there. *)
Example C92_message_passing :
  (forall x : nat, AtomicOrdinal_new Ordinal_Ordering Lt = Val ((fun _ => 0) x)) /\
  allowed causal (atomic Ordinal_Ordering) (fun _ => 0) [sender; receiver]
    [([OUnit; OUnit], Running); ([OVal Gt; OVal Lt], Running)].
Proof.
  split; [reflexivity|].
  exists {| g_threads := [[(0%nat, AStore Relaxed, Some 2); (1%nat, AStore Relaxed, Some 2)];
                          [(1%nat, ALoad Relaxed, None); (0%nat, ALoad Relaxed, None)]];
            g_from := fun i k => match i, k with 1, 0 => Some (0, 1) | _, _ => None end%nat |}.
  split.
  { exists (fun i k => (i * 3 + k)%nat). split; [intros i k; lia|]. cbn.
    intros [|[|i]] [|k] j l; try discriminate. intros [= <- <-]. lia. }
  split; [reflexivity|]. split; [reflexivity|]. intros [|[|i]] p Hp; cbn in Hp; try (destruct i; discriminate Hp);
    injection Hp as <-.
  - exists (fun _ => 0), 2%nat. do 3 eexists. split; [reflexivity|]. split; [reflexivity|]. split; [reflexivity|].
    intros [|[|k]] x a w; cbn; [intros [= <- <- <-]; discriminate..|destruct k; discriminate].
  - exists (fun k => match k with 0%nat => 2 | _ => 0 end), 3%nat. do 3 eexists. split; [reflexivity|].
    split; [reflexivity|]. split; [reflexivity|].
    intros [|[|k]] x a w; cbn; [intros [= <- <- <-]; reflexivity..|destruct k; discriminate].
Qed.

(** Without any restriction each of two threads may read what the other one stores afterwards;
    not even then a number that is no ordinal appears. *)
Example C92_load_buffering :
  let th (x y : nat) : strategy comparison := fun os =>
    match os with
    | [] => Some (x, CLoad Relaxed)
    | [OVal v] => Some (y, CStore v Relaxed)
    | _ => None
    end in
  allowed (fun _ _ => True) (atomic Ordinal_Ordering) (fun _ => 0) [th 0%nat 1%nat; th 1%nat 0%nat]
    [([OVal Gt; OUnit], Running); ([OVal Gt; OUnit], Running)].
Proof.
  exists {| g_threads := [[(0%nat, ALoad Relaxed, None); (1%nat, AStore Relaxed, Some 2)];
                          [(1%nat, ALoad Relaxed, None); (0%nat, AStore Relaxed, Some 2)]];
            g_from := fun i k => match i, k with 0, 0 => Some (1, 1) | 1, 0 => Some (0, 1) | _, _ => None end%nat |}.
  split; [exact I|].
  split; [reflexivity|]. split; [reflexivity|]. intros [|[|i]] p Hp; cbn in Hp; try (destruct i; discriminate Hp);
    injection Hp as <-; exists (fun _ => 2), 2%nat; do 3 eexists; (split; [reflexivity|]);
    (split; [reflexivity|]); (split; [reflexivity|]);
    intros [|[|k]] x a w; cbn; try (destruct k; discriminate); intros [= <- <- <-]; (reflexivity || discriminate).
Qed.
