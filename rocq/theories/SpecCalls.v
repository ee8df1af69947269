(** * SpecCalls: which questions user code is asked, and in which order (C85-C87). *)
From Verif Require Import Base Spec SpecMap SpecTotal SpecSet SpecAtomic SpecSafety ModelOrdinal ModelCalls.

Section Questions.
  Context {K C : Type} {R : C -> Type}.

  (** The questions of a dialogue without their answers. *)
  Definition question (e : exchange K C R) : query K C := match e with Ev q _ => q end.
  Definition questions (l : list (exchange K C R)) : list (query K C) := map question l.

  Definition prefix {A} (l1 l2 : list A) : Prop := exists rest, l2 = l1 ++ rest.

  (** In a dialogue that came to its end the questions are exactly [qs]; one that was cut short by
      a panic asked a first part of [qs]. *)
  Definition asked {U A} (qs : list (query K C)) (o : U * list (exchange K C R) * res A) : Prop :=
    let '(_, l, r) := o in
    match r with
    | Val _ => questions l = qs
    | _ => prefix (questions l) qs
    end.

  (** User code that finishes or panics. *)
  Definition safe_world {U} (w : world K C R U) : Prop := forall u q, no_ub (snd (w u q)).
End Questions.

(** ** The slots an iterator visits *)

(** The slots still to be visited: their number and whether they hold a value. *)
Definition window : Type := list (N * bool).

(** From the left up to and including the first slot that holds a value. *)
Fixpoint up_to_value (w : window) : list N * window :=
  match w with
  | [] => ([], [])
  | (i, true) :: w' => ([i], w')
  | (i, false) :: w' => let '(q, r) := up_to_value w' in (i :: q, r)
  end.

(** The slots one call of [next] or [next_back] visits, and the remaining ones. *)
Definition visit (d : dir) (w : window) : list N * window :=
  match d with
  | Front => up_to_value w
  | Back => let '(q, r) := up_to_value (rev w) in (q, rev r)
  end.
Fixpoint visits (sched : list dir) (w : window) : list N * window :=
  match sched with
  | [] => ([], w)
  | d :: ds =>
      let '(q1, w1) := visit d w in
      let '(q2, w2) := visits ds w1 in
      (q1 ++ q2, w2)
  end.

Fixpoint window_from {A} (holds : A -> bool) (i : N) (l : list A) : window :=
  match l with
  | [] => []
  | a :: l' => (i, holds a) :: window_from holds (i + 1) l'
  end.
Definition holds_value {V} (o : option V) : bool := match o with Some _ => true | None => false end.

(** The slots of a sparse and of a total map; the ordinals [0 .. n]. *)
Definition sparse_window {V} (m : list (option V)) : window := window_from holds_value 0 m.
Definition total_window {V} (m : list V) : window := window_from (fun _ => true) 0 m.
Definition full_window (n : N) : window := total_window (repeat tt (N.to_nat n)).

Section Ops.
  Context {K V C : Type}.
  Local Notation query := (query K C).

  Definition froms (l : list N) : list query := map QFrom l.

  (** The questions an operation on a sparse map asks. *)
  Definition map_questions (op : map_op K V) (m : list (option V)) : list query :=
    match op with
    | OpInsert k _ | OpGet k | OpGetMut k _ | OpContainsKey k | OpRemove k
    | OpEntryDrop k | OpEntryMatch k _ _ | OpEntryOrInsert k _ _ => [QOrdinal k]
    | OpIsEmpty => froms (fst (visit Front (sparse_window m)))
    | OpIter s | OpKeys s | OpValues s | OpIterMut s _ | OpValuesMut s _ | OpDrain s true =>
        froms (fst (visits s (sparse_window m)))
    | OpDrain s false =>
        let '(q, rest) := visits s (sparse_window m) in froms (q ++ map fst rest)
    | OpLen | OpClear | OpRetain _ | OpDebug => froms (map fst (sparse_window m))
    | OpClone _ => []
    end.

  (** The questions an operation on a total map asks; [n] is the number of keys. *)
  Definition total_questions (n : N) (op : total_op K V) (m : list V) : list query :=
    match op with
    | TGet k | TIndex k | TGetMut k _ | TIndexMut k _ | TInsert k _ => [QOrdinal k]
    | TIter_ s | TIterMut_ s _ => froms (fst (visits s (total_window m)))
    | TKeys_ s => froms (fst (visits s (full_window n)))
    | TDebug_ => froms (map fst (total_window m))
    | TLen | TIsEmpty | TValues_ _ | TValuesMut_ _ _ | TClone_ _ => []
    end.

  (** The questions a call on an atomic holding [cell] asks. *)
  Definition call_questions (c : call K) (cell : N) : list query :=
    match c with
    | CLoad _ | CDebug => [QFrom cell]
    | CStore t _ => [QOrdinal t]
    | CCas old new _ _ => [QOrdinal old; QOrdinal new; QFrom cell]
    end.
End Ops.

(** ** Sets *)
Definition ended {A} (r : res A) : bool := match r with Val _ => true | _ => false end.

Section Sets.
  Context {K C : Type}.
  Local Notation query := (query K C).

  (** Visiting ordinal [i]: its key is decoded and then asked for its ordinal once or twice. A
      call that did not come to its end ([done] is false) may have stopped after the decoding. *)
  Definition block (done : bool) (i : N) (b : list query) : Prop :=
    (done = false /\ b = [QFrom i]) \/
    exists t c, (c = 1 \/ c = 2)%nat /\ b = QFrom i :: repeat (QOrdinal t) c.
  (** Iterating over a set of ordinals below [n]: which of them count as members depends on the
      answers, but there is a choice of members for which the ordinals are visited in the order
      [order]. *)
  Definition iteration_questions (order : window -> list N) (n : N) (done : bool) (qs : list query) : Prop :=
    exists w q blocks,
      map fst w = map fst (full_window n) /\ (if done then q = order w else prefix q (order w)) /\
      Forall2 (block done) q blocks /\ qs = concat blocks.

  (** The questions of an operation on [OrdinalSet] and [OrdinalArraySet]. *)
  Definition set_questions (op : set_op K) (n : N) (done : bool) (qs : list query) : Prop :=
    match op with
    | SContains t => exists c, ((if done then 1 else 0) <= c <= 2)%nat /\ qs = repeat (QOrdinal t) c
    | SInsert t => exists c, ((if done then 3 else 0) <= c <= 4)%nat /\ qs = repeat (QOrdinal t) c
    | SFromIter l => exists cs : list nat,
        (length cs <= length l)%nat /\ Forall (fun c => c <= 4)%nat cs /\
        (done = true -> length cs = length l /\ Forall (fun c => 3 <= c)%nat cs) /\
        qs = flat_map (fun p => repeat (QOrdinal (fst p)) (snd p)) (combine l cs)
    | SIter sched => iteration_questions (fun w => fst (visits sched w)) n done qs
    | SClone => qs = []
    | SDebug => iteration_questions (map fst) n done qs
    end.

  (** Those of an operation on an [OrdinalSet64] with the bits [s]: iteration decodes members only. *)
  Definition member_bits (s : N) : window := filter snd (window_from (fun i => N.testbit s i) 0 (slots 64)).
  Definition set64_questions (op : set_op K) (n s : N) (done : bool) (qs : list query) : Prop :=
    let exactly l := if done then qs = l else prefix qs l in
    match op with
    | SContains t => exactly [QOrdinal t]
    | SInsert t => exactly [QOrdinal t; QOrdinal t]
    | SFromIter l => exactly (map QOrdinal l)
    | SIter sched => exactly (froms (fst (visits sched (member_bits s))))
    | SClone => qs = []
    | SDebug => iteration_questions (map fst) n done qs
    end.
End Sets.

(** ** Atomics and arrays *)

(** A call on an atomic returns its outcome together with the content of the cell. *)
Definition call_asked {K C R U} (c : call K) (cell : N) (o : U * list (exchange K C R) * res (res (out K) * N)) : Prop :=
  let '(_, l, r) := o in
  match r with
  | Val (Val _, _) => questions l = call_questions c cell
  | _ => prefix (questions l) (call_questions c cell)
  end.

(** The digits of [i] in base [size], the lowest first. *)
Definition digits (size i : N) (len : nat) : list N :=
  map (fun j => (i / size ^ N.of_nat j) mod size) (seq 0 len).

(** ** Functions with a closure *)
Section Closures.
  Context {K C X : Type}.
  Local Notation dialogue := (list (exchange K C (fun _ => X))).

  (** Ordinal [i] is decoded to [k] and the closure is called with [c]. *)
  Definition turn (i : N) (k : K) (c : C) (x : X) : dialogue := [Ev (QFrom i) (Val (Some k)); Ev (QUser c) (Val x)].
  (** The turns from ordinal [i] on; [calls] tells what the closure is called with for a key. *)
  Fixpoint turns (i : N) (calls : list (K -> C)) (kxs : list (K * X)) : dialogue :=
    match calls, kxs with
    | call :: calls', (k, x) :: kxs' => turn i k (call k) x ++ turns (i + 1) calls' kxs'
    | _, _ => []
    end.

  (** A call that does not return ends the same way as the one it made. *)
  Definition stopped {A B} (a : res A) (r : res B) : Prop :=
    match a, r with
    | Panic w, Panic w' => w = w'
    | NoCompile, NoCompile | UB, UB | OutOfFuel, OutOfFuel => True
    | _, _ => False
    end.
  Definition not_decoded {B} (a : res (option K)) (r : res B) : Prop :=
    stopped a r \/ (a = Val None /\ r = Panic PUnwrap).

  (** The keys decoded in a dialogue. *)
  Definition decoded (l : dialogue) : list K :=
    flat_map (fun e : exchange K C (fun _ => X) => match e with
                | Ev q r => match q return res (answer (R := fun _ => X) q) -> list K with
                            | QFrom _ => fun r => match r with Val (Some k) => [k] | _ => [] end
                            | _ => fun _ => []
                            end r
                end) l.
  (** All answers finish or panic. *)
  Definition safe_answers (l : dialogue) : Prop :=
    Forall (fun e : exchange K C (fun _ => X) => match e with Ev q r => no_ub r end) l.

  (** A dialogue that makes a value per ordinal; [made] are the values made. It ends after the
      last ordinal, with the first error of the closure, or with the first panic. *)
  Definition built {T E R} (calls : list (K -> C)) (ok : T -> X) (err : E -> X) (l : dialogue) (made : list T)
      (r : res (result R E)) : Prop :=
    exists ks last, length ks = length made /\ l = turns 0 calls (combine ks (map ok made)) ++ last /\
    match r with
    | Val (ResOk _) => length made = length calls /\ last = []
    | Val (ResErr e) => exists call k, nth_error calls (length made) = Some call /\ last = turn (llen made) k (call k) (err e)
    | _ => exists call, nth_error calls (length made) = Some call /\
        ((exists a, last = [Ev (QFrom (llen made)) a] /\ not_decoded a r) \/
         exists k a, last = [Ev (QFrom (llen made)) (Val (Some k)); Ev (QUser (call k)) a] /\ stopped a r)
    end.
End Closures.

(** The slots from [i] on hold [m]; [retain] decodes the key of every slot, in order, and calls
    the closure with the key and the value of those that hold one. [m'] are the slots afterwards:
    the value the closure left behind stays if the closure returned [true] or panicked. *)
Fixpoint retained {K V} (i : N) (m : list (option V)) (l : list (exchange K (K * V) (fun _ => (V * res bool)%type)))
    (m' : list (option V)) (r : res unit) : Prop :=
  match m with
  | [] => l = [] /\ m' = [] /\ r = Val tt
  | None :: rest =>
      (exists a, l = [Ev (QFrom i) a] /\ m' = m /\ not_decoded a r) \/
      (exists k l2 rest', l = Ev (QFrom i) (Val (Some k)) :: l2 /\ m' = None :: rest' /\ retained (i + 1) rest l2 rest' r)
  | Some v :: rest =>
      (exists a, l = [Ev (QFrom i) a] /\ m' = m /\ not_decoded a r) \/
      (exists k v' a, l = turn i k (k, v) (v', a) /\ m' = Some v' :: rest /\ stopped a r) \/
      (exists k v' b l2 rest', l = turn i k (k, v) (v', Val b) ++ l2 /\
         m' = (if b then Some v' else None) :: rest' /\ retained (i + 1) rest l2 rest' r)
  end.

(** A [retain] closure always has an outcome: the value it leaves behind and how it ended. *)
Definition closure_returns {K V U} (w : world K (K * V) (fun _ => (V * res bool)%type) U) : Prop :=
  forall u c, exists v b, snd (w u (QUser c)) = Val (v, b) /\ no_ub b.
