(** * SpecResume: which ordinals are asked for when panics are caught. *)
From Verif Require Import Base Spec.
From Coq Require Import List. Import ListNotations.

Section Resume.
  Context {U T : Type} (from : U -> N -> U * res (option T)).

  (** Asking the user's [from_ordinal] for one ordinal and unwrapping the answer. *)
  Definition answer (u : U) (i : N) : U * res T :=
    match from u i with
    | (u', Val (Some t)) => (u', Val t)
    | (u', Val None) => (u', Panic PUnwrap)
    | (u', Panic w) => (u', Panic w)
    | (u', NoCompile) => (u', NoCompile)
    | (u', UB) => (u', UB)
    | (u', OutOfFuel) => (u', OutOfFuel)
    end.
  Definition res_map {A B} (f : A -> B) (r : res A) : res B := a <- r ;; Val (f a).

  (** One question after another, whatever the answers are; [None]: nothing is left. *)
  Fixpoint answers (u : U) (qs : list (option N)) : list (res (option T)) * U :=
    match qs with
    | [] => ([], u)
    | None :: r => let '(l, u') := answers u r in (Val None :: l, u')
    | Some i :: r =>
        let '(u1, t) := answer u i in
        let '(l, u') := answers u1 r in (res_map Some t :: l, u')
    end.

  Definition failed {A} (r : res A) : bool := match r with Val _ => false | _ => true end.

  (** The same for items with their positions, where the question is [lag] too low and
      [lag] grows with every failure of a call of [next]. *)
  Fixpoint lagging {A} (lag : N) (u : U) (qs : list (dir * option (N * A))) : list (res (option (T * A))) :=
    match qs with
    | [] => []
    | (_, None) :: r => Val None :: lagging lag u r
    | (d, Some (p, v)) :: r =>
        let '(u1, t) := answer u (p - lag) in
        let lag' := match d with Front => if failed t then lag + 1 else lag | Back => lag end in
        res_map (fun k => Some (k, v)) t :: lagging lag' u1 r
    end.
End Resume.

(** The items of a list with their positions. *)
Definition positions {A} (l : list A) : list (N * A) := combine (map N.of_nat (seq 0 (length l))) l.
(** The calls of a schedule with the items they get. *)
Definition calls {A} (sched : list dir) (l : list A) : list (dir * option (N * A)) :=
  combine sched (fst (deque_run sched (positions l))).

(** No call of [next] failed. *)
Definition front_never_fails {A} (sched : list dir) (rs : list (res A)) : Prop :=
  forall r, In (Front, r) (combine sched rs) -> exists a, r = Val a.
(** A pair handed out is right: the value stands at the position of the key. *)
Definition pair_right {K V} (O : Ordinal K) (items : list V) (r : res (option (K * V))) : Prop :=
  forall k v, r = Val (Some (k, v)) -> exists i, ordinal O k = Val i /\ nth_error items (N.to_nat i) = Some v.
(** The same for slots that may be empty. *)
Definition some_right {K V} (O : Ordinal K) (items : list (option V)) (r : res (option (K * V))) : Prop :=
  forall k v, r = Val (Some (k, v)) -> exists i, ordinal O k = Val i /\ nth_error items (N.to_nat i) = Some (Some v).
(** What is left of a step when the state after a panic is not looked at. *)
Definition forget {St A} (x : (unit * St) * res A) : res (A * St) := a <- snd x ;; Val (a, snd (fst x)).

(** The values in a list of slots, and those in a list of outcomes. *)
Fixpoint stored {V} (l : list (option V)) : list V :=
  match l with [] => [] | Some v :: r => v :: stored r | None :: r => stored r end.
Fixpoint handed_out {K V} (l : list (res (option (K * V)))) : list V :=
  match l with
  | [] => []
  | Val (Some (_, v)) :: r => v :: handed_out r
  | _ :: r => handed_out r
  end.
Fixpoint yielded {T} (l : list (res (option T))) : list T :=
  match l with
  | [] => []
  | Val (Some t) :: r => t :: yielded r
  | _ :: r => yielded r
  end.
