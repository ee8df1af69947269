(** * SpecIter: what it means for an iterator to be correct.

    An iterator is a state [s] and a [step] (one call of [next] or [next_back]). *)
From Verif Require Import Base Spec ModelValues.

(** [for x in iter] sees exactly [l] (and ends). *)
Definition collects {It A} (step : dir -> It -> res (option A * It)) (s : It) (l : list A) : Prop :=
  exists fuel s', collect (step Front) fuel s = Val (l, s').

(** Under every schedule of [next]/[next_back] calls the iterator hands out the ends of
    [l]; [P] holds of the iterator and the remaining elements at every point. *)
Definition double_ended {It A} (step : dir -> It -> res (option A * It)) (s : It) (l : list A)
    (P : It -> list A -> Prop) : Prop :=
  forall sched, exists s', drive step sched s = Val (fst (deque_run sched l), s') /\
    P s' (snd (deque_run sched l)).

Definition opt_rel {A B} (P : A -> B -> Prop) (a : option A) (b : option B) : Prop :=
  match a, b with
  | Some x, Some y => P x y
  | None, None => True
  | _, _ => False
  end.

(** The same for iterators over references: each item is related by [rel] to the element. *)
Definition collects_rel {It A B} (rel : A -> B -> Prop) (step : dir -> It -> res (option A * It))
    (s : It) (l : list B) : Prop :=
  exists fuel got s', collect (step Front) fuel s = Val (got, s') /\ Forall2 rel got l.
Definition double_ended_rel {It A B} (rel : A -> B -> Prop) (step : dir -> It -> res (option A * It))
    (s : It) (l : list B) (P : It -> list B -> Prop) : Prop :=
  forall sched, exists got s', drive step sched s = Val (got, s') /\
    Forall2 (opt_rel rel) got (fst (deque_run sched l)) /\ P s' (snd (deque_run sched l)).

(** [n] elements to come are within the hint. *)
Definition hint_ok (h : N * option N) (n : N) : Prop :=
  fst h <= n /\ match snd h with Some u => n <= u | None => True end.
Definition hint_exact (h : N * option N) (n : N) : Prop := h = (n, Some n).

(** [l] lists the entries of a map with lookup [get], in key order. *)
Definition lists_entries {K V} (O : Ordinal K) (get : K -> res (option V)) (l : list (K * V)) : Prop :=
  (forall k v, In (k, v) l <-> get k = Val (Some v)) /\ StronglySorted (ordinal_before O) (map fst l).
(** [l] lists the entries of a total map. *)
Definition lists_total {K V} (O : Ordinal K) (get : K -> res V) (l : list (K * V)) : Prop :=
  (forall k v, In (k, v) l <-> get k = Val v) /\ (forall k, In k (map fst l)) /\
  StronglySorted (ordinal_before O) (map fst l).

Definition anything {A B} (_ : A) (_ : B) : Prop := True.
