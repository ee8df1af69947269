(** * ModelStd: the provided methods of std's [Iterator] and [DoubleEndedIterator].

    The iterators of the crate define [next], [next_back] and [size_hint] (OrdinalValues also
    [count] and [last], modelled in ModelValues.v) and inherit every other method:
    map/iter.rs:22-51, 85-114, 135-154, 184-203, 239-258, 284-310, 332-356, 388-415,
    map/total/iter.rs:26-50, 86-108, 134-154, 188-214, set/iter.rs:23-52,
    set/set64.rs:16-51. What is
    written here is the body std's [core::iter] gives these methods (trusted std contract).

    Simplification: the closures passed in are pure; [fuel] bounds the number of calls of
    [next]. *)
From Verif Require Import Base Spec ModelValues.

Section Provided.
  Context {cfg : Config} {St A : Type} (next : St -> res (option A * St)).

  (** [Iterator::nth] (with [next]), [DoubleEndedIterator::nth_back] (with [next_back]):
      drop [n] elements, stopping at the first [None], and take one more. *)
  Fixpoint it_nth (n : nat) (s : St) : res (option A * St) :=
    '(o, s') <- next s ;;
    match o, n with
    | Some a, O => Val (Some a, s')
    | Some _, S n' => it_nth n' s'
    | None, _ => Val (None, s')
    end.

  (** [Iterator::fold] and [for_each]; [DoubleEndedIterator::rfold] with [next_back]. *)
  Fixpoint it_fold {B : Type} (f : B -> A -> B) (fuel : nat) (b : B) (s : St) : res B :=
    match fuel with
    | O => OutOfFuel
    | S fuel' =>
        '(o, s') <- next s ;;
        match o with
        | None => Val b
        | Some a => it_fold f fuel' (f b a) s'
        end
    end.

  (** [Iterator::last]: [fold] keeping the newest element. *)
  Definition it_last (fuel : nat) (s : St) : res (option A) :=
    it_fold (fun _ a => Some a) fuel None s.

  (** [Iterator::count]: [fold] counting in [usize]. *)
  Definition it_count (fuel : nat) (s : St) : res N :=
    r <- it_fold (fun c _ => n <- c ;; uadd n 1) fuel (Val 0) s ;; r.

  (** The short-circuiting loop behind [find], [position], [any] and [all]: the first element
      with [p], and how many came before it. *)
  Fixpoint it_search (p : A -> bool) (fuel : nat) (i : nat) (s : St) : res (option (nat * A) * St) :=
    match fuel with
    | O => OutOfFuel
    | S fuel' =>
        '(o, s') <- next s ;;
        match o with
        | None => Val (None, s')
        | Some a => if p a then Val (Some (i, a), s') else it_search p fuel' (S i) s'
        end
    end.
  Definition it_find (p : A -> bool) (fuel : nat) (s : St) : res (option A * St) :=
    '(o, s') <- it_search p fuel 0 s ;; Val (opt_map snd o, s').
  Definition it_position (p : A -> bool) (fuel : nat) (s : St) : res (option nat * St) :=
    '(o, s') <- it_search p fuel 0 s ;; Val (opt_map fst o, s').
  Definition it_any (p : A -> bool) (fuel : nat) (s : St) : res (bool * St) :=
    '(o, s') <- it_search p fuel 0 s ;; Val (match o with Some _ => true | None => false end, s').
  Definition it_all (p : A -> bool) (fuel : nat) (s : St) : res (bool * St) :=
    '(o, s') <- it_search (fun a => negb (p a)) fuel 0 s ;;
    Val (match o with Some _ => false | None => true end, s').
End Provided.

(** [Iterator::rev]: [std::iter::Rev] swaps [next] and [next_back]. *)
Definition rev_step {St A : Type} (step : dir -> St -> res (option A * St)) (d : dir) : St -> res (option A * St) :=
  step (match d with Front => Back | Back => Front end).
