(** * ModelValues: ordinal-map/src/values.rs and [Ordinal::all_values]. *)
From Verif Require Import Base Spec.
From Coq Require Import String.

Section Values.
  Context {cfg : Config} {T : Type} (O : Ordinal T).

  (** values.rs:20-23: [range: Range<usize>]. *)
  Record OrdinalValues := { r_start : N; r_end : N }.

  (** std [Range::<usize>::next] / [next_back] / [len] (trusted std contract). *)
  Definition range_next (r : OrdinalValues) : option (N * OrdinalValues) :=
    if r_start r <? r_end r
    then Some (r_start r, {| r_start := r_start r + 1; r_end := r_end r |})
    else None.
  Definition range_next_back (r : OrdinalValues) : option (N * OrdinalValues) :=
    if r_start r <? r_end r
    then Some (r_end r - 1, {| r_start := r_start r; r_end := r_end r - 1 |})
    else None.
  Definition range_len (r : OrdinalValues) : N := r_end r - r_start r.

  (** values.rs:28-33 and ordinal/traits.rs:101-103 [all_values]. *)
  Definition values_new : res OrdinalValues :=
    n <- ORDINAL_SIZE O ;; Val {| r_start := 0; r_end := n |}.

  (** values.rs:40-43 *)
  Definition values_next (s : OrdinalValues) : res (option T * OrdinalValues) :=
    match range_next s with
    | None => Val (None, s)
    | Some (i, s') =>
        r <- from_ordinal O i ;;
        t <- unwrap r ;;
        Val (Some t, s')
    end.

  (** values.rs:76-79 *)
  Definition values_next_back (s : OrdinalValues) : res (option T * OrdinalValues) :=
    match range_next_back s with
    | None => Val (None, s)
    | Some (i, s') =>
        r <- from_ordinal O i ;;
        t <- unwrap r ;;
        Val (Some t, s')
    end.

  (** values.rs:46-48 *)
  Definition values_size_hint (s : OrdinalValues) : N * option N :=
    (range_len s, Some (range_len s)).

  (** values.rs:51-56 *)
  Definition values_count (s : OrdinalValues) : N := range_len s.

  (** values.rs:59-64 *)
  Definition values_last (s : OrdinalValues) : res (option T) :=
    '(o, _) <- values_next_back s ;; Val o.

  (** values.rs:69-71 *)
  Definition values_len (s : OrdinalValues) : N := range_len s.

  (** values.rs:84-89 *)
  Definition values_clone (s : OrdinalValues) : OrdinalValues :=
    {| r_start := r_start s; r_end := r_end s |}.

  (** values.rs:92-107; [show] is the element's Debug text. *)
  Definition values_debug (show : T -> string) (s : OrdinalValues) : res string :=
    size <- ORDINAL_SIZE O ;;
    let iter := values_clone s in
    '(fo, iter) <- values_next iter ;;
    match fo with
    | None => Val "[]"%string
    | Some first =>
        if r_end s =? size then Val ("[" ++ show first ++ "..]")%string
        else
          '(lo, _) <- values_next_back iter ;;
          match lo with
          | None => Val ("[" ++ show first ++ "]")%string
          | Some last => Val ("[" ++ show first ++ "..=" ++ show last ++ "]")%string
          end
    end.

  Definition values_step (d : dir) (s : OrdinalValues) : res (option T * OrdinalValues) :=
    match d with Front => values_next s | Back => values_next_back s end.
End Values.

(** Driving any iterator with a schedule of next/next_back calls. *)
Fixpoint drive {St A : Type} (step : dir -> St -> res (option A * St))
    (sched : list dir) (s : St) : res (list (option A) * St) :=
  match sched with
  | [] => Val ([], s)
  | d :: ds =>
      '(o, s1) <- step d s ;;
      '(os, s2) <- drive step ds s1 ;;
      Val (o :: os, s2)
  end.

(** [for x in iter] / [collect]: call [next] until it returns [None]; [fuel] bounds the
    number of calls. *)
Fixpoint collect {St A : Type} (next : St -> res (option A * St))
    (fuel : nat) (s : St) : res (list A * St) :=
  match fuel with
  | O => OutOfFuel
  | S fuel' =>
      '(o, s1) <- next s ;;
      match o with
      | None => Val ([], s1)
      | Some a =>
          '(l, s2) <- collect next fuel' s1 ;;
          Val (a :: l, s2)
      end
  end.
