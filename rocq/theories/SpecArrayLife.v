(** * SpecArrayLife: what [from_ordinal] of an array makes and destroys.

    As in SpecDeriveLife.v, with one type of elements. Unlike the fields of a struct the elements are destroyed
    from the last to the first, and if a destructor panics the elements before are leaked. Nothing here refers to
    the implementation. *)
From Verif Require Import Base Spec SpecCatch SpecLifeRun SpecLifeEnds SpecKeyMake SpecDeriveLife.
From Coq Require Import List. Import ListNotations.

Section ArrayLife.
  Context {T : Type} (boom : list T -> T -> option panic) (elem : field (T := T)).

  (** The elements are made from the last to the first; [made] are those there already, the last one first. *)
  Fixpoint elements_made (log : list T) (m : N) (made : list T) (left : nat) : list T * option (seen (option (list T))) :=
    match left with
    | O =>
        if m =? 0 then (log, Some (Seen (Some (rev made))))
        else let '(log', p) := up_to_panic boom log made in (log', Some (shown None p))
    | S left' =>
        match snd elem (m mod fst elem) with
        | Seen (Some t) => elements_made log (m / fst elem) (made ++ [t]) left'
        | Seen None => lost boom PUnwrap log made
        | Caught w => lost boom w log made
        end
    end.
  (** Nothing is made if there are no elements of the type, but some are needed. *)
  Definition array_decoded (log : list T) (m : N) (len : nat) : list T * option (seen (option (list T))) :=
    if (fst elem =? 0) && negb (Nat.eqb len 0) then (log, Some (Seen None)) else elements_made log m [] len.
End ArrayLife.
