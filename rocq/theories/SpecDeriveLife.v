(** * SpecDeriveLife: what [from_ordinal] of a struct or tuple makes and destroys.

    A field is a number of values and a function that returns the value of a number, returns [None], or panics.
    [T] is whatever has a destructor; the log lists those whose destructors were started, and [boom log t] says
    whether that of [t] panics then. [None] means that the process aborts. Nothing here refers to the
    implementation. *)
From Verif Require Import Base Spec SpecCatch SpecLifeRun SpecLifeEnds.
From Coq Require Import List. Import ListNotations.

Section DeriveLife.
  Context {T : Type} (boom : list T -> T -> option panic).
  Definition field : Type := N * (N -> seen (option T)).

  (** The fields are made from the last to the first, one digit of [m] each; [made] are those there already.
      If there is more than the digits, all are destroyed, from the first. A panic destroys those made. *)
  Fixpoint fields_made (log : list T) (m : N) (made : list T) (fs : list field) : list T * option (seen (option (list T))) :=
    match fs with
    | [] =>
        if m =? 0 then (log, Some (Seen (Some made)))
        else let '(log', p) := destroyed_all boom None log made in (log', opt_map (shown None) p)
    | (n, from) :: fs' =>
        match from (m mod n) with
        | Seen (Some t) => fields_made log (m / n) (t :: made) fs'
        | Seen None => lost boom PUnwrap log made
        | Caught w => lost boom w log made
        end
    end.
  (** Nothing is made if some field has no values. *)
  Definition struct_made (log : list T) (m : N) (fs : list field) : list T * option (seen (option (list T))) :=
    if existsb (fun f => fst f =? 0) fs then (log, Some (Seen None)) else fields_made log m [] (rev fs).

  (** The variants of an enum; a variant has as many values as its fields together. Only fields of the variant of
      [m] are made, and none if there is no such variant. [i]: the index of the first variant. *)
  Fixpoint enum_made (log : list T) (m : N) (i : nat) (vs : list (list field)) : list T * option (seen (option (nat * list T))) :=
    match vs with
    | [] => (log, Some (Seen None))
    | fs :: vs' =>
        let n := fold_right N.mul 1 (map fst fs) in
        if m <? n then
          let '(log', x) := struct_made log m fs in
          (log', match x with
                 | Some (Seen (Some ts)) => Some (Seen (Some (i, ts)))
                 | Some (Seen None) => Some (Seen None)
                 | Some (Caught w) => Some (Caught w)
                 | None => None
                 end)
        else enum_made log (m - n) (S i) vs'
    end.
End DeriveLife.
