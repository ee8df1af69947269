(** * SpecPartsLife: [from_ordinal] of structs, tuples, enums and arrays, when that of a part is arbitrary code.

    As SpecDeriveLife.v and SpecArrayLife.v, but the [from_ordinal] of a field or element may destroy values itself,
    has a state in [St], and may answer differently every time ([calls] of SpecKeyMake.v). Nothing here refers to
    the implementation. *)
From Verif Require Import Base Spec SpecCatch SpecLifeRun SpecLifeEnds SpecKeyMake.
From Coq Require Import List. Import ListNotations.

Section PartsLife.
  Context {T St : Type} (boom : list T -> T -> option panic).
  Notation state := (list T * St)%type.
  Notation result := (state * option (seen (option (list T))))%type.
  (** How many values a part has, and its [from_ordinal]. *)
  Definition part : Type := N * (N -> calls (T := T) (St := St) (option T)).

  (** One part is made after another, with a digit of [m] each; [go] continues with what is left of [m] and the
      new part. A panic destroys the parts [made]. *)
  Definition part_made (p : part) (s : state) (m : N) (made : list T) (go : state -> N -> T -> result) : result :=
    let '(s', x) := snd p (m mod fst p) s in
    match x with
    | Some (Seen (Some t)) => go s' (m / fst p) t
    | Some (Seen None) => given_up boom PUnwrap s' made
    | Some (Caught w) => given_up boom w s' made
    | None => (s', None)
    end.

  (** Fields, from the last; all are destroyed, from the first, if anything is left of [m]. *)
  Fixpoint fields_called (s : state) (m : N) (made : list T) (ps : list part) : result :=
    match ps with
    | [] =>
        if m =? 0 then (s, Some (Seen (Some made)))
        else let '(log', p) := destroyed_all boom None (fst s) made in ((log', snd s), opt_map (shown None) p)
    | p :: ps' => part_made p s m made (fun s' m' t => fields_called s' m' (t :: made) ps')
    end.
  Definition struct_called (s : state) (m : N) (ps : list part) : result :=
    if existsb (fun p => fst p =? 0) ps then (s, Some (Seen None)) else fields_called s m [] (rev ps).

  (** The variants of an enum, as in SpecDeriveLife.v. *)
  Fixpoint enum_called (s : state) (m : N) (i : nat) (vs : list (list part)) : state * option (seen (option (nat * list T))) :=
    match vs with
    | [] => (s, Some (Seen None))
    | ps :: vs' =>
        let n := fold_right N.mul 1 (map fst ps) in
        if m <? n then
          let '(s', x) := struct_called s m ps in
          (s', match x with
               | Some (Seen (Some ts)) => Some (Seen (Some (i, ts)))
               | Some (Seen None) => Some (Seen None)
               | Some (Caught w) => Some (Caught w)
               | None => None
               end)
        else enum_called s (m - n) (S i) vs'
    end.

  (** Elements, from the last; they are destroyed, from the last and up to a panic, if anything is left of [m]. *)
  Fixpoint elements_called (p : part) (s : state) (m : N) (made : list T) (left : nat) : result :=
    match left with
    | O =>
        if m =? 0 then (s, Some (Seen (Some (rev made))))
        else let '(log', w) := up_to_panic boom (fst s) made in ((log', snd s), Some (shown None w))
    | S left' => part_made p s m made (fun s' m' t => elements_called p s' m' (made ++ [t]) left')
    end.
  Definition array_called (p : part) (s : state) (m : N) (len : nat) : result :=
    if (fst p =? 0) && negb (Nat.eqb len 0) then (s, Some (Seen None)) else elements_called p s m [] len.
End PartsLife.
