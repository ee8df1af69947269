(** * PropArrayLife: C118 (properties.jsonl). *)
From Verif Require Import Base Spec SpecCatch SpecLifeRun SpecLifeEnds SpecKeyMake SpecDeriveLife SpecArrayLife ModelOrdinal ModelArrayBuilder
  ModelCatch ModelLife ModelKeyMake ModelDerive ModelDeriveLife ModelArrayLife OrdinalProofs OrdinalProofs2 ArrayLifeProofs.
From Coq Require Import List. Import ListNotations.

(** [from_ordinal] of arrays, with elements whose [from_ordinal] returns or panics: what is made and destroyed, in
    which order, and the value, the panic or the abort that results. The value is the one of ModelArrayBuilder.v. *)
Theorem C118_array : forall (cfg : Config) (T : Type) (boom : list T -> T -> option panic) (E : Type) (thing : E -> T) (O : Ordinal E) (len : nat) (M : Type)
  (size o : N) (log : list T) (m : M),
  ORDINAL_SIZE O = Val size ->
  (forall i, i < size -> (exists r, from_ordinal O i = Val r) \/ (exists w, from_ordinal O i = Panic w)) ->
  let '(log', x) := array_decoded boom (as_element thing O) log o len in
  exists e, array_from_owned boom thing O len o (log, m) = ((log', m), e) /\
    match x with
    | Some (Seen (Some ts)) => exists a, e = Ended (Some a) /\ map thing (arr_list a) = ts /\ from_ordinal (Ordinal_array O len) o = Val (Some a)
    | Some (Seen None) => e = Ended None /\ from_ordinal (Ordinal_array O len) o = Val None
    | Some (Caught w) => e = Unwinds w /\ (from_ordinal (Ordinal_array O len) o = Panic w \/ from_ordinal (Ordinal_array O len) o = Val None)
    | None => e = Aborts /\ (from_ordinal (Ordinal_array O len) o = Val None \/ exists w, from_ordinal (Ordinal_array O len) o = Panic w)
    end.
Proof. exact @array_exact. Qed.
Print Assumptions C118_array.

(** With lawful elements nothing is destroyed by decoding a number in range. *)
Theorem C118_in_range : forall (cfg : Config) (T : Type) (boom : list T -> T -> option panic) (E : Type) (thing : E -> T) (O : Ordinal E) (len : nat) (M : Type)
  (size : N), ordinal_bijection O size -> forall (n o : N) (log : list T) (m : M),
  ORDINAL_SIZE (Ordinal_array O len) = Val n -> o < n ->
  exists a, from_ordinal (Ordinal_array O len) o = Val (Some a) /\ array_from_owned boom thing O len o (log, m) = ((log, m), Ended (Some a)).
Proof. exact @array_in_range. Qed.
Print Assumptions C118_in_range.

(** Out of range the elements of the value of [o mod n] are made and destroyed, from the last, up to the first whose
    destructor panics; the others are leaked. *)
Theorem C118_out_of_range : forall (cfg : Config) (T : Type) (boom : list T -> T -> option panic) (E : Type) (thing : E -> T) (O : Ordinal E) (len : nat) (M : Type)
  (size : N), ordinal_bijection O size -> forall (n o : N) (log : list T) (m : M),
  ORDINAL_SIZE (Ordinal_array O len) = Val n -> 0 < n -> n <= o ->
  exists a, from_ordinal (Ordinal_array O len) (o mod n) = Val (Some a) /\
    array_from_owned boom thing O len o (log, m) = let '(log', p) := up_to_panic boom log (rev (map thing (arr_list a))) in
      ((log', m), match p with None => Ended None | Some w => Unwinds w end).
Proof. exact @array_beyond. Qed.
Print Assumptions C118_out_of_range.

(** ** Examples *)
Definition ex118_thing (c : comparison) : N := match c with Lt => 0 | Eq => 1 | Gt => 2 end.
(** The destructor of [Equal] panics. *)
Definition ex118_boom (log : list N) (t : N) : option panic := if t =? 1 then Some PUser else None.
Example C118_hypotheses : @ordinal_bijection debug64 comparison Ordinal_Ordering 3 /\
  ORDINAL_SIZE (@Ordinal_array debug64 _ (@Ordinal_Ordering) 3) = Val 27.
Proof. split; [apply (@Ordering_lawful debug64)|vm_compute; reflexivity]. Qed.
(** Out of range, the elements of [o mod 27] are destroyed from the last; in the last run the first is leaked. *)
Example C118_runs :
  let run o := let '((log, _), e) := @array_from_owned _ ex118_boom _ ex118_thing (@Ordinal_Ordering) 3 unit o ([], tt) in
    (log, match e with Ended (Some a) => Ended (Some (arr_list a)) | Ended None => Ended None | Unwinds w => Unwinds w | Aborts => Aborts | Stuck => Stuck end) in
  run 5 = ([], Ended (Some [Lt; Eq; Gt])) /\
  run (27 + 6) = ([0; 2; 0], Ended None) /\
  run (27 + 5) = ([2; 1], Unwinds PUser).
Proof. repeat split; vm_compute; reflexivity. Qed.
(** Elements whose [from_ordinal] panics for 2. *)
Definition ex118_bad : Ordinal comparison := {| ORDINAL_SIZE := Val 3; ordinal := fun c => Val (ex118_thing c);
  from_ordinal := fun i => if i =? 0 then Val (Some Lt) else if i =? 1 then Val (Some Eq) else Panic PIndex |}.
Example C118_hypotheses_bad : forall i, i < 3 -> (exists r, from_ordinal ex118_bad i = Val r) \/ (exists w, from_ordinal ex118_bad i = Panic w).
Proof. intros i _. cbn. destruct (i =? 0); [eauto|]. destruct (i =? 1); eauto. Qed.
(** The panic of an element destroys those after it, and the second panic aborts. *)
Example C118_bad_runs :
  let run o := @array_from_owned _ ex118_boom _ ex118_thing ex118_bad 3 unit o ([], tt) in
  run 18 = (([0; 0], tt), Unwinds PIndex) /\ run 7 = (([1], tt), Aborts) /\ run 2 = (([], tt), Unwinds PIndex).
Proof. repeat split; vm_compute; reflexivity. Qed.
(** Arrays and tuples of the same elements have the same ordinals (C67) but differ here: the tuple destroys from the
    first element, and all of them. *)
Example C118_not_tuples :
  let elem := {| ft_T := comparison; ft_ord := Ordinal_Ordering; ft_lt := fun _ _ => False |} in
  let thing (f : ftype) (v : ft_T f) := match ordinal (ft_ord f) v with Val i => i | _ => 0 end in
  @tuple_from_owned debug64 _ ex118_boom thing unit [elem; elem; elem] (27 + 5) ([], tt) = (([0; 1; 2], tt), Unwinds PUser).
Proof. vm_compute. reflexivity. Qed.
