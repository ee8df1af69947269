(** * ModelArrayLife: who destroys the elements in [from_ordinal] of arrays.

    [thing v] is the element [v] as something with a destructor. The [from_ordinal] of the elements is taken to
    destroy nothing itself. *)
From Verif Require Import Base Spec SpecCatch SpecDeriveLife ModelOrdinal ModelArrayBuilder ModelCatch ModelLife ModelKeyMake.
From Coq Require Import List. Import ListNotations.

Section ArrayLife.
  Context {cfg : Config} {T : Type} (boom : list T -> T -> option panic) {E : Type} (thing : E -> T) (O : Ordinal E) (len : nat).
  Context {M : Type}.
  Local Notation code := (act (list T * M)).
  Definition elem_of (v : E) : option T := Some (thing v).

  (** ordinal/impls/array.rs:24-41: the builder is a local variable up to [finish]. *)
  Fixpoint array_from_loop_owned (size : N) (turns : nat) (n : N) (b : builder E) : code (option (arr E len)) :=
    match turns with
    | Datatypes.O =>
        if negb (n =? 0) then builder_end boom elem_of b ;;! ret None
        else
          a <! finish_owned boom elem_of len b ;;
          (* array.reverse() in place *)
          look (fun _ => match try_arr len (rev (arr_list a)) with None => UB | Some a' => Val (Some a') end)
    | S turns' =>
        match checked_rem n size with
        | None => builder_end boom elem_of b ;;! ret None
        | Some i =>
            v <! building boom elem_of b (look (fun _ => r <- from_ordinal O i ;; unwrap r)) ;;
            b' <! building boom elem_of b (push_owned boom elem_of len b v) ;;
            n' <! building boom elem_of b' (look (fun _ => udiv n size)) ;;
            array_from_loop_owned size turns' n' b'
        end
    end.
  (** ordinal/impls/array.rs:24-41 *)
  Definition array_from_owned (o : N) : code (option (arr E len)) :=
    match ORDINAL_SIZE O with
    | Val size => array_from_loop_owned size len o (builder_new len)
    | _ => fun s => (s, Stuck)
    end.

  (** For the statement: the type of the elements as in SpecDeriveLife.v. *)
  Definition as_element : field (T := T) :=
    (match ORDINAL_SIZE O with Val n => n | _ => 0 end,
     fun i => match from_ordinal O i with Val o => Seen (opt_map thing o) | Panic w => Caught w | _ => Seen None end).
End ArrayLife.
