(** * SpecNominal: what a declared type is made of. *)
From Verif Require Import Base Spec SpecUniverse ModelNominal.
From Coq Require Import List Relation_Operators.
Import ListNotations.

(** The types directly inside a type: those of its elements or fields. *)
Definition parts (p : program) (t : gty) : list gty :=
  match t with
  | GVar _ | GForeign | GPrim _ => []
  | GBox t | GOption t | GArray t _ => [t]
  | GResult a b | GEither a b => [a; b]
  | GTuple ts => ts
  | GNamed d args consts =>
      match nth_error p d with
      | None => []
      | Some it => map (inst args (map len_value consts)) (body_types (it_body it))
      end
  end.
Definition part_of (p : program) (s t : gty) : Prop := In s (parts p t).
(** At any depth. *)
Definition inside (p : program) : gty -> gty -> Prop := clos_trans gty (part_of p).

(** [t] ends: every path to parts of parts does. *)
Definition finite_type (p : program) (t : gty) : Prop := Acc (part_of p) t.

(** Arguments a declaration can be used with: the right number, those with a bound have
    the impl. *)
Definition arguments_ok (p : program) (it : item) (args : list gty) : Prop :=
  length args = it_params it /\
  forall i, In i (it_bounds it) -> implements p [] (nth i args GForeign) = true.
Definition well_scoped (it : item) : Prop := Forall (fun i => (i < it_params it)%nat) (it_bounds it).

(** No parameters anywhere. *)
Fixpoint plain (t : gty) : Prop :=
  match t with
  | GVar _ => False
  | GForeign | GPrim _ => True
  | GBox t | GOption t => plain t
  | GResult a b | GEither a b => plain a /\ plain b
  | GArray t l => plain t /\ (exists n, l = LConst n)
  | GTuple ts => fold_right and True (map plain ts)
  | GNamed _ args consts => args = [] /\ consts = []
  end.
Definition plain_program (p : program) : Prop :=
  Forall (fun it => Forall plain (body_types (it_body it))) p.
