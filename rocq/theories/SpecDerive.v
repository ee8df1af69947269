(** * SpecDerive: vocabulary for the numbering of structs, tuples and enums. *)
From Verif Require Import Base Spec ModelDerive.
From Coq Require Import String.

(** Field names that clash with the generated code: its variable [rem], and the variants of the
    prelude, which no pattern can bind. *)
Definition reserved_names : list string := ["rem"; "None"; "Some"; "Ok"; "Err"]%string.
(** Different names, none of them reserved. *)
Definition names_ok (vars : list string) : Prop :=
  NoDup vars /\ forall x, In x reserved_names -> ~ In x vars.

(** [tuple_digits fs t ds]: the fields of [t] have the ordinals [ds], in order. *)
Fixpoint tuple_digits (fs : list ftype) : tuple fs -> list N -> Prop :=
  match fs with
  | [] => fun _ ds => ds = []
  | f :: r => fun t ds =>
      exists d ds', ds = d :: ds' /\ ordinal (ft_ord f) (fst t) = Val d /\
                    tuple_digits r (snd t) ds'
  end.

(** Which variant (0-based, in declaration order) a value belongs to. *)
Fixpoint variant_index (vs : list (list ftype)) : enum_val vs -> nat :=
  match vs with
  | [] => fun e => match e with end
  | v :: r => fun e => match e with
                       | inl _ => O
                       | inr e' => S (variant_index r e')
                       end
  end.

(** The ordinals of the fields of an enum value. *)
Fixpoint enum_digits (vs : list (list ftype)) : enum_val vs -> list N -> Prop :=
  match vs with
  | [] => fun e => match e with end
  | v :: r => fun e ds => match e with
                          | inl t => tuple_digits v t ds
                          | inr e' => enum_digits r e' ds
                          end
  end.

(** The field types obey the bijection law with these sizes. *)
Definition fields_lawful {cfg : Config} (fs : list ftype) (ns : list N) : Prop :=
  Forall2 (fun f n => ordinal_bijection (ft_ord f) n) fs ns.

Definition variants_lawful {cfg : Config} (vs : list (list ftype)) (nss : list (list N)) : Prop :=
  Forall2 fields_lawful vs nss.

(** Position of a value: values of earlier variants first, then its fields as a
    mixed-radix number. *)
Definition enum_position (nss : list (list N)) (k : nat) (ds : list N) : N :=
  sum_of (map product_of (firstn k nss)) + mixed_radix (nth k nss []) ds.

(** The elements of a homogeneous tuple. *)
Fixpoint tuple_list (f : ftype) (n : nat) : tuple (repeat f n) -> list (ft_T f) :=
  match n with
  | O => fun _ => []
  | S n' => fun t => fst t :: tuple_list f n' (snd t)
  end.
