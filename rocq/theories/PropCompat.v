(** * PropCompat: C67 (provided impls and equivalent declarations number alike) and C68
    (variants added at the end do not move the others).

    [same_numbering OA OB f n]: both have [n] values and [f] preserves the numbers;
    [option_decl], ...: the declarations, [option_as], ...: the values as values of these;
    [extend vs ws]: a value of [enum { vs }] as a value of [enum { vs, ws }] (SpecCompat.v). *)
From Verif Require Import Base Spec SpecDerive SpecCompat ModelOrdinal ModelDerive OrdinalProofs CompatProofs.
From Coq Require Import String List. Import ListNotations.

(** ** C67. [d0], [d1], ...: the discriminants, which may be anything. *)
Theorem C67_Option : forall (cfg : Config) (d0 d1 : option Z) (f : ftype) (n : N),
  ordinal_bijection (ft_ord f) n -> n < usize_max ->
  same_numbering (Ordinal_Option (ft_ord f)) (derive_enum (option_decl d0 d1 f)) (option_as d0 d1 f) (n + 1).
Proof. exact @option_same. Qed.
Print Assumptions C67_Option.
Theorem C67_Result : forall (cfg : Config) (d0 d1 : option Z) (f g : ftype) (a b : N),
  ordinal_bijection (ft_ord f) a -> ordinal_bijection (ft_ord g) b -> a + b <= usize_max ->
  same_numbering (Ordinal_Result (ft_ord f) (ft_ord g)) (derive_enum (two_decl d0 d1 f g)) (result_as d0 d1 f g) (a + b).
Proof. exact @result_same. Qed.
Print Assumptions C67_Result.
Theorem C67_Either : forall (cfg : Config) (d0 d1 : option Z) (f g : ftype) (a b : N),
  ordinal_bijection (ft_ord f) a -> ordinal_bijection (ft_ord g) b -> a + b <= usize_max ->
  same_numbering (Ordinal_Either (ft_ord f) (ft_ord g)) (derive_enum (two_decl d0 d1 f g)) (either_as d0 d1 f g) (a + b).
Proof. exact @either_same. Qed.
Print Assumptions C67_Either.
Theorem C67_bool : forall (cfg : Config) (d0 d1 : option Z),
  same_numbering Ordinal_bool (derive_enum (unit_decl [d0; d1])) (bool_as d0 d1) 2.
Proof. exact @bool_same. Qed.
Print Assumptions C67_bool.
Theorem C67_Ordering : forall (cfg : Config) (d0 d1 d2 : option Z),
  same_numbering Ordinal_Ordering (derive_enum (unit_decl [d0; d1; d2])) (ordering_as d0 d1 d2) 3.
Proof. exact @ordering_same. Qed.
Print Assumptions C67_Ordering.
Theorem C67_Infallible : forall cfg : Config,
  same_numbering Ordinal_Infallible (derive_enum []) (fun e : Empty_set => match e with end) 0.
Proof. exact @infallible_same. Qed.
Print Assumptions C67_Infallible.
Theorem C67_Box : forall (cfg : Config) (f : ftype) (n : N), ordinal_bijection (ft_ord f) n ->
  same_numbering (Ordinal_Box (ft_ord f)) (derive_struct (FUnnamed [f])) (box_as f) n.
Proof. exact @box_same. Qed.
Print Assumptions C67_Box.
(** A tuple and the tuple struct compile together and number alike. *)
Theorem C67_tuple_size : forall (cfg : Config) (tys : list ftype) (ns : list N),
  (List.length tys <= 26)%nat -> fields_lawful tys ns ->
  ORDINAL_SIZE (impl_ordinal_for_tuple_n tys) = ORDINAL_SIZE (derive_struct (FUnnamed tys)).
Proof. exact @tuple_struct_size. Qed.
Print Assumptions C67_tuple_size.
Theorem C67_tuple : forall (cfg : Config) (tys : list ftype) (ns : list N) (n m : N),
  fields_lawful tys ns ->
  ORDINAL_SIZE (impl_ordinal_for_tuple_n tys) = Val n -> ORDINAL_SIZE (derive_struct (FUnnamed tys)) = Val m ->
  same_numbering (impl_ordinal_for_tuple_n tys) (derive_struct (FUnnamed tys)) (fun t => t) n.
Proof. exact @tuple_same. Qed.
Print Assumptions C67_tuple.
(** Field names do not matter, nor does a single variant around the fields. *)
Theorem C67_field_names : forall (cfg : Config) (fs : list (string * ftype)) (ns : list N) (n m : N),
  fields_lawful (map snd fs) ns ->
  ORDINAL_SIZE (derive_struct (FNamed fs)) = Val n -> ORDINAL_SIZE (derive_struct (FUnnamed (map snd fs))) = Val m ->
  same_numbering (derive_struct (FNamed fs)) (derive_struct (FUnnamed (map snd fs))) (fun t => t) n.
Proof. exact @struct_names_same. Qed.
Print Assumptions C67_field_names.
Theorem C67_single_variant : forall (cfg : Config) (d : option Z) (f : fields) (ns : list N) (n m : N),
  fields_lawful (field_types f) ns ->
  ORDINAL_SIZE (derive_struct f) = Val n -> ORDINAL_SIZE (derive_enum (only_decl d f)) = Val m ->
  same_numbering (derive_struct f) (derive_enum (only_decl d f)) (only_as d f) n.
Proof. exact @only_same. Qed.
Print Assumptions C67_single_variant.

Definition f_bool : ftype := {| ft_T := bool; ft_ord := Ordinal_bool; ft_lt := Bool.lt |}.
Definition f_ord : ftype := {| ft_T := comparison; ft_ord := Ordinal_Ordering; ft_lt := fun _ _ => False |}.
Example C67_case : forall cfg : Config,
  ordinal_bijection (ft_ord f_ord) 3 /\ ordinal_bijection (ft_ord f_bool) 2 /\ 3 < usize_max /\ 3 + 2 <= usize_max /\
  ordinal (Ordinal_Result Ordinal_Ordering Ordinal_bool) (ResErr true) = Val 4 /\
  ordinal (derive_enum (two_decl (Some 9%Z) None f_ord f_bool)) (inr (inl (true, tt))) = Val 4 /\
  ORDINAL_SIZE (derive_struct (FNamed [("x", f_ord); ("y", f_bool)]%string)) = Val 6 /\
  ORDINAL_SIZE (derive_enum (only_decl None (FUnnamed [f_ord; f_bool]))) = Val 6 /\
  ORDINAL_SIZE (impl_ordinal_for_tuple_n [f_ord; f_bool]) = Val 6.
Proof.
  intros cfg. split; [apply Ordering_lawful|]. split; [apply bool_lawful|].
  destruct cfg as [[] [] []]; repeat split; vm_compute; first [reflexivity|discriminate].
Qed.

(** ** C68 *)
Theorem C68_variants_added_at_the_end : forall (cfg : Config) (vs ws : list variant) (nss mss : list (list N)) (n m : N),
  variants_lawful (variant_types vs) nss -> variants_lawful (variant_types ws) mss ->
  ORDINAL_SIZE (derive_enum vs) = Val n -> ORDINAL_SIZE (derive_enum (vs ++ ws)) = Val m ->
  (forall e, ordinal (derive_enum (vs ++ ws)) (extend vs ws e) = ordinal (derive_enum vs) e) /\
  (forall i, i < n -> exists e, from_ordinal (derive_enum vs) i = Val (Some e) /\
     from_ordinal (derive_enum (vs ++ ws)) i = Val (Some (extend vs ws e))) /\
  (forall e i, ordinal (derive_enum (vs ++ ws)) e = Val i -> (i < n <-> exists e0, e = extend vs ws e0)) /\
  m = n + sum_of (map product_of mss).
Proof. exact @extend_law. Qed.
Print Assumptions C68_variants_added_at_the_end.
Example C68_case : forall cfg : Config,
  let vs := two_decl None (Some 3%Z) f_ord f_bool in
  let ws := unit_decl [Some 1%Z; None] in
  variants_lawful (variant_types vs) [[3]; [2]] /\ variants_lawful (variant_types ws) [[]; []] /\
  ORDINAL_SIZE (derive_enum vs) = Val 5 /\ ORDINAL_SIZE (derive_enum (vs ++ ws)) = Val 7 /\
  ordinal (derive_enum vs) (inr (inl (true, tt))) = Val 4 /\
  ordinal (derive_enum (vs ++ ws)) (inr (inl (true, tt))) = Val 4 /\
  ordinal (derive_enum (vs ++ ws)) (inr (inr (inl tt))) = Val 5.
Proof.
  intros cfg. cbv zeta. split.
  { repeat first [apply Ordering_lawful|apply bool_lawful|constructor]. }
  split; [repeat constructor|].
  destruct cfg as [[] [] []]; repeat split; vm_compute; reflexivity.
Qed.
