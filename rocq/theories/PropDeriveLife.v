(** * PropDeriveLife: C117 (properties.jsonl). *)
From Verif Require Import Base Spec SpecDerive SpecCatch SpecLifeRun SpecLifeEnds SpecDeriveLife ModelOrdinal ModelDerive ModelCatch ModelLife ModelDeriveLife
  OrdinalProofs OrdinalProofs2 DeriveLifeProofs.
From Coq Require Import String List. Import ListNotations.

(** Structs, with fields whose [from_ordinal] returns or panics: what is made and destroyed, in which order, and
    the value, the panic or the abort that results. The value is the one of ModelDerive.v. *)
Theorem C117_struct : forall (cfg : Config) (T : Type) (boom : list T -> T -> option panic) (thing : forall f : ftype, ft_T f -> T) (M : Type)
  (f : fields) (ns : list N) (n o : N) (log : list T) (m : M),
  Forall2 (fun f n => ORDINAL_SIZE (ft_ord f) = Val n /\ n <= usize_max) (field_types f) ns ->
  Forall (fun f => forall n i, ORDINAL_SIZE (ft_ord f) = Val n -> i < n ->
    (exists o, from_ordinal (ft_ord f) i = Val o) \/ (exists w, from_ordinal (ft_ord f) i = Panic w)) (field_types f) ->
  ORDINAL_SIZE (derive_struct f) = Val n ->
  let '(log', x) := struct_made boom log o (map (as_field thing) (field_types f)) in
  exists e, struct_from_owned boom thing f o (log, m) = ((log', m), e) /\
    match x with
    | Some (Seen (Some ts)) => exists t, e = Ended (Some t) /\ tuple_things thing (field_types f) t = ts /\ from_ordinal (derive_struct f) o = Val (Some t)
    | Some (Seen None) => e = Ended None /\ from_ordinal (derive_struct f) o = Val None
    | Some (Caught w) => e = Unwinds w /\ (from_ordinal (derive_struct f) o = Panic w \/ from_ordinal (derive_struct f) o = Val None)
    | None => e = Aborts /\ (from_ordinal (derive_struct f) o = Val None \/ exists w, from_ordinal (derive_struct f) o = Panic w)
    end.
Proof. exact @struct_exact. Qed.
Print Assumptions C117_struct.

Theorem C117_tuple : forall (cfg : Config) (T : Type) (boom : list T -> T -> option panic) (thing : forall f : ftype, ft_T f -> T) (M : Type)
  (tys : list ftype) (ns : list N) (n o : N) (log : list T) (m : M),
  Forall2 (fun f n => ORDINAL_SIZE (ft_ord f) = Val n /\ n <= usize_max) tys ns ->
  Forall (fun f => forall n i, ORDINAL_SIZE (ft_ord f) = Val n -> i < n ->
    (exists o, from_ordinal (ft_ord f) i = Val o) \/ (exists w, from_ordinal (ft_ord f) i = Panic w)) tys ->
  ORDINAL_SIZE (impl_ordinal_for_tuple_n tys) = Val n ->
  let '(log', x) := struct_made boom log o (map (as_field thing) tys) in
  exists e, tuple_from_owned boom thing tys o (log, m) = ((log', m), e) /\
    match x with
    | Some (Seen (Some ts)) => exists t, e = Ended (Some t) /\ tuple_things thing tys t = ts /\ from_ordinal (impl_ordinal_for_tuple_n tys) o = Val (Some t)
    | Some (Seen None) => e = Ended None /\ from_ordinal (impl_ordinal_for_tuple_n tys) o = Val None
    | Some (Caught w) => e = Unwinds w /\ (from_ordinal (impl_ordinal_for_tuple_n tys) o = Panic w \/ from_ordinal (impl_ordinal_for_tuple_n tys) o = Val None)
    | None => e = Aborts /\ (from_ordinal (impl_ordinal_for_tuple_n tys) o = Val None \/ exists w, from_ordinal (impl_ordinal_for_tuple_n tys) o = Panic w)
    end.
Proof. exact @tuple_exact. Qed.
Print Assumptions C117_tuple.

Theorem C117_enum : forall (cfg : Config) (T : Type) (boom : list T -> T -> option panic) (thing : forall f : ftype, ft_T f -> T) (M : Type)
  (vs : list variant) (nss : list (list N)) (n o : N) (log : list T) (m : M),
  Forall2 (Forall2 (fun f n => ORDINAL_SIZE (ft_ord f) = Val n /\ n <= usize_max)) (variant_types vs) nss ->
  Forall (Forall (fun f => forall n i, ORDINAL_SIZE (ft_ord f) = Val n -> i < n ->
    (exists o, from_ordinal (ft_ord f) i = Val o) \/ (exists w, from_ordinal (ft_ord f) i = Panic w))) (variant_types vs) ->
  ORDINAL_SIZE (derive_enum vs) = Val n ->
  let '(log', x) := enum_made boom log o 0 (map (map (as_field thing)) (variant_types vs)) in
  exists e, enum_from_owned boom thing vs o (log, m) = ((log', m), e) /\
    match x with
    | Some (Seen (Some ts)) => exists t, e = Ended (Some t) /\ enum_things thing 0 (variant_types vs) t = ts /\ from_ordinal (derive_enum vs) o = Val (Some t)
    | Some (Seen None) => e = Ended None /\ from_ordinal (derive_enum vs) o = Val None
    | Some (Caught w) => e = Unwinds w /\ (from_ordinal (derive_enum vs) o = Panic w \/ from_ordinal (derive_enum vs) o = Val None)
    | None => e = Aborts /\ (from_ordinal (derive_enum vs) o = Val None \/ exists w, from_ordinal (derive_enum vs) o = Panic w)
    end.
Proof. exact @enum_exact. Qed.
Print Assumptions C117_enum.

(** With lawful fields nothing is destroyed by decoding a number in range. *)
Theorem C117_struct_in_range : forall (cfg : Config) (T : Type) (boom : list T -> T -> option panic) (thing : forall f : ftype, ft_T f -> T) (M : Type)
  (f : fields) (ns : list N) (n o : N) (log : list T) (m : M),
  fields_lawful (field_types f) ns -> ORDINAL_SIZE (derive_struct f) = Val n -> o < n ->
  exists t, from_ordinal (derive_struct f) o = Val (Some t) /\ struct_from_owned boom thing f o (log, m) = ((log, m), Ended (Some t)).
Proof. exact @struct_in_range. Qed.
Print Assumptions C117_struct_in_range.

Theorem C117_tuple_in_range : forall (cfg : Config) (T : Type) (boom : list T -> T -> option panic) (thing : forall f : ftype, ft_T f -> T) (M : Type)
  (tys : list ftype) (ns : list N) (n o : N) (log : list T) (m : M),
  fields_lawful tys ns -> ORDINAL_SIZE (impl_ordinal_for_tuple_n tys) = Val n -> o < n ->
  exists t, from_ordinal (impl_ordinal_for_tuple_n tys) o = Val (Some t) /\ tuple_from_owned boom thing tys o (log, m) = ((log, m), Ended (Some t)).
Proof. exact @tuple_in_range. Qed.
Print Assumptions C117_tuple_in_range.

Theorem C117_enum_in_range : forall (cfg : Config) (T : Type) (boom : list T -> T -> option panic) (thing : forall f : ftype, ft_T f -> T) (M : Type)
  (vs : list variant) (nss : list (list N)) (n o : N) (log : list T) (m : M),
  variants_lawful (variant_types vs) nss -> ORDINAL_SIZE (derive_enum vs) = Val n -> o < n ->
  exists t, from_ordinal (derive_enum vs) o = Val (Some t) /\ enum_from_owned boom thing vs o (log, m) = ((log, m), Ended (Some t)).
Proof. exact @enum_in_range. Qed.
Print Assumptions C117_enum_in_range.

(** Out of range, structs and tuples make all fields of the value of [o mod n] and destroy them, from the first. *)
Theorem C117_struct_out_of_range : forall (cfg : Config) (T : Type) (boom : list T -> T -> option panic) (thing : forall f : ftype, ft_T f -> T) (M : Type)
  (f : fields) (ns : list N) (n o : N) (log : list T) (m : M),
  fields_lawful (field_types f) ns -> ORDINAL_SIZE (derive_struct f) = Val n -> 0 < n -> n <= o ->
  exists t, from_ordinal (derive_struct f) (o mod n) = Val (Some t) /\
    struct_from_owned boom thing f o (log, m) = let '(log', p) := destroyed_all boom None log (tuple_things thing (field_types f) t) in
      ((log', m), match p with Some None => Ended None | Some (Some w) => Unwinds w | None => Aborts end).
Proof. exact @struct_beyond. Qed.
Print Assumptions C117_struct_out_of_range.

Theorem C117_tuple_out_of_range : forall (cfg : Config) (T : Type) (boom : list T -> T -> option panic) (thing : forall f : ftype, ft_T f -> T) (M : Type)
  (tys : list ftype) (ns : list N) (n o : N) (log : list T) (m : M),
  fields_lawful tys ns -> ORDINAL_SIZE (impl_ordinal_for_tuple_n tys) = Val n -> 0 < n -> n <= o ->
  exists t, from_ordinal (impl_ordinal_for_tuple_n tys) (o mod n) = Val (Some t) /\
    tuple_from_owned boom thing tys o (log, m) = let '(log', p) := destroyed_all boom None log (tuple_things thing tys t) in
      ((log', m), match p with Some None => Ended None | Some (Some w) => Unwinds w | None => Aborts end).
Proof. exact @tuple_beyond. Qed.
Print Assumptions C117_tuple_out_of_range.

(** Out of range, enums make nothing, with any fields that answer. *)
Theorem C117_enum_out_of_range : forall (cfg : Config) (T : Type) (boom : list T -> T -> option panic) (thing : forall f : ftype, ft_T f -> T) (M : Type)
  (vs : list variant) (nss : list (list N)) (n o : N) (log : list T) (m : M),
  Forall2 (Forall2 (fun f n => ORDINAL_SIZE (ft_ord f) = Val n /\ n <= usize_max)) (variant_types vs) nss ->
  Forall (Forall (fun f => forall n i, ORDINAL_SIZE (ft_ord f) = Val n -> i < n ->
    (exists o, from_ordinal (ft_ord f) i = Val o) \/ (exists w, from_ordinal (ft_ord f) i = Panic w))) (variant_types vs) ->
  ORDINAL_SIZE (derive_enum vs) = Val n -> n <= o ->
  enum_from_owned boom thing vs o (log, m) = ((log, m), Ended None).
Proof. exact @enum_beyond. Qed.
Print Assumptions C117_enum_out_of_range.

(** ** Examples *)
Definition ex117_bool : ftype := {| ft_T := bool; ft_ord := Ordinal_bool; ft_lt := Bool.lt |}.
Definition ex117_ord : ftype := {| ft_T := comparison; ft_ord := Ordinal_Ordering; ft_lt := fun _ _ => False |}.
(** A type of two values whose [from_ordinal] panics for the second. *)
Definition ex117_bad : ftype := {| ft_T := bool; ft_ord := {| ORDINAL_SIZE := Val 2; ordinal := fun b => Val (N.b2n b);
  from_ordinal := fun i => if i =? 0 then Val (Some false) else if i =? 1 then Panic PUser else Val None |}; ft_lt := Bool.lt |}.
Definition ex117_struct : fields := FNamed [("x", ex117_bool); ("y", ex117_ord); ("z", ex117_bool)]%string.
Definition ex117_enum : list variant := [
  {| v_discriminant := None; v_fields := FUnnamed [ex117_bad; ex117_ord] |};
  {| v_discriminant := None; v_fields := ex117_struct |}].
(** A value is shown as the size of its type and its number. *)
Definition ex117_thing (f : ftype) (v : ft_T f) : N * N :=
  match ORDINAL_SIZE (ft_ord f), ordinal (ft_ord f) v with Val n, Val i => (n, i) | _, _ => (0, 0) end.
(** Destructors of [Equal] panic, and those of [true] if two or more values were destroyed before. *)
Definition ex117_boom (log : list (N * N)) (t : N * N) : option panic :=
  match t with (3, 1) => Some PUser | (2, 1) => if Nat.leb 2 (length log) then Some PUser else None | _ => None end.

Example C117_hypotheses_struct : @fields_lawful debug64 (field_types ex117_struct) [2; 3; 2] /\
  ORDINAL_SIZE (@derive_struct debug64 ex117_struct) = Val 12.
Proof.
  split; [|vm_compute; reflexivity].
  repeat constructor; first [apply (@Ordering_lawful debug64)|apply (@bool_lawful debug64)].
Qed.
(** In range nothing is destroyed. Beyond, all three fields are, one with a panic, or two, which aborts. *)
Example C117_struct_runs :
  @struct_from_owned debug64 _ ex117_boom ex117_thing unit ex117_struct 7 ([], tt) = (([], tt), Ended (Some (true, (Lt, (true, tt))))) /\
  @struct_from_owned debug64 _ ex117_boom ex117_thing unit ex117_struct 18 ([], tt) = (([(2, 1); (3, 0); (2, 0)], tt), Ended None) /\
  @struct_from_owned debug64 _ ex117_boom ex117_thing unit ex117_struct 20 ([], tt) = (([(2, 1); (3, 1); (2, 0)], tt), Unwinds PUser) /\
  @struct_from_owned debug64 _ ex117_boom ex117_thing unit ex117_struct 21 ([], tt) = (([(2, 1); (3, 1); (2, 1)], tt), Aborts).
Proof. repeat split; vm_compute; reflexivity. Qed.

Example C117_hypotheses_tuple : let tys := [ex117_bad; ex117_ord] in
  Forall2 (fun f n => ORDINAL_SIZE (ft_ord f) = Val n /\ n <= @usize_max debug64) tys [2; 3] /\
  Forall (fun f => forall n i, ORDINAL_SIZE (ft_ord f) = Val n -> i < n ->
    (exists o, from_ordinal (ft_ord f) i = Val o) \/ (exists w, from_ordinal (ft_ord f) i = Panic w)) tys /\
  ORDINAL_SIZE (@impl_ordinal_for_tuple_n debug64 tys) = Val 6.
Proof.
  split; [|split; [|vm_compute; reflexivity]].
  - repeat constructor; vm_compute; discriminate.
  - constructor; [|constructor; [|constructor]].
    + intros n i _ _. cbn. destruct (i =? 0); [left; eauto|]. destruct (i =? 1); [right|left]; eauto.
    + intros n i Hn Hi. left. destruct (@bij_from _ _ _ _ (proj1 (@Ordering_lawful debug64)) i) as (v & E & _); [|eauto].
      cbn in Hn. injection Hn as <-. exact Hi.
Qed.
(** The panic of the first field destroys the second; if that panics too, the process aborts. *)
Example C117_tuple_runs : let tys := [ex117_bad; ex117_ord] in
  @tuple_from_owned debug64 _ ex117_boom ex117_thing unit tys 2 ([], tt) = (([], tt), Ended (Some (false, (Gt, tt)))) /\
  @tuple_from_owned debug64 _ ex117_boom ex117_thing unit tys 5 ([], tt) = (([(3, 2)], tt), Unwinds PUser) /\
  @tuple_from_owned debug64 _ ex117_boom ex117_thing unit tys 4 ([], tt) = (([(3, 1)], tt), Aborts) /\
  @tuple_from_owned debug64 _ ex117_boom ex117_thing unit tys 8 ([], tt) = (([(2, 0); (3, 2)], tt), Ended None).
Proof. repeat split; vm_compute; reflexivity. Qed.
Example C117_enum_runs :
  ORDINAL_SIZE (@derive_enum debug64 ex117_enum) = Val 18 /\
  @enum_from_owned debug64 _ ex117_boom ex117_thing unit ex117_enum 5 ([], tt) = (([(3, 2)], tt), Unwinds PUser) /\
  @enum_from_owned debug64 _ ex117_boom ex117_thing unit ex117_enum 13 ([], tt) = (([], tt), Ended (Some (inr (inl (true, (Lt, (true, tt))))))) /\
  @enum_from_owned debug64 _ ex117_boom ex117_thing unit ex117_enum 18 ([], tt) = (([], tt), Ended None).
Proof. repeat split; vm_compute; reflexivity. Qed.
Example C117_hypotheses_enum :
  let vs := [{| v_discriminant := None; v_fields := FUnit |}; {| v_discriminant := Some 4%Z; v_fields := ex117_struct |}] in
  @variants_lawful debug64 (variant_types vs) [[]; [2; 3; 2]] /\ ORDINAL_SIZE (@derive_enum debug64 vs) = Val 13.
Proof.
  split; [|vm_compute; reflexivity].
  repeat constructor; first [apply (@Ordering_lawful debug64)|apply (@bool_lawful debug64)].
Qed.
