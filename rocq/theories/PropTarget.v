(** * PropTarget: properties C99 and C100, about the numbering of every type built from the
    provided impls and derives.

    [ty], [type_of], [impl_of], [lt_of]: see PropUniverse.v. [same_value c d t v w]
    (SpecTarget.v): [v], a value of [t] in configuration [c], and [w], one in [d], are written
    the same way in Rust. *)
From Coq Require Import String List.
From Verif Require Import Base Spec SpecDerive SpecUniverse ModelOrdinal ModelArrayBuilder
  ModelDerive ModelUniverse SpecTarget TargetProofs TargetProofs2 TargetProofs3.
Import ListNotations.

(** ** C99 *)

(** Targets of the same width, whatever the build settings, give every value the same ordinal;
    so do targets of different widths unless NonZeroIsize is a part of the type. *)
Theorem C99_same_ordinal : forall (c d : Config) (t : ty) (n m : N),
  ORDINAL_SIZE (@impl_of c t) = Val n -> ORDINAL_SIZE (@impl_of d t) = Val m ->
  forall (v : @type_of c t) (w : @type_of d t),
  @usize_width c = @usize_width d \/ no_isize t -> same_value c d t v w ->
  exists i, i < n /\ i < m /\ ordinal (@impl_of c t) v = Val i /\ ordinal (@impl_of d t) w = Val i.
Proof. exact target_ordinal. Qed.
Print Assumptions C99_same_ordinal.

(** Equal ordinals mean the same value. *)
Theorem C99_ordinal_tells_value : forall (c d : Config) (t : ty) (n m : N),
  ORDINAL_SIZE (@impl_of c t) = Val n -> ORDINAL_SIZE (@impl_of d t) = Val m ->
  forall (v : @type_of c t) (w : @type_of d t),
  @usize_width c = @usize_width d \/ no_isize t ->
  (same_value c d t v w <->
   exists i, ordinal (@impl_of c t) v = Val i /\ ordinal (@impl_of d t) w = Val i).
Proof. exact target_ordinal_iff. Qed.
Print Assumptions C99_ordinal_tells_value.

(** An ordinal stands for the same value everywhere. *)
Theorem C99_same_from_ordinal : forall (c d : Config) (t : ty) (n m : N),
  ORDINAL_SIZE (@impl_of c t) = Val n -> ORDINAL_SIZE (@impl_of d t) = Val m ->
  forall i, @usize_width c = @usize_width d \/ no_isize t -> i < n -> i < m ->
  exists v w, from_ordinal (@impl_of c t) i = Val (Some v) /\
    from_ordinal (@impl_of d t) i = Val (Some w) /\ same_value c d t v w.
Proof. exact target_decode. Qed.
Print Assumptions C99_same_from_ordinal.

(** The sizes are equal, or those of NonZeroUsize. *)
Theorem C99_sizes : forall (c d : Config) (t : ty) (n m : N),
  ORDINAL_SIZE (@impl_of c t) = Val n -> ORDINAL_SIZE (@impl_of d t) = Val m ->
  n = m \/ n = @usize_max c /\ m = @usize_max d.
Proof. exact target_size_pair. Qed.
Print Assumptions C99_sizes.
Theorem C99_same_size : forall (c d : Config) (t : ty) (n m : N),
  ORDINAL_SIZE (@impl_of c t) = Val n -> ORDINAL_SIZE (@impl_of d t) = Val m ->
  @usize_width c = @usize_width d \/ portable t -> n = m.
Proof. exact target_size. Qed.
Print Assumptions C99_same_size.

(** The values are listed in the same order. *)
Theorem C99_same_values : forall (c d : Config) (t : ty) (n m : N),
  ORDINAL_SIZE (@impl_of c t) = Val n -> ORDINAL_SIZE (@impl_of d t) = Val m ->
  forall l k, @usize_width c = @usize_width d \/ portable t ->
  enumeration (@impl_of c t) l -> enumeration (@impl_of d t) k ->
  Forall2 (same_value c d t) l k.
Proof. exact target_enumeration. Qed.
Print Assumptions C99_same_values.

(** A type that is accepted where pointers are narrow is accepted, with the same size, where
    they are wider. *)
Theorem C99_compiles_for_wider : forall c d : Config, not_wider c d -> forall (t : ty) (n : N),
  accepted t -> @usize_width c = @usize_width d \/ portable t ->
  ORDINAL_SIZE (@impl_of c t) = Val n -> ORDINAL_SIZE (@impl_of d t) = Val n.
Proof. exact compiles_up. Qed.
Print Assumptions C99_compiles_for_wider.

(** [same_value] relates each value to exactly one value of the other configuration if that is not
    narrower or nothing in the type depends on the width; and it does not matter which of the two
    configurations comes first. *)
Theorem C99_one_same_value : forall (c d : Config) (t : ty) (v : @type_of c t), not_wider c d ->
  exists w, same_value c d t v w /\ forall w', same_value c d t v w' -> w' = w.
Proof. exact partner_up. Qed.
Print Assumptions C99_one_same_value.
Theorem C99_one_same_value_portable : forall (c d : Config) (t : ty) (v : @type_of c t), portable t ->
  exists w, same_value c d t v w /\ forall w', same_value c d t v w' -> w' = w.
Proof. exact partner_portable. Qed.
Print Assumptions C99_one_same_value_portable.
Theorem C99_same_value_symmetric : forall (c d : Config) (t : ty) (v : @type_of c t) (w : @type_of d t),
  same_value c d t v w <-> same_value d c t w v.
Proof. exact same_value_sym. Qed.
Print Assumptions C99_same_value_symmetric.

(** NonZeroIsize is an exception. *)
Theorem C99_nonzero_isize_differs :
  exists (v : @type_of debug32 (TPrim PNonZeroIsize)) (w : @type_of debug64 (TPrim PNonZeroIsize)),
    same_value debug32 debug64 (TPrim PNonZeroIsize) v w /\
    ordinal (@impl_of debug32 (TPrim PNonZeroIsize)) v = Val 2147483648 /\
    ordinal (@impl_of debug64 (TPrim PNonZeroIsize)) w = Val 9223372036854775808.
Proof. exact pointer_sized_differ. Qed.
Print Assumptions C99_nonzero_isize_differs.

(** [enum Demo { A(Option<bool>), B { x: NonZeroU16, y: [Ordering; 2] } }] *)
Definition target_demo : ty :=
  TEnum [VDecl None (DUnnamed [TOption (TPrim Pbool)]);
         VDecl None (DNamed [("x"%string, TPrim PNonZeroU16); ("y"%string, TArray (TPrim POrd) 2)])].

Definition two_ord (a b : comparison) : arr comparison 2 := mk_arr 2%nat [a; b] eq_refl.

Example C99_demo : forall cfg : Config,
  ORDINAL_SIZE (@impl_of cfg target_demo) = Val 589818 /\ accepted target_demo /\ portable target_demo /\
  no_isize target_demo.
Proof.
  intros cfg. split; [destruct cfg as [[] [] []]; vm_compute; reflexivity|]. split; [|split; cbn; tauto].
  cbn. repeat split; repeat constructor; cbn; intuition congruence.
Qed.
Example C99_demo_value :
  let v : @type_of release32 target_demo :=
    inr (inl (mk_nonzero (mk_int 0 65535 300 eq_refl) eq_refl, (two_ord Eq Gt, tt))) in
  let w : @type_of debug64 target_demo :=
    inr (inl (mk_nonzero (mk_int 0 65535 300 eq_refl) eq_refl, (two_ord Eq Gt, tt))) in
  same_value release32 debug64 target_demo v w /\
  ordinal (@impl_of release32 target_demo) v = Val (3 + 299 * 9 + 3 + 2) /\
  ordinal (@impl_of debug64 target_demo) w = Val (3 + 299 * 9 + 3 + 2).
Proof.
  split; [|split; vm_compute; reflexivity]. cbn. unfold same_nonzero, same_number. repeat constructor.
Qed.
(** Another value of the same shape is not the same value. *)
Example C99_demo_other : forall (v : @type_of release32 target_demo) (w : @type_of debug64 target_demo),
  v = inl (Some true, tt) -> w = inl (Some false, tt) -> ~ same_value release32 debug64 target_demo v w.
Proof. intros v w -> -> [H _]. discriminate H. Qed.
(** The narrower one of two configurations; a type only the wider one accepts, so that the converse
    of [C99_compiles_for_wider] does not hold. *)
Example C99_narrow : not_wider debug32 release64 /\ not_wider debug64 release64 /\ ~ not_wider debug64 debug32.
Proof. unfold not_wider. repeat split; try (vm_compute; discriminate). vm_compute. congruence. Qed.
Example C99_only_wide :
  ORDINAL_SIZE (@impl_of debug32 (TOption (TPrim PNonZeroU64))) = NoCompile /\
  ORDINAL_SIZE (@impl_of debug32 (TOption (TPrim Pi32))) = NoCompile /\
  ORDINAL_SIZE (@impl_of debug64 (TOption (TPrim Pi32))) = Val 4294967297.
Proof. vm_compute. auto. Qed.
(** A part that is as wide as a pointer. *)
Example C99_usize :
  let t := TTuple [TBox (TPrim PNonZeroUsize); TTuple []] in
  let v : @type_of debug32 t := (Box (mk_nonzero (mk_int 0 4294967295 77 eq_refl) eq_refl), (tt, tt)) in
  let w : @type_of debug64 t := (Box (mk_nonzero (mk_int 0 18446744073709551615 77 eq_refl) eq_refl), (tt, tt)) in
  no_isize t /\ same_value debug32 debug64 t v w /\
  ORDINAL_SIZE (@impl_of debug32 t) = Val 4294967295 /\
  ORDINAL_SIZE (@impl_of debug64 t) = Val 18446744073709551615 /\
  ordinal (@impl_of debug32 t) v = Val 76 /\ ordinal (@impl_of debug64 t) w = Val 76.
Proof. split; [cbn; tauto|]. split; [cbn; repeat split|]. repeat split; vm_compute; reflexivity. Qed.

(** ** C100 *)

(** The ordinal of a value is the number of values Rust's [<] puts before it. *)
Theorem C100_ordinal_is_rank : forall (cfg : Config) (t : ty) (n : N) (v : type_of t),
  no_discriminants t -> ORDINAL_SIZE (impl_of t) = Val n ->
  exists l, NoDup l /\ (forall u, In u l <-> lt_of t u v) /\
    ordinal (impl_of t) v = Val (N.of_nat (length l)).
Proof. exact @rank_of. Qed.
Print Assumptions C100_ordinal_is_rank.

(** Any implementation for the same type, in any configuration, that obeys the law and agrees with
    Rust's [<] numbers the values the same way. *)
Theorem C100_only_numbering : forall (c d : Config) (t : ty) (n : N) (P : Ordinal (@type_of c t)) (m : N),
  no_discriminants t -> ORDINAL_SIZE (@impl_of c t) = Val n ->
  @ordinal_bijection d _ P m -> ordinal_monotone P (@lt_of c t) ->
  m = n /\ (forall v, ordinal P v = ordinal (@impl_of c t) v) /\
  (forall i, i < n -> from_ordinal P i = from_ordinal (@impl_of c t) i).
Proof. exact only_numbering. Qed.
Print Assumptions C100_only_numbering.

(** With explicit discriminants the rank is another number: [enum E { A = 1, B = 0 }]. *)
Theorem C100_discriminants_differ : forall cfg : Config,
  exists (t : ty) (v : type_of t) (n : N), ORDINAL_SIZE (impl_of t) = Val n /\
    ~ exists l, NoDup l /\ (forall u, In u l <-> lt_of t u v) /\
        ordinal (impl_of t) v = Val (N.of_nat (length l)).
Proof. exact @rank_discriminants. Qed.
Print Assumptions C100_discriminants_differ.

Example C100_demo : forall cfg : Config,
  no_discriminants target_demo /\ ORDINAL_SIZE (@impl_of cfg target_demo) = Val 589818.
Proof. intros [[] [] []]; (split; [cbn; tauto|vm_compute; reflexivity]). Qed.
(** The three values before [Ok(true)] in [Result<bool, ()>] with the two [bool]s the other way round are
    not those of the impl: the order is needed. *)
Example C100_order_needed : forall cfg : Config, exists P : Ordinal bool,
  ordinal_bijection P 2 /\ ordinal P true <> ordinal (impl_of (TPrim Pbool)) true.
Proof.
  intros cfg. exists {| ORDINAL_SIZE := Val 2;
    ordinal := fun b : bool => Val (if b then 0 else 1);
    from_ordinal := fun o => Val (if o =? 0 then Some true else if o =? 1 then Some false else None) |}.
  split; [|cbn; discriminate]. split; cbn.
  - reflexivity.
  - destruct cfg as [[] [] []]; vm_compute; discriminate.
  - intros []; eexists; (split; [reflexivity|split; [reflexivity|reflexivity]]).
  - intros i Hi. assert (i = 0 \/ i = 1) as [-> | ->] by lia; eexists; split; reflexivity.
Qed.
