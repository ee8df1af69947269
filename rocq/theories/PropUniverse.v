(** * PropUniverse: properties C13 - C18, about every type built from the provided impls
    and derives.

    [ty] (SpecUniverse.v) lists the finite type expressions; [type_of t], [impl_of t] and
    [lt_of t] (ModelUniverse.v) are the type, the [Ordinal] impl the compiler picks for it
    and its derived [<].  [has_values T n] (SpecUniverse.v): [T] has exactly [n] values. *)
From Verif Require Import Base Spec SpecDerive SpecUniverse ModelOrdinal ModelArrayBuilder
  ModelDerive ModelUniverse UniverseProofs2 UniverseProofs4 UniverseProofs6 UniverseProofs7.
From Coq Require Import String List.
Import ListNotations.

(** The type the examples use:
<<
    enum Demo {
        A,
        B(Option<bool>, Box<u8>),
        C { x: Result<Ordering, char>, y: [bool; 3] },
        D(((), (NonZeroU8,))),
    }
>> *)
Definition demo : ty :=
  TEnum [VDecl None DUnit;
         VDecl None (DUnnamed [TOption (TPrim Pbool); TBox (TPrim Pu8)]);
         VDecl None (DNamed [("x"%string, TResult (TPrim POrd) (TPrim Pchar));
                             ("y"%string, TArray (TPrim Pbool) 3)]);
         VDecl None (DUnnamed [TTuple [TTuple []; TTuple [TPrim PNonZeroU8]]])].

(** ** C13 *)
Theorem C13_ordinals_agree_with_ord : forall (cfg : Config) (t : ty) n,
  ORDINAL_SIZE (impl_of t) = Val n -> no_discriminants t ->
  ordinal_monotone (impl_of t) (lt_of t).
Proof. exact @composed_monotone. Qed.
Print Assumptions C13_ordinals_agree_with_ord.

Example C13_demo : forall cfg : Config,
  ORDINAL_SIZE (impl_of demo) = Val 8897560 /\ no_discriminants demo.
Proof. intros [[] [] []]; (split; [vm_compute; reflexivity|cbn; tauto]). Qed.
Example C13_demo_value : forall cfg : Config, exists v : type_of demo,
  v = inr (inl (Some true, (Box (mk_int 0 255 7 eq_refl), tt))) /\
  ordinal (impl_of demo) v = Val 520.
Proof. intros [[] [] []]; (eexists; split; [reflexivity|vm_compute; reflexivity]). Qed.
(** Explicit discriminants are excluded for a reason: [enum E { A = 1, B = 0 }]. *)
Example C13_discriminants_matter : forall cfg : Config,
  let t := TEnum [VDecl (Some 1%Z) DUnit; VDecl (Some 0%Z) DUnit] in
  ~ ordinal_monotone (impl_of t) (lt_of t).
Proof.
  intros cfg t H. assert (G : lt_of t (inl tt) (inr (inl tt))).
  { apply (H _ _ 0 1); [| |reflexivity]; destruct cfg as [[] [] []]; vm_compute; reflexivity. }
  destruct G as [G|G]; [discriminate G|exact G].
Qed.

(** ** C14 *)
Theorem C14_size_is_number_of_values : forall (cfg : Config) (t : ty) n,
  ORDINAL_SIZE (impl_of t) = Val n -> has_values (type_of t) n.
Proof. exact @size_is_count. Qed.
Print Assumptions C14_size_is_number_of_values.
Theorem C14_too_many_values_rejected : forall (cfg : Config) (t : ty) n,
  has_values (type_of t) n -> usize_max < n -> ORDINAL_SIZE (impl_of t) = NoCompile.
Proof. exact @too_many_rejected. Qed.
Print Assumptions C14_too_many_values_rejected.
(** There is no third outcome, and every type has a number of values. *)
Theorem C14_number_or_compile_error : forall (cfg : Config) (t : ty),
  (exists n, ORDINAL_SIZE (impl_of t) = Val n) \/ ORDINAL_SIZE (impl_of t) = NoCompile.
Proof. exact @size_dichotomy. Qed.
Print Assumptions C14_number_or_compile_error.
Theorem C14_counted : forall (cfg : Config) (t : ty), has_values (type_of t) (card t).
Proof. exact @values_card. Qed.
Print Assumptions C14_counted.

Example C14_count_unique : forall T n m, has_values T n -> has_values T m -> n = m.
Proof. exact @hv_unique. Qed.
Example C14_demo_card : forall cfg : Config, card demo = 1 + 3 * 256 + (3 + 1112064) * 8 + 255.
Proof. intros [[] [] []]; vm_compute; reflexivity. Qed.
(** [(u16, u16, u16, u16)] has 2^64 values: one too many. *)
Example C14_too_many : forall cfg : Config,
  let t := TTuple [TPrim Pu16; TPrim Pu16; TPrim Pu16; TPrim Pu16] in
  card t = 18446744073709551616 /\ usize_max < card t /\ ORDINAL_SIZE (impl_of t) = NoCompile.
Proof. intros [[] [] []]; repeat split; vm_compute; reflexivity. Qed.

(** ** C15. Full statement: [forall t n, accepted t -> has_values (type_of t) n ->
    n <= usize_max -> exists m, ORDINAL_SIZE (impl_of t) = Val m].  False: products are
    multiplied up from the left before an empty field makes them zero, and the size of the
    elements is computed even for an array of length zero. *)
Theorem C15_small_types_accepted_refuted : forall cfg : Config, exists t n, accepted t /\
  has_values (type_of t) n /\ n <= usize_max /\ ORDINAL_SIZE (impl_of t) = NoCompile.
Proof. exact @size_refuted. Qed.
Print Assumptions C15_small_types_accepted_refuted.
Theorem C15_small_nonempty_types_accepted_refuted : forall cfg : Config, exists t n,
  accepted t /\ n <> 0 /\
  has_values (type_of t) n /\ n <= usize_max /\ ORDINAL_SIZE (impl_of t) = NoCompile.
Proof. exact @size_refuted_array. Qed.
Print Assumptions C15_small_nonempty_types_accepted_refuted.
(** What holds: it is true of types in which no field or tuple element is empty and no
    array has length zero ... *)
Theorem C15_small_types_accepted_partial : forall (cfg : Config) (t : ty) n,
  accepted t -> no_empty_parts t ->
  has_values (type_of t) n -> n <= usize_max -> ORDINAL_SIZE (impl_of t) = Val n.
Proof. exact @no_empty_parts_compiles. Qed.
Print Assumptions C15_small_types_accepted_partial.
(** ... and in general a type compiles exactly when it, its parts and every leading part of
    each product have at most usize::MAX values. *)
Theorem C15_which_types_compile_partial : forall (cfg : Config) (t : ty), accepted t ->
  (fits t <-> exists n, ORDINAL_SIZE (impl_of t) = Val n).
Proof. exact @accepted_sizes. Qed.
Print Assumptions C15_which_types_compile_partial.

Example C15_demo : forall cfg : Config,
  accepted demo /\ no_empty_parts demo /\ has_values (type_of demo) 8897560 /\
  8897560 <= usize_max.
Proof.
  intros cfg. split; [|split; [|split]].
  - cbn. repeat split; try lia; repeat constructor; cbn; intuition congruence.
  - cbn. repeat split; discriminate.
  - exact (@values_card cfg demo).
  - destruct cfg as [[] [] []]; vm_compute; discriminate.
Qed.
(** An empty part is harmless when the product fits: [(bool, Infallible)]. *)
Example C15_empty_part : forall cfg : Config,
  ORDINAL_SIZE (impl_of (TTuple [TPrim Pbool; TPrim PInfallible])) = Val 0.
Proof. intros [[] [] []]; vm_compute; reflexivity. Qed.

(** ** C16. Full statement: for every [t] with more than usize::MAX values,
    [ordinal (impl_of t) v] is NoCompile or a panic for every [v].  False in every build:
    [Option<Option<NonZeroUsize>>] ([None] has ordinal 0).  With overflow checks off even
    the second half is false: there [Some(Some(MAX))] has ordinal 0, too. *)
Theorem C16_never_returns_refuted : forall cfg : Config,
  exists t n (v : type_of t) i, has_values (type_of t) n /\ usize_max < n /\
    ordinal (impl_of t) v = Val i.
Proof. exact @returns_refuted. Qed.
Print Assumptions C16_never_returns_refuted.
Theorem C16_no_collisions_refuted : forall cfg : Config, overflow_checks = false ->
  exists t n (a b : type_of t) i, has_values (type_of t) n /\ usize_max < n /\
    a <> b /\ ordinal (impl_of t) a = Val i /\ ordinal (impl_of t) b = Val i.
Proof. exact @collide_refuted. Qed.
Print Assumptions C16_no_collisions_refuted.
(** What holds: with overflow checks on, no two values ever share an ordinal; and for
    primitives, tuples, structs, enums and boxes of them, a type with too many values has
    no callable [ordinal] in any build. *)
Theorem C16_no_collisions_partial : forall (cfg : Config) (t : ty), overflow_checks = true ->
  forall (a b : type_of t) i,
  ordinal (impl_of t) a = Val i -> ordinal (impl_of t) b = Val i -> a = b.
Proof. exact @checked_injective. Qed.
Print Assumptions C16_no_collisions_partial.
Theorem C16_compile_error_partial : forall (cfg : Config) (t : ty) n (v : type_of t),
  forces_size t = true -> has_values (type_of t) n -> usize_max < n ->
  ordinal (impl_of t) v = NoCompile.
Proof. exact @forced_rejected. Qed.
Print Assumptions C16_compile_error_partial.

Example C16_forced : forall cfg : Config,
  let t := TTuple [TOption (TOption (TPrim PNonZeroUsize)); TPrim Pbool] in
  forces_size t = true /\ has_values (type_of t) (card t) /\ usize_max < card t.
Proof.
  intros cfg t. split; [reflexivity|]. split; [apply values_card|].
  destruct cfg as [[] [] []]; vm_compute; reflexivity.
Qed.
(** With overflow checks on the colliding value panics instead. *)
Example C16_panics : exists v : type_of (cfg := debug64) (TOption (TOption (TPrim PNonZeroUsize))),
  ordinal (impl_of _) v = Panic POverflow.
Proof.
  unshelve eexists (Some (Some (mk_nonzero (mk_int 0 18446744073709551615 18446744073709551615 eq_refl) eq_refl))).
  vm_compute. reflexivity.
Qed.

(** ** C17 *)
Theorem C17_composed_bijection : forall (cfg : Config) (t : ty) n,
  ORDINAL_SIZE (impl_of t) = Val n -> ordinal_bijection (impl_of t) n.
Proof. exact @composed_bijection. Qed.
Print Assumptions C17_composed_bijection.
(** Nothing panics, out-of-range arguments included. *)
Theorem C17_from_ordinal_never_panics : forall (cfg : Config) (t : ty) n i,
  ORDINAL_SIZE (impl_of t) = Val n -> i <= usize_max ->
  exists r, from_ordinal (impl_of t) i = Val r.
Proof. exact @composed_total. Qed.
Print Assumptions C17_from_ordinal_never_panics.

Example C17_demo : forall cfg : Config, ORDINAL_SIZE (impl_of demo) = Val 8897560 /\
  exists v : type_of demo, v = inr (inl (Some true, (Box (mk_int 0 255 7 eq_refl), tt))) /\
  from_ordinal (impl_of demo) 520 = Val (Some v) /\ ordinal (impl_of demo) v = Val 520.
Proof.
  intros [[] [] []]; (split; [vm_compute; reflexivity|]);
    (eexists; split; [reflexivity|split; vm_compute; reflexivity]).
Qed.

(** ** C18 *)
Theorem C18_composed_rejects : forall (cfg : Config) (t : ty) n,
  ORDINAL_SIZE (impl_of t) = Val n -> exposes_char t = false \/ usize_width = W32 ->
  rejects_out_of_range (impl_of t) n.
Proof. exact @composed_rejects. Qed.
Print Assumptions C18_composed_rejects.

Example C18_demo : forall cfg : Config, exposes_char demo = false /\
  from_ordinal (impl_of demo) 8897560 = Val None.
Proof. intros [[] [] []]; (split; [reflexivity|vm_compute; reflexivity]). Qed.
Example C18_char_under_option : exposes_char (TOption (TPrim Pchar)) = true /\
  @usize_width debug32 = W32.
Proof. split; reflexivity. Qed.
