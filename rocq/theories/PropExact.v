(** * PropExact: what exactly happens where the literal statement of a property is false.

    For each of C04, C19, C27, C44, C46, C53, C55, C57, C58, C59, C61, C62 the refuted theorem
    (in the file of the property) gives one counterexample; the theorems here say for every key
    type and every state which cases fail, and how. *)
From Verif Require Import Base Spec SpecMap SpecDerive SpecIter SpecSet ModelOrdinal ModelValues ModelArrayBuilder
  ModelDerive ModelIter ModelMap ModelTotal ModelSet MapMachine SetMachine
  OrdinalProofs OrdinalProofs2 DeriveProofs3 SetProofs2 ExactProofs PropDerive.
From Coq Require Import String List. Import ListNotations.

(** ** C04: above the last ordinal, [from_ordinal(i)] is the char with code
    [i mod 2^32 + 0x800] if there is one, and None otherwise; it never panics. *)
Theorem C04_char_out_of_range_partial : forall (cfg : Config) (i : N) (c : char), 1112064 <= i ->
  (from_ordinal Ordinal_char i = Val (Some c) <-> char_val c = i mod 4294967296 + 2048).
Proof. exact @char_exact. Qed.
Print Assumptions C04_char_out_of_range_partial.
Theorem C04_char_never_panics : forall (cfg : Config) (i : N), exists r, from_ordinal Ordinal_char i = Val r.
Proof. exact @char_returns. Qed.
Print Assumptions C04_char_never_panics.
Example C04_exact_case : (1112064 <= 2 * 4294967296 + 65)%N /\
  exists c, from_ordinal (Ordinal_char (cfg := release64)) (2 * 4294967296 + 65) = Val (Some c) /\ char_val c = 2113.
Proof. split; [vm_compute; discriminate|]. eexists. split; vm_compute; reflexivity. Qed.

(** ** C19: a declaration (distinct field names, lawful non-empty field types, not too many
    values) compiles if and only if no field has one of the five [reserved_names]. *)
Theorem C19_struct_exactly_reserved_partial : forall (cfg : Config) (f : fields) (ns : list N), NoDup (field_vars f) ->
  fields_lawful (field_types f) ns -> Forall (fun n => 0 < n) ns -> product_of ns <= usize_max ->
  ((exists n, ORDINAL_SIZE (derive_struct f) = Val n) <-> forall x, In x reserved_names -> ~ In x (field_vars f)) /\
  ((exists x, In x reserved_names /\ In x (field_vars f)) ->
     ORDINAL_SIZE (derive_struct f) = NoCompile /\ (forall t, ordinal (derive_struct f) t = NoCompile) /\
     forall i, from_ordinal (derive_struct f) i = NoCompile).
Proof. exact @struct_names_exact. Qed.
Print Assumptions C19_struct_exactly_reserved_partial.
Theorem C19_enum_exactly_reserved_partial : forall (cfg : Config) (vs : list variant) (nss : list (list N)),
  Forall (fun v => NoDup (field_vars (v_fields v))) vs ->
  variants_lawful (variant_types vs) nss -> Forall (Forall (fun n => 0 < n)) nss ->
  sum_of (map product_of nss) <= usize_max ->
  ((exists n, ORDINAL_SIZE (derive_enum vs) = Val n) <->
     forall v x, In v vs -> In x reserved_names -> ~ In x (field_vars (v_fields v))) /\
  ((exists v x, In v vs /\ In x reserved_names /\ In x (field_vars (v_fields v))) ->
     ORDINAL_SIZE (derive_enum vs) = NoCompile /\ (forall t, ordinal (derive_enum vs) t = NoCompile) /\
     forall i, from_ordinal (derive_enum vs) i = NoCompile).
Proof. exact @enum_names_exact. Qed.
Print Assumptions C19_enum_exactly_reserved_partial.
Example C19_exact_case :
  let vs := [{| v_discriminant := None; v_fields := FUnit |};
               {| v_discriminant := None; v_fields := FNamed [("x"%string, ex_bool); ("rem"%string, ex_ord)] |}] in
  forall cfg : Config, variants_lawful (variant_types vs) [[]; [2; 3]] /\
    sum_of (map product_of [[]; [2; 3]]) = 7 /\ ORDINAL_SIZE (derive_enum vs) = NoCompile.
Proof.
  intros vs cfg. split; [|split; [reflexivity|vm_compute; reflexivity]].
  repeat constructor; try apply bool_lawful; apply Ordering_lawful.
Qed.

(** ** C27: contains_key agrees with get on every key exactly if it is false on every key, or
    every key is present. *)
Theorem C27_contains_key_exact_partial : forall (cfg : Config) (K V : Type) (O : Ordinal K) (n : N),
  ordinal_bijection O n -> forall st : @OrdinalMap V, heap_reachable O st ->
  ((forall k, exists v, OrdinalMap_get O st k = Val v /\
      OrdinalMap_contains_key O st k = Val (match v with Some _ => true | None => false end)) <->
   ((forall k, OrdinalMap_contains_key O st k = Val false) \/
    forall k, exists v, OrdinalMap_get O st k = Val (Some v))).
Proof. exact @contains_key_exact. Qed.
Print Assumptions C27_contains_key_exact_partial.

(** ** C44: from_array accepts every S. [len] is S; looking up a key panics exactly if its
    ordinal is not below S; some lookup panics iff S < n, iteration panics if n < S. *)
Theorem C44_from_array_any_size_partial : forall (cfg : Config) (K V : Type) (O : Ordinal K) (n : N), lawful O n ->
  forall (S : nat) (array : arr V S),
  exists m, OrdinalTotalArrayMap_from_array array = Val m /\ OrdinalTotalArrayMap_len m = N.of_nat S /\
    (forall k, exists i, ordinal O k = Val i /\
       OrdinalTotalArrayMap_get O m k =
         match nth_error (arr_list array) (N.to_nat i) with Some v => Val v | None => Panic PIndex end) /\
    ((forall k, exists v, OrdinalTotalArrayMap_get O m k = Val v) <-> n <= N.of_nat S) /\
    ((exists k, OrdinalTotalArrayMap_get O m k = Panic PIndex) <-> N.of_nat S < n).
Proof. exact @from_array_any. Qed.
Print Assumptions C44_from_array_any_size_partial.
Theorem C44_from_array_too_long_partial : forall (cfg : Config) (K V : Type) (O : Ordinal K) (n : N), lawful O n ->
  forall (S : nat) (m : OrdinalTotalArrayMap S V), n < N.of_nat S -> N.of_nat S <= usize_max ->
  drive (TIter_step O) (repeat Front (N.to_nat n + 1)) (OrdinalTotalArrayMap_iter m) = Panic PUnwrap /\
  TIter_step O Back (OrdinalTotalArrayMap_iter m) = Panic PUnwrap.
Proof. exact @from_array_overrun. Qed.
Print Assumptions C44_from_array_too_long_partial.
Example C44_exact_case : forall cfg : Config,
  drive (TIter_step Ordinal_bool) [Front; Front] (OrdinalTotalArrayMap_iter (@mk_arr N 3 [4; 6; 8] eq_refl)) =
    Val ([Some (false, 4); Some (true, 6)], {| e_next := 2; e_items := [8] |}) /\
  drive (TIter_step Ordinal_bool) [Front; Front; Front] (OrdinalTotalArrayMap_iter (@mk_arr N 3 [4; 6; 8] eq_refl)) =
    Panic PUnwrap.
Proof. intros [[] [] []]; split; vm_compute; reflexivity. Qed.

(** ** C46: the hint of IntoIterArray is inexact at every position of every map. *)
Theorem C46_into_iter_array_never_exact_partial : forall (V : Type) (it : @TIntoIterArray V),
  TIntoIterArray_size_hint it = (0, None) /\ ~ hint_exact (TIntoIterArray_size_hint it) (TIntoIterArray_len it).
Proof. exact @into_iter_array_exact. Qed.
Print Assumptions C46_into_iter_array_never_exact_partial.

(** ** C53, C58, C62: with debug assertions, every set over an element type without values
    panics when iterated (OrdinalSet) or printed (OrdinalSet, OrdinalSet64). *)
Theorem C53_empty_type_partial : forall (cfg : Config) (T : Type) (O : Ordinal T) (n : N), ordinal_bijection O n ->
  n = 0 -> debug_assertions = true ->
  (forall s, set_reachable O s -> OrdinalSet_iter O s = Panic PDebugAssert /\ OrdinalSet_debug O s = Panic PDebugAssert) /\
  (forall w, set64_reachable O w -> OrdinalSet64_debug O w = Panic PDebugAssert).
Proof. exact @empty_exact. Qed.
Print Assumptions C53_empty_type_partial.
Theorem C58_empty_type_partial : forall (cfg : Config) (T : Type) (O : Ordinal T) (n : N), ordinal_bijection O n ->
  n = 0 -> debug_assertions = true ->
  (forall s, set_reachable O s -> OrdinalSet_iter O s = Panic PDebugAssert /\ OrdinalSet_debug O s = Panic PDebugAssert) /\
  (forall w, set64_reachable O w -> OrdinalSet64_debug O w = Panic PDebugAssert).
Proof. exact @empty_exact. Qed.
Print Assumptions C58_empty_type_partial.
Theorem C62_empty_type_partial : forall (cfg : Config) (T : Type) (O : Ordinal T) (n : N), ordinal_bijection O n ->
  n = 0 -> debug_assertions = true ->
  (forall s, set_reachable O s -> OrdinalSet_iter O s = Panic PDebugAssert /\ OrdinalSet_debug O s = Panic PDebugAssert) /\
  (forall w, set64_reachable O w -> OrdinalSet64_debug O w = Panic PDebugAssert).
Proof. exact @empty_exact. Qed.
Print Assumptions C62_empty_type_partial.
Example C53_empty_case : forall cfg : Config, ordinal_bijection Ordinal_Infallible 0 /\
  set_reachable Ordinal_Infallible (Small 0) /\ set64_reachable Ordinal_Infallible 0.
Proof.
  intros cfg. split; [apply Infallible_lawful|]. split.
  - exists (Small 0), [SClone], [SUnit_]. split; reflexivity.
  - exists 0, [SClone], [SUnit_]. split; [left|]; reflexivity.
Qed.

(** ** C55: [all] for every number [n] of values. *)
Theorem C55_all_exact_partial : forall (cfg : Config) (T : Type) (O : Ordinal T) (n : N), ordinal_bijection O n ->
  OrdinalSet64_all O =
    (if n <? 64 then Val (2 ^ n - 1)
     else if n =? 64 then (if overflow_checks then Panic POverflow else Val 0)
     else NoCompile).
Proof. exact @all_exact. Qed.
Print Assumptions C55_all_exact_partial.

(** ** C57, C59: with more than [usize::MAX - 64] values, nothing can ever be inserted. *)
Theorem C57_huge_type_partial : forall (cfg : Config) (T : Type) (O : Ordinal T) (n : N), ordinal_bijection O n ->
  forall s : OrdinalSet, usize_max - 64 < n -> set_reachable O s ->
  (forall t, OrdinalSet_insert O s t = Panic PUnwrap) /\
  (forall t, OrdinalSet_contains O s t = Val false) /\
  (forall t l, OrdinalSet_from_iter O (t :: l) = Panic PUnwrap) /\
  exists s0, OrdinalSet_from_iter O [] = Val s0 /\ OrdinalSet_new O = Val s0.
Proof. exact @huge_exact. Qed.
Print Assumptions C57_huge_type_partial.
Theorem C59_huge_type_partial : forall (cfg : Config) (T : Type) (O : Ordinal T) (n : N), ordinal_bijection O n ->
  forall s : OrdinalSet, usize_max - 64 < n -> set_reachable O s ->
  (forall t, OrdinalSet_insert O s t = Panic PUnwrap) /\
  (forall t, OrdinalSet_contains O s t = Val false) /\
  (forall t l, OrdinalSet_from_iter O (t :: l) = Panic PUnwrap) /\
  exists s0, OrdinalSet_from_iter O [] = Val s0 /\ OrdinalSet_new O = Val s0.
Proof. exact @huge_exact. Qed.
Print Assumptions C59_huge_type_partial.
Example C59_huge_case : forall cfg : Config, ordinal_bijection Ordinal_NonZeroUsize usize_max /\
  usize_max - 64 < usize_max /\ set_reachable Ordinal_NonZeroUsize (Large []).
Proof.
  intros cfg. split; [apply NonZeroUsize_lawful|]. split.
  - destruct cfg as [[] [] []]; vm_compute; reflexivity.
  - exists (Large []), [SClone], [SUnit_]. split; [|reflexivity]. destruct cfg as [[] [] []]; reflexivity.
Qed.

(** ** C61: [Default] compiles with every [S]; the words are zero. *)
Theorem C61_default_any_size_partial : forall S : nat, exists s : OrdinalArraySet S,
  OrdinalArraySet_default S = Val s /\ forall i, (i < S)%nat -> nth_error (arr_list s) i = Some 0.
Proof. exact default_exact. Qed.
Print Assumptions C61_default_any_size_partial.
