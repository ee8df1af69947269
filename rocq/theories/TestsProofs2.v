(** * TestsProofs2: the unit tests and the examples in the documentation pass. *)
From Verif Require Import Base Spec SpecAtomic SpecValues SpecDerive SpecUniverse SpecTests ModelOrdinal ModelValues ModelArrayBuilder
  ModelIter ModelTotal ModelMap ModelSet ModelDerive ModelUniverse ModelTests BaseProofs OrdinalProofs OrdinalProofs2 UniverseProofs ValuesProofs TestsProofs1.
From Coq Require Import List Lia String. Import ListNotations.
Set Implicit Arguments. Unset Strict Implicit.

(** ** Ranges *)

Lemma ordinals_In n i : In i (ordinals n) <-> i < n.
Proof.
  unfold ordinals. rewrite in_map_iff. split.
  - intros (k & <- & H). apply in_seq in H. lia.
  - intros H. exists (N.to_nat i). split; [apply N2Nat.id|]. apply in_seq. lia.
Qed.

Lemma ordinals_sorted n : StronglySorted (fun i j => i < j) (ordinals n).
Proof.
  unfold ordinals. generalize (N.to_nat n), 0%nat. induction n0 as [|k IH]; intros a; cbn; constructor; [apply IH|].
  apply Forall_forall. intros i H. apply in_map_iff in H as (j & <- & H). apply in_seq in H. lia.
Qed.

Section Ranges.
  Context {A B : Type}.
  Lemma items_In {X : Type} (o : option X) a : In a (items o) <-> o = Some a.
  Proof. destruct o; cbn; split; [intros [->|[]]; reflexivity|intros [= <-]; now left|intros []|discriminate]. Qed.

  Lemma sub_sorted (R : A -> A -> Prop) (S : B -> B -> Prop) (g : A -> option B) l : StronglySorted R l ->
    (forall i j a b, R i j -> g i = Some a -> g j = Some b -> S a b) ->
    StronglySorted S (flat_map (fun i => items (g i)) l).
  Proof.
    intros H HS. induction H as [|x l H IH HF]; cbn; [constructor|].
    destruct (g x) as [b|] eqn:E; cbn; [|exact IH]. constructor; [exact IH|].
    apply Forall_forall. intros c Hc. apply in_flat_map in Hc as (y & Hy & Hc). apply items_In in Hc.
    rewrite Forall_forall in HF. exact (HS x y b c (HF y Hy) E Hc).
  Qed.
End Ranges.

Section Int.
  Context (lo hi : Z).
  Lemma int_range_all (t : int lo hi) : In t (int_from_to lo hi lo hi).
  Proof.
    unfold int_from_to. pose proof (int_range t). apply in_flat_map. exists (Z.to_N (int_val t - lo)). split.
    - apply ordinals_In. lia.
    - apply items_In. replace (lo + Z.of_N (Z.to_N (int_val t - lo)))%Z with (int_val t) by lia. apply try_int_val.
  Qed.
  Lemma try_int_eq z (x : int lo hi) : try_int lo hi z = Some x -> int_val x = z.
  Proof.
    unfold try_int. destruct (Sumbool.sumbool_of_bool ((lo <=? z) && (z <=? hi))%Z); [|discriminate]. now intros [= <-].
  Qed.
  Lemma int_range_sorted a b : StronglySorted int_lt (int_from_to lo hi a b).
  Proof.
    unfold int_from_to. apply (sub_sorted (ordinals_sorted _)). intros i j x y Hij Hx Hy.
    apply try_int_eq in Hx, Hy. unfold int_lt. lia.
  Qed.
  Lemma nz_new_get (x : int lo hi) y : nz_new x = Some y -> nz_get y = x.
  Proof. unfold nz_new. destruct (Sumbool.sumbool_of_bool (negb (int_val x =? 0)%Z)); [|discriminate]. now intros [= <-]. Qed.
  Lemma nonzero_range_all a (t : nonzero lo hi) : a = lo \/ (lo = 0 /\ a = 1)%Z -> In t (nonzero_from_to lo hi a hi).
  Proof.
    intros Ha. unfold nonzero_from_to. apply in_flat_map. exists (nz_get t). pose proof (nz_range t) as Hr. pose proof (nz_nonzero t) as H0. split.
    - unfold int_from_to. apply in_flat_map. exists (Z.to_N (int_val (nz_get t) - a)). split.
      + apply ordinals_In. lia.
      + apply items_In. replace (a + Z.of_N (Z.to_N (int_val (nz_get t) - a)))%Z with (int_val (nz_get t)) by lia. apply try_int_val.
    - apply items_In. destruct (@nz_new_some _ _ (nz_get t) H0) as (y & E & Ey). rewrite E. f_equal. apply nz_ext. now rewrite Ey.
  Qed.
  Lemma nonzero_range_sorted a b : StronglySorted nonzero_lt (nonzero_from_to lo hi a b).
  Proof.
    unfold nonzero_from_to. apply (sub_sorted (int_range_sorted a b)). intros i j x y Hij Hx Hy.
    apply nz_new_get in Hx, Hy. subst. exact Hij.
  Qed.
End Int.

(** ** Equality *)
Lemma int_decides lo hi : decides_eq (c_eq (@Cmp_int lo hi)).
Proof. intros a b. cbn. rewrite Z.eqb_eq. split; [apply int_ext|now intros ->]. Qed.
Lemma nonzero_decides lo hi : decides_eq (c_eq (@Cmp_nonzero lo hi)).
Proof. intros a b. cbn. rewrite Z.eqb_eq. split; [|now intros ->]. intros E. apply nz_ext. exact E. Qed.
Lemma char_decides : decides_eq (c_eq Cmp_char).
Proof. intros a b. cbn. rewrite N.eqb_eq. split; [apply char_ext|now intros ->]. Qed.

Section Large.
  Context {cfg : Config}.

  Lemma sorted_passes {T} (O : Ordinal T) (c : Cmp T) lt n l : ordinal_bijection O n -> ordinal_monotone O lt ->
    decides_eq (c_eq c) -> (forall a b, lt a b -> c_lt c a b = true) ->
    (forall t, In t l) -> StronglySorted lt l ->
    from_ordinal O n = Val None -> from_ordinal O usize_max = Val None -> test_ordinal O c l = Val tt.
  Proof.
    intros HO Hm Hc Hlt Hall Hs H1 H2. apply (@lawful_passes _ _ O c Hc n); auto.
    - split; [exact Hall|]. clear - HO Hm Hs. induction Hs as [|x l Hs IH HF]; constructor; [exact IH|].
      apply Forall_forall. intros y Hy. rewrite Forall_forall in HF. specialize (HF y Hy).
      destruct (bij_to HO x) as (i & Hi & _), (bij_to HO y) as (j & Hj & _). exists i, j.
      split; [exact Hi|]. split; [exact Hj|]. now apply (Hm x y i j Hi Hj).
    - intros a b (i & j & Hi & Hj & Hij). apply Hlt. now apply (Hm a b i j Hi Hj).
  Qed.

  Lemma lawful_sorted_passes {T} (O : Ordinal T) (c : Cmp T) lt n l : lawful O n -> n <= usize_max -> ordinal_monotone O lt ->
    decides_eq (c_eq c) -> (forall a b, lt a b -> c_lt c a b = true) ->
    (forall t, In t l) -> StronglySorted lt l -> test_ordinal O c l = Val tt.
  Proof.
    intros [HO HR] Hn Hm Hc Hlt Hall Hs. apply (@sorted_passes _ O c lt n); auto; apply HR; lia.
  Qed.

  Lemma int_lt_true lo hi (a b : int lo hi) : int_lt a b -> c_lt Cmp_int a b = true.
  Proof. intros H. cbn. apply Z.ltb_lt. exact H. Qed.
  Lemma nonzero_lt_true lo hi (a b : nonzero lo hi) : nonzero_lt a b -> c_lt Cmp_nonzero a b = true.
  Proof. intros H. cbn. apply Z.ltb_lt. exact H. Qed.

  Lemma u16_passes : test_u16 = Val tt.
  Proof.
    pose proof (@usize_max_ge cfg). unfold test_u16. apply (@lawful_sorted_passes _ Ordinal_u16 Cmp_int int_lt 65536).
    - exact u16_lawful.
    - lia.
    - apply unsigned_mono; [lia|reflexivity].
    - apply int_decides.
    - apply int_lt_true.
    - apply int_range_all.
    - apply int_range_sorted.
  Qed.
  Lemma i16_passes : test_i16 = Val tt.
  Proof.
    pose proof (@usize_max_ge cfg). unfold test_i16. apply (@lawful_sorted_passes _ Ordinal_i16 Cmp_int int_lt 65536).
    - exact i16_lawful.
    - lia.
    - apply signed_mono; [lia|reflexivity].
    - apply int_decides.
    - apply int_lt_true.
    - apply int_range_all.
    - apply int_range_sorted.
  Qed.
  Lemma nzu16_passes : test_non_zero_u16 = Val tt.
  Proof.
    pose proof (@usize_max_ge cfg). unfold test_non_zero_u16. apply (@lawful_sorted_passes _ Ordinal_NonZeroU16 Cmp_nonzero nonzero_lt 65535).
    - exact NonZeroU16_lawful.
    - lia.
    - apply nz_unsigned_mono; [lia|reflexivity].
    - apply nonzero_decides.
    - apply nonzero_lt_true.
    - intros t. apply nonzero_range_all. auto.
    - apply nonzero_range_sorted.
  Qed.
  Lemma nzi16_passes : test_non_zero_i16 = Val tt.
  Proof.
    pose proof (@usize_max_ge cfg). unfold test_non_zero_i16. apply (@lawful_sorted_passes _ Ordinal_NonZeroI16 Cmp_nonzero nonzero_lt 65535).
    - exact NonZeroI16_lawful.
    - lia.
    - apply (@nz_signed_mono cfg 32768); [lia..|reflexivity].
    - apply nonzero_decides.
    - apply nonzero_lt_true.
    - intros t. apply nonzero_range_all. auto.
    - apply nonzero_range_sorted.
  Qed.
  Lemma char_from_eq i c : char_from_u32 i = Some c -> char_val c = i.
  Proof. unfold char_from_u32. destruct (Sumbool.sumbool_of_bool (is_scalar i)); [|discriminate]. now intros [= <-]. Qed.
  Lemma char_passes : test_char = Val tt.
  Proof.
    pose proof (@usize_max_ge cfg). unfold test_char. apply (@sorted_passes _ Ordinal_char Cmp_char (fun c d => char_val c < char_val d) 1112064).
    - exact char_bijection.
    - exact char_monotone.
    - exact char_decides.
    - intros a b Hab. cbn. now apply N.ltb_lt.
    - intros t. apply in_flat_map. exists (char_val t). pose proof (char_scalar t) as Hs. split; [apply ordinals_In; lia|].
      apply items_In. destruct (@char_from_some (char_val t)) as (x & E & Ex); [exact Hs|].
      rewrite E. f_equal. now apply char_ext.
    - apply (sub_sorted (ordinals_sorted _)). intros i j a b Hij Ha Hb. apply char_from_eq in Ha, Hb. lia.
    - apply char_rejects_below_2_32; lia.
    - destruct cfg as [[] ? ?]; reflexivity.
  Qed.

  (** ** All of them *)
  Ltac computed := destruct cfg as [[] [] []]; vm_compute; reflexivity.
  Lemma test_bool_ok : test_bool = Val tt.
  Proof. computed. Qed.
  Lemma test_u8_ok : test_u8 = Val tt.
  Proof. computed. Qed.
  Lemma test_i8_ok : test_i8 = Val tt.
  Proof. computed. Qed.
  Lemma test_u32_ok : test_u32 = Val tt.
  Proof. computed. Qed.
  Lemma test_i32_ok : test_i32 = Val tt.
  Proof. computed. Qed.
  Lemma test_non_zero_u8_ok : test_non_zero_u8 = Val tt.
  Proof. computed. Qed.
  Lemma test_non_zero_i8_ok : test_non_zero_i8 = Val tt.
  Proof. computed. Qed.
  Lemma test_non_zero_u64_ok : test_non_zero_u64 = Val tt.
  Proof. computed. Qed.
  Lemma test_non_zero_i64_ok : test_non_zero_i64 = Val tt.
  Proof. computed. Qed.
  Lemma test_non_zero_usize_ok : test_non_zero_usize = Val tt.
  Proof. computed. Qed.
  Lemma test_non_zero_isize_ok : test_non_zero_isize = Val tt.
  Proof. computed. Qed.
  Lemma test_ordering_ok : test_ordering = Val tt.
  Proof. computed. Qed.
  Lemma test_box_ok : test_box = Val tt.
  Proof. computed. Qed.
  Lemma test_either_ok : test_either = Val tt.
  Proof. computed. Qed.
  Lemma test_option_ok : test_option = Val tt.
  Proof. computed. Qed.
  Lemma test_result_ok : test_result = Val tt.
  Proof. computed. Qed.
  Lemma test_infallible_ok : test_infallible = Val tt.
  Proof. computed. Qed.
  Lemma test_array_of_empty_ok : test_array_of_empty = Val tt.
  Proof. computed. Qed.
  Lemma test_array_0_ok : test_array_0 = Val tt.
  Proof. computed. Qed.
  Lemma test_array_1_ok : test_array_1 = Val tt.
  Proof. computed. Qed.
  Lemma test_array_2_ok : test_array_2 = Val tt.
  Proof. computed. Qed.
  Lemma test_tuple_0_ok : test_tuple_0 = Val tt.
  Proof. computed. Qed.
  Lemma test_tuple_1_ok : test_tuple_1 = Val tt.
  Proof. computed. Qed.
  Lemma test_tuple_2_ok : test_tuple_2 = Val tt.
  Proof. computed. Qed.
  Lemma test_tuple_3_ok : test_tuple_3 = Val tt.
  Proof. computed. Qed.
  Lemma test_unit_struct_ok : test_unit_struct = Val tt.
  Proof. computed. Qed.
  Lemma test_tuple_struct_1_ok : test_tuple_struct_1 = Val tt.
  Proof. computed. Qed.
  Lemma test_tuple_struct_2_ok : test_tuple_struct_2 = Val tt.
  Proof. computed. Qed.
  Lemma test_record_struct_1_ok : test_record_struct_1 = Val tt.
  Proof. computed. Qed.
  Lemma test_record_struct_2_ok : test_record_struct_2 = Val tt.
  Proof. computed. Qed.
  Lemma test_empty_enum_ok : test_empty_enum = Val tt.
  Proof. computed. Qed.
  Lemma test_simple_enum_1_ok : test_simple_enum_1 = Val tt.
  Proof. computed. Qed.
  Lemma test_simple_enum_3_ok : test_simple_enum_3 = Val tt.
  Proof. computed. Qed.
  Lemma test_tuple_enum_ok : test_tuple_enum = Val tt.
  Proof. computed. Qed.
  Lemma test_record_enum_ok : test_record_enum = Val tt.
  Proof. computed. Qed.
  Lemma test_mixed_enum_ok : test_mixed_enum = Val tt.
  Proof. computed. Qed.
  Lemma test_empty_struct_ok : test_empty_struct = Val tt.
  Proof. computed. Qed.
  Lemma test_array_from_iter_ok : test_array_from_iter = Val tt.
  Proof. computed. Qed.
  Lemma test_iter_debug_ok : test_iter_debug = Val tt.
  Proof. computed. Qed.
  Lemma test_last_ok : test_last = Val tt.
  Proof. computed. Qed.
  Lemma test_all_ok : test_all = Val tt.
  Proof. computed. Qed.
  Lemma test_total_ok : test_total = Val tt.
  Proof. computed. Qed.
  Lemma doc_values_ok : doc_values = Val tt.
  Proof. computed. Qed.
  Lemma doc_atomic_ok : doc_atomic = Val tt.
  Proof. computed. Qed.
  Lemma doc_total_array_ok : doc_total_array = Val tt.
  Proof. computed. Qed.
  Lemma doc_array_map_ok : doc_array_map = Val tt.
  Proof. computed. Qed.
  Lemma doc_array_set_ok : doc_array_set = Val tt.
  Proof. computed. Qed.
  Lemma doc_derive_ok : doc_derive = Val tt.
  Proof. computed. Qed.
  Lemma doc_ordinal_ok : doc_ordinal = Val tt.
  Proof. computed. Qed.
  Lemma doc_from_ordinal_ok : doc_from_ordinal = Val tt.
  Proof. computed. Qed.
  Lemma doc_all_values_ok : doc_all_values = Val tt.
  Proof. computed. Qed.
  Lemma doc_lib_ok : doc_lib = Val tt.
  Proof. computed. Qed.
  Lemma u32_64 : usize_width = W64 -> test_non_zero_u32 = Val tt /\ test_non_zero_i32 = Val tt.
  Proof. destruct cfg as [[] [] []]; intros E; try discriminate E; split; vm_compute; reflexivity. Qed.
  Lemma u32_32 : usize_width = W32 -> test_non_zero_u32 = NoCompile /\ test_non_zero_i32 = NoCompile.
  Proof. destruct cfg as [[] [] []]; intros E; try discriminate E; split; vm_compute; reflexivity. Qed.

  Definition needs_64_bit (name : string) : bool :=
    existsb (String.eqb name) ["test_non_zero_u32"; "test_non_zero_i32"]%string.

  Definition as_expected (p : string * res unit) : Prop :=
    if needs_64_bit (fst p) then snd p = match usize_width with W64 => Val tt | W32 => NoCompile end else snd p = Val tt.
  Lemma cons_passes name t l : needs_64_bit name = false -> t = Val tt -> Forall as_expected l ->
    Forall as_expected ((name, t) :: l).
  Proof. intros H1 H2 H. constructor; [|exact H]. unfold as_expected. cbn [fst snd]. rewrite H1. exact H2. Qed.
  Lemma cons_64 name t l : needs_64_bit name = true ->
    t = match usize_width with W64 => Val tt | W32 => NoCompile end -> Forall as_expected l ->
    Forall as_expected ((name, t) :: l).
  Proof. intros H1 H2 H. constructor; [|exact H]. unfold as_expected. cbn [fst snd]. rewrite H1. exact H2. Qed.

  Lemma unit_tests_all : Forall as_expected unit_tests.
  Proof.
    unfold unit_tests.
    apply cons_passes; [reflexivity|exact test_bool_ok|].
    apply cons_passes; [reflexivity|exact test_u8_ok|].
    apply cons_passes; [reflexivity|exact test_i8_ok|].
    apply cons_passes; [reflexivity|exact u16_passes|].
    apply cons_passes; [reflexivity|exact i16_passes|].
    apply cons_passes; [reflexivity|exact test_u32_ok|].
    apply cons_passes; [reflexivity|exact test_i32_ok|].
    apply cons_passes; [reflexivity|exact test_non_zero_u8_ok|].
    apply cons_passes; [reflexivity|exact test_non_zero_i8_ok|].
    apply cons_passes; [reflexivity|exact nzu16_passes|].
    apply cons_passes; [reflexivity|exact nzi16_passes|].
    apply cons_64; [reflexivity|destruct usize_width eqn:E; [apply u32_32; exact E|apply u32_64; exact E]|].
    apply cons_64; [reflexivity|destruct usize_width eqn:E; [apply u32_32; exact E|apply u32_64; exact E]|].
    apply cons_passes; [reflexivity|exact test_non_zero_u64_ok|].
    apply cons_passes; [reflexivity|exact test_non_zero_i64_ok|].
    apply cons_passes; [reflexivity|exact test_non_zero_usize_ok|].
    apply cons_passes; [reflexivity|exact test_non_zero_isize_ok|].
    apply cons_passes; [reflexivity|exact char_passes|].
    apply cons_passes; [reflexivity|exact test_ordering_ok|].
    apply cons_passes; [reflexivity|exact test_box_ok|].
    apply cons_passes; [reflexivity|exact test_either_ok|].
    apply cons_passes; [reflexivity|exact test_option_ok|].
    apply cons_passes; [reflexivity|exact test_result_ok|].
    apply cons_passes; [reflexivity|exact test_infallible_ok|].
    apply cons_passes; [reflexivity|exact test_array_of_empty_ok|].
    apply cons_passes; [reflexivity|exact test_array_0_ok|].
    apply cons_passes; [reflexivity|exact test_array_1_ok|].
    apply cons_passes; [reflexivity|exact test_array_2_ok|].
    apply cons_passes; [reflexivity|exact test_tuple_0_ok|].
    apply cons_passes; [reflexivity|exact test_tuple_1_ok|].
    apply cons_passes; [reflexivity|exact test_tuple_2_ok|].
    apply cons_passes; [reflexivity|exact test_tuple_3_ok|].
    apply cons_passes; [reflexivity|exact test_unit_struct_ok|].
    apply cons_passes; [reflexivity|exact test_tuple_struct_1_ok|].
    apply cons_passes; [reflexivity|exact test_tuple_struct_2_ok|].
    apply cons_passes; [reflexivity|exact test_record_struct_1_ok|].
    apply cons_passes; [reflexivity|exact test_record_struct_2_ok|].
    apply cons_passes; [reflexivity|exact test_empty_enum_ok|].
    apply cons_passes; [reflexivity|exact test_simple_enum_1_ok|].
    apply cons_passes; [reflexivity|exact test_simple_enum_3_ok|].
    apply cons_passes; [reflexivity|exact test_tuple_enum_ok|].
    apply cons_passes; [reflexivity|exact test_record_enum_ok|].
    apply cons_passes; [reflexivity|exact test_mixed_enum_ok|].
    apply cons_passes; [reflexivity|exact test_empty_struct_ok|].
    apply cons_passes; [reflexivity|exact test_array_from_iter_ok|].
    apply cons_passes; [reflexivity|exact test_iter_debug_ok|].
    apply cons_passes; [reflexivity|exact test_last_ok|].
    apply cons_passes; [reflexivity|exact test_all_ok|].
    apply cons_passes; [reflexivity|exact test_total_ok|].
    apply cons_passes; [reflexivity|exact test_total_ok|].
    constructor.
  Qed.
  Lemma unit_tests_pass name t : In (name, t) unit_tests ->
    if needs_64_bit name then t = match usize_width with W64 => Val tt | W32 => NoCompile end else t = Val tt.
  Proof. intros H. exact (proj1 (Forall_forall _ _) unit_tests_all (name, t) H). Qed.

  Lemma cons_doc (name : string) (t : res unit) l : t = Val tt -> Forall (fun p => snd p = Val tt) l ->
    Forall (fun p => snd p = Val tt) ((name, t) :: l).
  Proof. intros H1 H. constructor; assumption. Qed.
  Lemma doc_tests_all : Forall (fun p => snd p = Val tt) doc_tests.
  Proof.
    unfold doc_tests.
    apply cons_doc; [exact doc_values_ok|].
    apply cons_doc; [exact doc_atomic_ok|].
    apply cons_doc; [exact doc_total_array_ok|].
    apply cons_doc; [exact doc_array_map_ok|].
    apply cons_doc; [exact doc_array_set_ok|].
    apply cons_doc; [exact doc_derive_ok|].
    apply cons_doc; [exact doc_ordinal_ok|].
    apply cons_doc; [exact doc_from_ordinal_ok|].
    apply cons_doc; [exact doc_all_values_ok|].
    apply cons_doc; [exact doc_lib_ok|].
    constructor.
  Qed.
  Lemma doc_tests_pass name t : In (name, t) doc_tests -> t = Val tt.
  Proof. intros H. exact (proj1 (Forall_forall _ _) doc_tests_all (name, t) H). Qed.

  Lemma more_than_64 : test_more_than_64 = NoCompile.
  Proof. computed. Qed.
End Large.
