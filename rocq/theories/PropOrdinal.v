(** * PropOrdinal: properties C01 - C08 (the impls of primitive.rs, non_zero.rs, char.rs,
    ordering.rs, boxed.rs, std.rs, either.rs, array.rs).

    [lawful O n] (Spec.v): ORDINAL_SIZE is [n], [ordinal]/[from_ordinal] are inverse
    bijections with [0 .. n] and never panic, every other usize is rejected. *)
From Verif Require Import Base Spec ModelOrdinal ModelArrayBuilder
  OrdinalProofs ArrayProofs OrdinalProofs2.

(** ** C01 *)
Theorem C01_bool : forall cfg : Config, lawful Ordinal_bool 2.
Proof. exact @bool_lawful. Qed.
Print Assumptions C01_bool.
Theorem C01_u8 : forall cfg : Config, lawful Ordinal_u8 256.
Proof. exact @u8_lawful. Qed.
Print Assumptions C01_u8.
Theorem C01_i8 : forall cfg : Config, lawful Ordinal_i8 256.
Proof. exact @i8_lawful. Qed.
Print Assumptions C01_i8.
Theorem C01_u16 : forall cfg : Config, lawful Ordinal_u16 65536.
Proof. exact @u16_lawful. Qed.
Print Assumptions C01_u16.
Theorem C01_i16 : forall cfg : Config, lawful Ordinal_i16 65536.
Proof. exact @i16_lawful. Qed.
Print Assumptions C01_i16.
Theorem C01_u32 : forall cfg : Config, usize_width = W64 -> lawful Ordinal_u32 4294967296.
Proof. exact @u32_lawful. Qed.
Print Assumptions C01_u32.
Theorem C01_i32 : forall cfg : Config, usize_width = W64 -> lawful Ordinal_i32 4294967296.
Proof. exact @i32_lawful. Qed.
Print Assumptions C01_i32.
Theorem C01_u32_i32_on_32_bit : forall cfg : Config, usize_width = W32 ->
  ORDINAL_SIZE Ordinal_u32 = NoCompile /\ ORDINAL_SIZE Ordinal_i32 = NoCompile /\
  (forall t, ordinal Ordinal_u32 t = NoCompile) /\
  (forall t, ordinal Ordinal_i32 t = NoCompile).
Proof. exact @u32_i32_rejected. Qed.
Print Assumptions C01_u32_i32_on_32_bit.

Example C01_minus_one : exists x : i16, int_val x = (-1)%Z /\
  ordinal (@Ordinal_i16 debug64) x = Val 32767 /\
  from_ordinal (@Ordinal_i16 debug64) 32767 = Val (Some x).
Proof. exists (mk_int (-32768) 32767 (-1) eq_refl). repeat split; vm_compute; reflexivity. Qed.
Example C01_widths : @usize_width debug64 = W64 /\ @usize_width debug32 = W32.
Proof. split; reflexivity. Qed.

(** ** C02 *)
Theorem C02_NonZeroU8 : forall cfg : Config, lawful Ordinal_NonZeroU8 255.
Proof. exact @NonZeroU8_lawful. Qed.
Print Assumptions C02_NonZeroU8.
Theorem C02_NonZeroI8 : forall cfg : Config, lawful Ordinal_NonZeroI8 255.
Proof. exact @NonZeroI8_lawful. Qed.
Print Assumptions C02_NonZeroI8.
Theorem C02_NonZeroU16 : forall cfg : Config, lawful Ordinal_NonZeroU16 65535.
Proof. exact @NonZeroU16_lawful. Qed.
Print Assumptions C02_NonZeroU16.
Theorem C02_NonZeroI16 : forall cfg : Config, lawful Ordinal_NonZeroI16 65535.
Proof. exact @NonZeroI16_lawful. Qed.
Print Assumptions C02_NonZeroI16.
Theorem C02_NonZeroU32 : forall cfg : Config, lawful Ordinal_NonZeroU32 4294967295.
Proof. exact @NonZeroU32_lawful. Qed.
Print Assumptions C02_NonZeroU32.
Theorem C02_NonZeroI32 : forall cfg : Config, lawful Ordinal_NonZeroI32 4294967295.
Proof. exact @NonZeroI32_lawful. Qed.
Print Assumptions C02_NonZeroI32.
Theorem C02_NonZeroUsize : forall cfg : Config, lawful Ordinal_NonZeroUsize usize_max.
Proof. exact @NonZeroUsize_lawful. Qed.
Print Assumptions C02_NonZeroUsize.
Theorem C02_NonZeroIsize : forall cfg : Config, lawful Ordinal_NonZeroIsize usize_max.
Proof. exact @NonZeroIsize_lawful. Qed.
Print Assumptions C02_NonZeroIsize.
Theorem C02_NonZeroU64 : forall cfg : Config, usize_width = W64 ->
  lawful Ordinal_NonZeroU64 18446744073709551615.
Proof. exact @NonZeroU64_lawful. Qed.
Print Assumptions C02_NonZeroU64.
Theorem C02_NonZeroI64 : forall cfg : Config, usize_width = W64 ->
  lawful Ordinal_NonZeroI64 18446744073709551615.
Proof. exact @NonZeroI64_lawful. Qed.
Print Assumptions C02_NonZeroI64.
Theorem C02_NonZero64_on_32_bit : forall cfg : Config, usize_width = W32 ->
  ORDINAL_SIZE Ordinal_NonZeroU64 = NoCompile /\ ORDINAL_SIZE Ordinal_NonZeroI64 = NoCompile /\
  (forall t, ordinal Ordinal_NonZeroU64 t = NoCompile) /\
  (forall t, ordinal Ordinal_NonZeroI64 t = NoCompile) /\
  (forall i, from_ordinal Ordinal_NonZeroU64 i = NoCompile) /\
  (forall i, from_ordinal Ordinal_NonZeroI64 i = NoCompile).
Proof. exact @NonZero64_rejected. Qed.
Print Assumptions C02_NonZero64_on_32_bit.

Example C02_gap : (* -1 and 1 are neighbours *)
  exists a b, int_val (nz_get a) = (-1)%Z /\ int_val (nz_get b) = 1%Z /\
    ordinal (@Ordinal_NonZeroI64 debug64) a = Val 9223372036854775807 /\
    ordinal (@Ordinal_NonZeroI64 debug64) b = Val 9223372036854775808.
Proof.
  exists (mk_nonzero (mk_int (-9223372036854775808) 9223372036854775807 (-1) eq_refl) eq_refl),
         (mk_nonzero (mk_int (-9223372036854775808) 9223372036854775807 1 eq_refl) eq_refl).
  repeat split; vm_compute; reflexivity.
Qed.

(** ** C03 *)
Theorem C03_char_bijection : forall cfg : Config, ordinal_bijection Ordinal_char 1112064.
Proof. exact @char_bijection. Qed.
Print Assumptions C03_char_bijection.
Theorem C03_char_code_point_order : forall cfg : Config,
  ordinal_monotone Ordinal_char (fun c d => char_val c < char_val d).
Proof. exact @char_monotone. Qed.
Print Assumptions C03_char_code_point_order.

Example C03_around_the_gap : exists c d, char_val c = 55295 /\ char_val d = 57344 /\
  ordinal (@Ordinal_char debug64) c = Val 55295 /\ ordinal (@Ordinal_char debug64) d = Val 55296.
Proof. exists (mk_char 55295 eq_refl), (mk_char 57344 eq_refl). repeat split; vm_compute; reflexivity. Qed.

(** ** C04. Full statement: [forall cfg, rejects_out_of_range Ordinal_char 1112064].
    False on 64-bit targets: the argument is truncated to u32 before the check. *)
Theorem C04_char_rejects_refuted : forall cfg : Config, usize_width = W64 ->
  exists i c, 1112064 <= i <= usize_max /\
    from_ordinal Ordinal_char i = Val (Some c) /\ ordinal Ordinal_char c = Val 2048.
Proof. exact @char_rejects_64_false. Qed.
Print Assumptions C04_char_rejects_refuted.
(** Missing: ordinals from 2^32 up on 64-bit targets, where it is false. *)
Theorem C04_char_rejects_partial : forall (cfg : Config) i,
  1112064 <= i -> i < 4294967296 -> from_ordinal Ordinal_char i = Val None.
Proof. exact @char_rejects_below_2_32. Qed.
Print Assumptions C04_char_rejects_partial.
Theorem C04_char_rejects_on_32_bit_partial : forall cfg : Config, usize_width = W32 ->
  rejects_out_of_range Ordinal_char 1112064.
Proof. exact @char_rejects_32. Qed.
Print Assumptions C04_char_rejects_on_32_bit_partial.

(** ** C05 *)
Theorem C05_Option : forall (cfg : Config) (A : Type) (O : Ordinal A) (n : N),
  ordinal_bijection O n -> n < usize_max ->
  ordinal_bijection (Ordinal_Option O) (n + 1) /\
  ordinal (Ordinal_Option O) None = Val 0 /\
  (forall t i, ordinal O t = Val i -> ordinal (Ordinal_Option O) (Some t) = Val (i + 1)) /\
  (rejects_out_of_range O n -> rejects_out_of_range (Ordinal_Option O) (n + 1)).
Proof. exact @Option_law. Qed.
Print Assumptions C05_Option.
Example C05_hypotheses : @ordinal_bijection debug64 _ (@Ordinal_u8 debug64) 256 /\ 256 < @usize_max debug64 /\
  @rejects_out_of_range debug64 _ (@Ordinal_u8 debug64) 256.
Proof. split; [apply (@u8_lawful debug64)|]. split; [reflexivity|apply (@u8_lawful debug64)]. Qed.

(** ** C06 *)
Theorem C06_Result : forall (cfg : Config) (A B : Type) (OA : Ordinal A) (OB : Ordinal B) (a b : N),
  ordinal_bijection OA a -> ordinal_bijection OB b -> a + b <= usize_max ->
  ordinal_bijection (Ordinal_Result OA OB) (a + b) /\
  (forall x i, ordinal OA x = Val i -> ordinal (Ordinal_Result OA OB) (ResOk x) = Val i) /\
  (forall y j, ordinal OB y = Val j -> ordinal (Ordinal_Result OA OB) (ResErr y) = Val (a + j)) /\
  (rejects_out_of_range OB b -> rejects_out_of_range (Ordinal_Result OA OB) (a + b)).
Proof. exact @Result_law. Qed.
Print Assumptions C06_Result.
Theorem C06_Either : forall (cfg : Config) (A B : Type) (OA : Ordinal A) (OB : Ordinal B) (a b : N),
  ordinal_bijection OA a -> ordinal_bijection OB b -> a + b <= usize_max ->
  ordinal_bijection (Ordinal_Either OA OB) (a + b) /\
  (forall x i, ordinal OA x = Val i -> ordinal (Ordinal_Either OA OB) (Left x) = Val i) /\
  (forall y j, ordinal OB y = Val j -> ordinal (Ordinal_Either OA OB) (Right y) = Val (a + j)) /\
  (rejects_out_of_range OB b -> rejects_out_of_range (Ordinal_Either OA OB) (a + b)).
Proof. exact @Either_law. Qed.
Print Assumptions C06_Either.
Example C06_hypotheses : @ordinal_bijection debug64 _ (@Ordinal_u8 debug64) 256 /\
  @ordinal_bijection debug64 _ (@Ordinal_char debug64) 1112064 /\ 256 + 1112064 <= @usize_max debug64 /\
  from_ordinal (@Ordinal_Result debug64 _ _ (@Ordinal_u8 debug64) Ordinal_bool) 257
    = Val (Some (ResErr true)).
Proof.
  split; [apply (@u8_lawful debug64)|]. split; [apply (@char_bijection debug64)|].
  split; [vm_compute; discriminate|reflexivity].
Qed.

(** ** C07 *)
Theorem C07_Box : forall (cfg : Config) (T : Type) (O : Ordinal T) (n : N),
  ordinal_bijection O n ->
  ordinal_bijection (Ordinal_Box O) n /\
  (forall t, ordinal (Ordinal_Box O) (Box t) = ordinal O t) /\
  (rejects_out_of_range O n -> rejects_out_of_range (Ordinal_Box O) n).
Proof. exact @Box_law. Qed.
Print Assumptions C07_Box.
Theorem C07_Ordering : forall cfg : Config, lawful Ordinal_Ordering 3.
Proof. exact @Ordering_lawful. Qed.
Print Assumptions C07_Ordering.
Theorem C07_Ordering_numbering :
  ordinal Ordinal_Ordering Lt = Val 0 /\ ordinal Ordinal_Ordering Eq = Val 1 /\
  ordinal Ordinal_Ordering Gt = Val 2.
Proof. exact Ordering_numbering. Qed.
Print Assumptions C07_Ordering_numbering.
Theorem C07_Infallible : forall cfg : Config, lawful Ordinal_Infallible 0.
Proof. exact @Infallible_lawful. Qed.
Print Assumptions C07_Infallible.
Theorem C07_Infallible_always_None : forall i, from_ordinal Ordinal_Infallible i = Val None.
Proof. exact Infallible_none. Qed.
Print Assumptions C07_Infallible_always_None.
Example C07_hypotheses : @ordinal_bijection debug64 _ (@Ordinal_char debug64) 1112064.
Proof. exact (@char_bijection debug64). Qed.

(** ** C08. The element type need only be a bijection, not reject out-of-range ordinals. *)
Theorem C08_array : forall (cfg : Config) (T : Type) (O : Ordinal T) (n : N) (len : nat),
  ordinal_bijection O n -> n ^ N.of_nat len <= usize_max ->
  lawful (Ordinal_array O len) (n ^ N.of_nat len).
Proof. exact @array_law. Qed.
Print Assumptions C08_array.
Theorem C08_array_last_varies_fastest : forall (cfg : Config) (T : Type) (O : Ordinal T) (n : N)
  (len : nat) (m : N) (a : arr T len) (ds : list N),
  ordinal_bijection O n -> ORDINAL_SIZE (Ordinal_array O len) = Val m ->
  Forall2 (fun t d => ordinal O t = Val d) (arr_list a) ds ->
  ordinal (Ordinal_array O len) a = Val (mixed_radix (repeat n len) ds).
Proof. exact @array_numbering. Qed.
Print Assumptions C08_array_last_varies_fastest.
Example C08_hypotheses :
  @ordinal_bijection debug64 _ (@Ordinal_char debug64) 1112064 /\ 1112064 ^ N.of_nat 3 <= @usize_max debug64 /\
  @lawful debug64 _ (@Ordinal_array debug64 _ Ordinal_Infallible 0) 1 /\
  @lawful debug64 _ (@Ordinal_array debug64 _ Ordinal_Infallible 2) 0 /\
  ordinal (@Ordinal_array debug64 _ Ordinal_bool 3) (mk_arr 3 [true; true; false] eq_refl) = Val 6.
Proof.
  split; [apply (@char_bijection debug64)|]. split; [vm_compute; discriminate|].
  split; [|split].
  - apply (@array_law debug64 _ _ 0 0); [apply (@Infallible_lawful debug64)|vm_compute; discriminate].
  - apply (@array_law debug64 _ _ 0 2); [apply (@Infallible_lawful debug64)|vm_compute; discriminate].
  - reflexivity.
Qed.
