(** * OrdinalProofs: the ordinal law of the impls in ordinal/impls (C01-C07). *)
From Verif Require Import Base Spec BaseProofs ModelOrdinal.

Ltac zmax := pose proof (@usize_max_ge _).

Section Prims.
  Context {cfg : Config}.

  Lemma bool_lawful : lawful Ordinal_bool 2.
  Proof.
    zmax. split.
    - apply bij_intro with (f := fun b : bool => if b then 1 else 0); cbn; try lia; auto.
      + intros []; lia.
      + intros [] []; try lia; reflexivity.
      + intros i Hi. assert (i = 0 \/ i = 1) as [-> | ->] by lia; eexists; split; reflexivity.
    - intros i Hi _. cbn. destruct i as [|[p|p|]]; try lia; reflexivity.
  Qed.

  (** Shared shape of the unsigned impls. *)
  Lemma unsigned_lawful (hi : N) (O : Ordinal (int 0 (Z.of_N hi))) :
    hi + 1 <= usize_max ->
    ORDINAL_SIZE O = Val (hi + 1) ->
    (forall t, ordinal O t = Val (as_usize (int_val t))) ->
    (forall i, from_ordinal O i = Val (try_int 0 (Z.of_N hi) (Z.of_N i))) ->
    lawful O (hi + 1).
  Proof.
    intros Hm Hs Ho Hf. split.
    - apply bij_intro with (f := fun t => Z.to_N (int_val t)); try assumption.
      + intros t. rewrite Ho. pose proof (int_range t). rewrite as_usize_ok by lia. reflexivity.
      + intros t. pose proof (int_range t). lia.
      + intros a b E. pose proof (int_range a). pose proof (int_range b). apply int_ext. lia.
      + intros i Hi. destruct (@try_int_some 0 (Z.of_N hi) (Z.of_N i)) as (x & Hx & E); [lia|].
        exists x. rewrite Hf, Hx. split; [reflexivity|lia].
    - intros i Hi _. rewrite Hf, try_int_none by lia. reflexivity.
  Qed.

  Lemma u8_lawful : lawful Ordinal_u8 256.
  Proof. zmax. apply (@unsigned_lawful 255 Ordinal_u8); cbn -[cadd]; try lia; auto. apply cadd_ok. lia. Qed.

  Lemma u16_lawful : lawful Ordinal_u16 65536.
  Proof. zmax. apply (@unsigned_lawful 65535 Ordinal_u16); cbn -[cadd]; try lia; auto. apply cadd_ok. lia. Qed.

  Lemma u32_size_64 : usize_width = W64 -> u32_ORDINAL_SIZE = Val 4294967296.
  Proof. intros E. unfold u32_ORDINAL_SIZE. rewrite cadd_ok; [reflexivity|]. unfold usize_max. rewrite E. lia. Qed.

  Lemma u32_size_32 : usize_width = W32 -> u32_ORDINAL_SIZE = NoCompile.
  Proof. intros E. unfold u32_ORDINAL_SIZE. rewrite cadd_over; [reflexivity|]. unfold usize_max. rewrite E. lia. Qed.

  Lemma u32_lawful : usize_width = W64 -> lawful Ordinal_u32 4294967296.
  Proof.
    intros E. zmax. apply (@unsigned_lawful 4294967295 Ordinal_u32); cbn.
    - unfold usize_max. rewrite E. lia.
    - apply u32_size_64, E.
    - intros t. rewrite u32_size_64 by exact E. reflexivity.
    - reflexivity.
  Qed.

  (** Shared shape of the signed impls. *)
  Lemma signed_lawful (half : N) (lo hi : Z) (O : Ordinal (int lo hi)) :
    lo = (- Z.of_N half)%Z -> hi = (Z.of_N half - 1)%Z -> 0 < half ->
    2 * half <= usize_max ->
    ORDINAL_SIZE O = Val (2 * half) ->
    (forall t, ordinal O t = Val (as_usize (abs_diff (int_val t) lo))) ->
    (forall i, from_ordinal O i =
       match try_int 0 (Z.of_N (2 * half - 1)) (Z.of_N i) with
       | None => Val None
       | Some u => Val (try_int lo hi (lo + int_val u)%Z)
       end) ->
    lawful O (2 * half).
  Proof.
    intros Hlo Hhi Hp Hm Hs Ho Hf. split.
    - apply bij_intro with (f := fun t => Z.to_N (int_val t - lo)%Z); try assumption; try lia.
      + intros t. rewrite Ho. pose proof (int_range t). unfold abs_diff.
        rewrite Z.abs_eq by lia. rewrite as_usize_ok by lia. reflexivity.
      + intros t. pose proof (int_range t). lia.
      + intros a b E. pose proof (int_range a). pose proof (int_range b). apply int_ext. lia.
      + intros i Hi. rewrite Hf.
        destruct (@try_int_some 0 (Z.of_N (2 * half - 1)) (Z.of_N i)) as (u & Hu & Eu); [lia|].
        rewrite Hu.
        destruct (@try_int_some lo hi (lo + int_val u)%Z) as (x & Hx & E); [lia|].
        exists x. rewrite Hx. split; [reflexivity|lia].
    - intros i Hi _. rewrite Hf, try_int_none by lia. reflexivity.
  Qed.

  Lemma i8_lawful : lawful Ordinal_i8 256.
  Proof.
    zmax. apply (@signed_lawful 128 (-128) 127 Ordinal_i8); cbn -[as_usize]; try lia; auto.
    rewrite as_usize_ok by lia. reflexivity.
  Qed.

  Lemma i16_lawful : lawful Ordinal_i16 65536.
  Proof.
    zmax. apply (@signed_lawful 32768 (-32768) 32767 Ordinal_i16); cbn -[as_usize]; try lia; auto.
    rewrite as_usize_ok by lia. reflexivity.
  Qed.

  Lemma i32_lawful : usize_width = W64 -> lawful Ordinal_i32 4294967296.
  Proof.
    intros E. zmax.
    assert (Hs := u32_size_64 E).
    apply (@signed_lawful 2147483648 (-2147483648) 2147483647 Ordinal_i32).
    - reflexivity.
    - reflexivity.
    - lia.
    - unfold usize_max. rewrite E. lia.
    - exact Hs.
    - intros t. cbn [ordinal Ordinal_i32]. rewrite Hs. reflexivity.
    - intros t. cbn [from_ordinal Ordinal_i32]. rewrite Hs. reflexivity.
  Qed.

  Lemma u32_i32_rejected : usize_width = W32 ->
    ORDINAL_SIZE Ordinal_u32 = NoCompile /\ ORDINAL_SIZE Ordinal_i32 = NoCompile /\
    (forall t, ordinal Ordinal_u32 t = NoCompile) /\
    (forall t, ordinal Ordinal_i32 t = NoCompile).
  Proof.
    intros E. pose proof (u32_size_32 E) as Hs. cbn. rewrite Hs. auto.
  Qed.

  (** ** NonZero *)

  Lemma nz_unsigned_lawful (hi : N) (O : Ordinal (nonzero 0 (Z.of_N hi))) :
    hi <= usize_max ->
    ORDINAL_SIZE O = Val hi ->
    (forall t, ordinal O t = usub (as_usize (int_val (nz_get t))) 1) ->
    (forall i, from_ordinal O i =
       match checked_add i 1 with
       | None => Val None
       | Some o1 => match try_int 0 (Z.of_N hi) (Z.of_N o1) with
                    | None => Val None
                    | Some x => Val (nz_new x)
                    end
       end) ->
    lawful O hi.
  Proof.
    intros Hm Hs Ho Hf. split.
    - apply bij_intro with (f := fun t => Z.to_N (int_val (nz_get t)) - 1); try assumption.
      + intros t. rewrite Ho. pose proof (nz_range t). pose proof (nz_nonzero t).
        rewrite as_usize_ok by lia. apply usub_ok; lia.
      + intros t. pose proof (nz_range t). pose proof (nz_nonzero t). lia.
      + intros a b E. apply nz_ext. pose proof (nz_range a). pose proof (nz_nonzero a).
        pose proof (nz_range b). pose proof (nz_nonzero b). lia.
      + intros i Hi. rewrite Hf. unfold checked_add.
        destruct (N.leb_spec (i + 1) usize_max); [|lia].
        destruct (@try_int_some 0 (Z.of_N hi) (Z.of_N (i + 1))) as (x & -> & E); [lia|].
        destruct (nz_new_some x) as (y & -> & Ey); [lia|].
        exists y. split; [reflexivity|]. rewrite Ey. lia.
    - intros i Hi Hi2. rewrite Hf. unfold checked_add.
      destruct (N.leb_spec (i + 1) usize_max); [|reflexivity].
      rewrite try_int_none by lia. reflexivity.
  Qed.

  Lemma NonZeroU8_lawful : lawful Ordinal_NonZeroU8 255.
  Proof.
    zmax. apply (@nz_unsigned_lawful 255 Ordinal_NonZeroU8); cbn -[nz_unsigned_from]; try lia; auto.
    intros i. unfold nz_unsigned_from. destruct (checked_add i 1); [|reflexivity].
    destruct (try_int 0 255 (Z.of_N n)); reflexivity.
  Qed.
  Lemma NonZeroU16_lawful : lawful Ordinal_NonZeroU16 65535.
  Proof.
    zmax. apply (@nz_unsigned_lawful 65535 Ordinal_NonZeroU16); cbn -[nz_unsigned_from]; try lia; auto.
    intros i. unfold nz_unsigned_from. destruct (checked_add i 1); [|reflexivity].
    destruct (try_int 0 65535 (Z.of_N n)); reflexivity.
  Qed.
  Lemma NonZeroU32_lawful : lawful Ordinal_NonZeroU32 4294967295.
  Proof.
    zmax. apply (@nz_unsigned_lawful 4294967295 Ordinal_NonZeroU32); cbn -[nz_unsigned_from]; try lia; auto.
    intros i. unfold nz_unsigned_from. destruct (checked_add i 1); [|reflexivity].
    destruct (try_int 0 4294967295 (Z.of_N n)); reflexivity.
  Qed.
  Lemma NonZeroUsize_lawful : lawful Ordinal_NonZeroUsize usize_max.
  Proof.
    zmax. apply (@nz_unsigned_lawful usize_max Ordinal_NonZeroUsize); try reflexivity; lia.
  Qed.

  Lemma nz_signed_lawful (half : N) (lo hi : Z) (O : Ordinal (nonzero lo hi)) :
    lo = (- Z.of_N half)%Z -> hi = (Z.of_N half - 1)%Z -> 1 < half ->
    2 * half - 1 <= usize_max ->
    ORDINAL_SIZE O = Val (2 * half - 1) ->
    (forall t, ordinal O t =
      if (0 <? int_val (nz_get t))%Z
      then uadd (half - 1) (as_usize (int_val (nz_get t)))
      else Val (as_usize (abs_diff (int_val (nz_get t)) lo))) ->
    (forall i, i <= usize_max -> from_ordinal O i =
      if half <=? i
      then match try_int lo hi (Z.of_N (i - half + 1)) with
           | None => Val None
           | Some x => Val (nz_new x)
           end
      else x <- unwrap (try_int lo hi (lo + Z.of_N i)) ;; Val (nz_new x)) ->
    lawful O (2 * half - 1).
  Proof.
    intros Hlo Hhi Hp Hm Hs Ho Hf. split.
    - apply bij_intro with (f := fun t : nonzero lo hi =>
        if (0 <? int_val (nz_get t))%Z
        then Z.to_N (int_val (nz_get t) - lo - 1) else Z.to_N (int_val (nz_get t) - lo));
        try assumption.
      + intros t. rewrite Ho. pose proof (nz_range t). pose proof (nz_nonzero t).
        destruct (Z.ltb_spec 0 (int_val (nz_get t))).
        * rewrite as_usize_ok by lia. rewrite uadd_ok by lia. f_equal. lia.
        * unfold abs_diff. rewrite Z.abs_eq by lia. rewrite as_usize_ok by lia. reflexivity.
      + intros t. pose proof (nz_range t). pose proof (nz_nonzero t).
        destruct (Z.ltb_spec 0 (int_val (nz_get t))); lia.
      + intros a b E. apply nz_ext. pose proof (nz_range a). pose proof (nz_nonzero a).
        pose proof (nz_range b). pose proof (nz_nonzero b).
        destruct (Z.ltb_spec 0 (int_val (nz_get a))), (Z.ltb_spec 0 (int_val (nz_get b))); lia.
      + intros i Hi. rewrite Hf by lia. destruct (N.leb_spec half i).
        * destruct (@try_int_some lo hi (Z.of_N (i - half + 1))) as (x & -> & E); [lia|].
          destruct (nz_new_some x) as (y & -> & Ey); [lia|].
          exists y. split; [reflexivity|]. rewrite Ey.
          destruct (Z.ltb_spec 0 (int_val x)); lia.
        * destruct (@try_int_some lo hi (lo + Z.of_N i)) as (x & -> & E); [lia|].
          cbn.
          destruct (nz_new_some x) as (y & -> & Ey); [lia|].
          exists y. split; [reflexivity|]. rewrite Ey.
          destruct (Z.ltb_spec 0 (int_val x)); lia.
    - intros i Hi Hi2. rewrite Hf by lia. destruct (N.leb_spec half i); [|lia].
      rewrite try_int_none by lia. reflexivity.
  Qed.

  (** The textual pattern of NonZeroI8/I16/I32::from_ordinal in closed form. *)
  Lemma nz_signed_from_eq (half : N) (lo hi : Z) i :
    lo = (- Z.of_N half)%Z -> hi = (Z.of_N half - 1)%Z -> 1 < half -> 2 * half - 1 <= usize_max ->
    i <= usize_max ->
    (lim <- cadd (half - 1) 1 ;;
      match checked_sub i lim with
      | None =>
          u <- unwrap (try_int 0 (Z.of_N (2 * half - 1)) (Z.of_N i)) ;;
          x <- unwrap (try_int lo hi (lo + int_val u)) ;;
          Val (nz_new x)
      | Some rem =>
          r <- uadd rem 1 ;;
          match try_int lo hi (Z.of_N r) with
          | None => Val None
          | Some x => Val (nz_new x)
          end
      end) =
    if half <=? i
      then match try_int lo hi (Z.of_N (i - half + 1)) with
           | None => Val None
           | Some x => Val (nz_new x)
           end
      else x <- unwrap (try_int lo hi (lo + Z.of_N i)) ;; Val (nz_new x).
  Proof.
    intros Hlo Hhi Hp Hm Hi. rewrite cadd_ok by lia. cbn [bind].
    replace (half - 1 + 1) with half by lia. unfold checked_sub.
    destruct (N.leb_spec half i).
    - rewrite uadd_ok by lia. reflexivity.
    - destruct (@try_int_some 0 (Z.of_N (2 * half - 1)) (Z.of_N i)) as (u & -> & E); [lia|].
      cbn [unwrap bind]. rewrite E. reflexivity.
  Qed.

  Lemma NonZeroI8_lawful : lawful Ordinal_NonZeroI8 255.
  Proof.
    zmax. apply (@nz_signed_lawful 128 (-128) 127 Ordinal_NonZeroI8); try reflexivity; try lia.
    intros i Hi. apply (@nz_signed_from_eq 128); lia.
  Qed.
  Lemma NonZeroI16_lawful : lawful Ordinal_NonZeroI16 65535.
  Proof.
    zmax. apply (@nz_signed_lawful 32768 (-32768) 32767 Ordinal_NonZeroI16); try reflexivity; try lia.
    intros i Hi. apply (@nz_signed_from_eq 32768); lia.
  Qed.
  Lemma NonZeroI32_lawful : lawful Ordinal_NonZeroI32 4294967295.
  Proof.
    zmax. apply (@nz_signed_lawful 2147483648 (-2147483648) 2147483647 Ordinal_NonZeroI32);
      try reflexivity; try lia.
    intros i Hi. apply (@nz_signed_from_eq 2147483648); lia.
  Qed.

  Lemma isize_usize : Z.of_N usize_max = (2 * isize_max + 1)%Z.
  Proof. unfold usize_max, isize_max. destruct usize_width; reflexivity. Qed.
  Lemma isize_max_ge : (2147483647 <= isize_max)%Z.
  Proof. unfold isize_max. destruct usize_width; lia. Qed.

  Lemma NonZeroIsize_lawful : lawful Ordinal_NonZeroIsize usize_max.
  Proof.
    zmax. pose proof isize_usize as E. pose proof isize_max_ge as G.
    assert (Hn : usize_max = 2 * Z.to_N (isize_max + 1) - 1) by lia.
    assert (Hl : @lawful cfg _ Ordinal_NonZeroIsize (2 * Z.to_N (isize_max + 1) - 1)).
    { apply nz_signed_lawful; try lia.
      - unfold isize_min. lia.
      - cbn. f_equal. exact Hn.
      - intros t. cbn [ordinal Ordinal_NonZeroIsize].
        replace (usize_max / 2) with (Z.to_N (isize_max + 1) - 1); [reflexivity|].
        apply (N.div_unique _ _ _ 1); lia.
      - intros i Hi. cbn [from_ordinal Ordinal_NonZeroIsize].
        rewrite as_usize_ok by lia. rewrite cadd_ok by lia. cbn [bind].
        replace (Z.to_N isize_max + 1) with (Z.to_N (isize_max + 1)) by lia.
        unfold checked_sub. destruct (N.leb_spec (Z.to_N (isize_max + 1)) i).
        + rewrite uadd_ok by lia. reflexivity.
        + reflexivity. }
    rewrite <- Hn in Hl. exact Hl.
  Qed.

  Lemma usize_max_64 : usize_width = W64 -> usize_max = 18446744073709551615.
  Proof. unfold usize_max. intros ->. reflexivity. Qed.
  Lemma usize_max_32 : usize_width = W32 -> usize_max = 4294967295.
  Proof. unfold usize_max. intros ->. reflexivity. Qed.

  Lemma NonZeroU64_size_64 : usize_width = W64 -> NonZeroU64_ORDINAL_SIZE = Val 18446744073709551615.
  Proof. intros E. unfold NonZeroU64_ORDINAL_SIZE. rewrite usize_max_64 by exact E. reflexivity. Qed.
  Lemma NonZeroU64_size_32 : usize_width = W32 -> NonZeroU64_ORDINAL_SIZE = NoCompile.
  Proof. intros E. unfold NonZeroU64_ORDINAL_SIZE. rewrite usize_max_32 by exact E. reflexivity. Qed.

  Lemma NonZeroU64_lawful : usize_width = W64 -> lawful Ordinal_NonZeroU64 18446744073709551615.
  Proof.
    intros E. pose proof (usize_max_64 E) as M. pose proof (NonZeroU64_size_64 E) as Hs.
    apply (@nz_unsigned_lawful 18446744073709551615 Ordinal_NonZeroU64); try lia.
    - exact Hs.
    - change (forall t : nonzero 0 18446744073709551615,
                ordinal Ordinal_NonZeroU64 t = usub (as_usize (int_val (nz_get t))) 1).
      intros t. cbn [ordinal Ordinal_NonZeroU64]. rewrite Hs. cbn [bind].
      pose proof (@nz_range 0 18446744073709551615 t).
      pose proof (@nz_nonzero 0 18446744073709551615 t).
      rewrite as_usize_ok by lia.
      destruct (@try_int_some 0 (Z.of_N usize_max) (Z.of_N (Z.to_N (int_val (nz_get t)))))
        as (x & -> & Ex); [lia|]. cbn [unwrap bind].
      destruct (nz_new_some x) as (y & -> & Ey); [lia|]. cbn [unwrap bind].
      cbn. rewrite Ey, Ex. rewrite as_usize_ok by lia. do 2 f_equal. lia.
    - intros i. change (Z.of_N 18446744073709551615) with 18446744073709551615%Z.
      cbn [from_ordinal Ordinal_NonZeroU64 Ordinal_NonZeroUsize]. rewrite Hs. cbn [bind].
      unfold checked_add. destruct (N.leb_spec (i + 1) usize_max); [|reflexivity].
      destruct (@try_int_some 0 (Z.of_N usize_max) (Z.of_N (i + 1))) as (x & -> & Ex); [lia|].
      destruct (nz_new_some x) as (y & -> & Ey); [lia|]. cbn [bind].
      destruct (@try_int_some 0 18446744073709551615 (Z.of_N (i + 1))) as (x' & Hx' & Ex'); [lia|].
      replace (int_val (nz_get y) mod 18446744073709551616)%Z with (Z.of_N (i + 1)).
      2:{ rewrite Ey, Ex. rewrite Z.mod_small; lia. }
      rewrite !Hx'. cbn [unwrap bind].
      destruct (nz_new_some x') as (y' & -> & Ey'); [lia|]. reflexivity.
  Qed.

  Lemma NonZeroI64_lawful : usize_width = W64 -> lawful Ordinal_NonZeroI64 18446744073709551615.
  Proof.
    intros E. pose proof (usize_max_64 E) as M. pose proof (NonZeroU64_size_64 E) as Hs.
    assert (Hi : isize_max = 9223372036854775807%Z) by (unfold isize_max; rewrite E; reflexivity).
    assert (Hj : isize_min = (-9223372036854775808)%Z) by (unfold isize_min; rewrite Hi; reflexivity).
    destruct NonZeroIsize_lawful as [Hb Hr]. rewrite M in Hb, Hr.
    split.
    - assert (Hto : forall t : nonzero (-9223372036854775808) 9223372036854775807,
        exists s : NonZeroIsize, int_val (nz_get s) = int_val (nz_get t) /\
          ordinal Ordinal_NonZeroI64 t = ordinal Ordinal_NonZeroIsize s).
      { intros t. cbn [ordinal Ordinal_NonZeroI64]. rewrite Hs. cbn [bind].
        pose proof (nz_range t). pose proof (nz_nonzero t).
        assert (Ha : as_isize (int_val (nz_get t)) = int_val (nz_get t)).
        { unfold as_isize. rewrite Z.mod_small by lia. lia. }
        rewrite Ha.
        destruct (@try_int_some isize_min isize_max (int_val (nz_get t)))
          as (x & -> & Ex); [lia|]. cbn [unwrap bind].
        destruct (nz_new_some x) as (y & -> & Ey); [lia|]. cbn [unwrap bind].
        exists y. rewrite Ey, Ex. auto. }
      assert (Hfrom : forall i s, from_ordinal Ordinal_NonZeroIsize i = Val (Some s) ->
        exists t : nonzero (-9223372036854775808) 9223372036854775807,
          int_val (nz_get t) = int_val (nz_get s) /\
          from_ordinal Ordinal_NonZeroI64 i = Val (Some t)).
      { intros i s Hs'. cbn [from_ordinal Ordinal_NonZeroI64]. rewrite Hs, Hs'. cbn [bind].
        pose proof (nz_range s). pose proof (nz_nonzero s).
        destruct (@try_int_some (-9223372036854775808) 9223372036854775807 (int_val (nz_get s)))
          as (x & -> & Ex); [lia|]. cbn [unwrap bind].
        destruct (nz_new_some x) as (y & -> & Ey); [lia|]. cbn [unwrap bind].
        exists y. rewrite Ey. auto. }
      split.
      + exact Hs.
      + lia.
      + intros t. destruct (Hto t) as (s & Es & ->).
        destruct (bij_to Hb s) as (i & H1 & H2 & H3). exists i. split; [exact H1|].
        split; [exact H2|]. destruct (Hfrom _ _ H3) as (t' & Et & ->).
        do 2 f_equal. apply nz_ext. congruence.
      + intros i Hlt. destruct (bij_from Hb Hlt) as (s & H1 & H2).
        destruct (Hfrom _ _ H1) as (t & Et & ->). exists t. split; [reflexivity|].
        destruct (Hto t) as (s' & Es' & ->). rewrite <- H2. f_equal.
        apply nz_ext. congruence.
    - intros i H1 H2. cbn [from_ordinal Ordinal_NonZeroI64]. rewrite Hs. cbn [bind].
      rewrite Hr by assumption. reflexivity.
  Qed.

  Lemma NonZero64_rejected : usize_width = W32 ->
    ORDINAL_SIZE Ordinal_NonZeroU64 = NoCompile /\ ORDINAL_SIZE Ordinal_NonZeroI64 = NoCompile /\
    (forall t, ordinal Ordinal_NonZeroU64 t = NoCompile) /\
    (forall t, ordinal Ordinal_NonZeroI64 t = NoCompile) /\
    (forall i, from_ordinal Ordinal_NonZeroU64 i = NoCompile) /\
    (forall i, from_ordinal Ordinal_NonZeroI64 i = NoCompile).
  Proof.
    intros E. pose proof (NonZeroU64_size_32 E) as Hs. cbn. rewrite Hs. auto 10.
  Qed.

  (** ** char *)

  Definition char_ord (c : char) : N :=
    if char_val c <? 55296 then char_val c else char_val c - 2048.

  Lemma char_ordinal c : ordinal Ordinal_char c = Val (char_ord c).
  Proof.
    zmax. pose proof (char_scalar c). cbn -[usub]. unfold char_ord, SURROGATE_START.
    destruct (N.ltb_spec (char_val c) 55296); [reflexivity|].
    apply usub_ok; lia.
  Qed.

  Lemma char_size : ORDINAL_SIZE Ordinal_char = Val 1112064.
  Proof. zmax. cbn -[cadd csub]. rewrite cadd_ok by lia. cbn [bind]. rewrite csub_ok by lia. reflexivity. Qed.

  Lemma char_from_small i : i < 4294967296 ->
    from_ordinal Ordinal_char i =
      Val (char_from_u32 (if i <? 55296 then i else i + 2048)).
  Proof.
    intros H. cbn. unfold as_u32, SURROGATE_START. rewrite N.mod_small by lia.
    destruct (N.ltb_spec i 55296); [reflexivity|].
    destruct (N.leb_spec (i + 2048) 4294967295); [reflexivity|].
    rewrite char_from_none; [reflexivity|lia].
  Qed.

  Lemma char_bijection : ordinal_bijection Ordinal_char 1112064.
  Proof.
    zmax. apply bij_intro with (f := char_ord).
    - apply char_size.
    - lia.
    - apply char_ordinal.
    - intros c. pose proof (char_scalar c). unfold char_ord.
      destruct (N.ltb_spec (char_val c) 55296); lia.
    - intros a b E. apply char_ext. pose proof (char_scalar a). pose proof (char_scalar b).
      unfold char_ord in E.
      destruct (N.ltb_spec (char_val a) 55296), (N.ltb_spec (char_val b) 55296); lia.
    - intros i Hi. rewrite char_from_small by lia.
      destruct (@char_from_some (if i <? 55296 then i else i + 2048)) as (c & -> & E).
      { destruct (N.ltb_spec i 55296); lia. }
      exists c. split; [reflexivity|]. unfold char_ord.
      destruct (N.ltb_spec i 55296); destruct (N.ltb_spec (char_val c) 55296); lia.
  Qed.

  Lemma char_rejects_below_2_32 i :
    1112064 <= i -> i < 4294967296 -> from_ordinal Ordinal_char i = Val None.
  Proof.
    intros H1 H2. rewrite char_from_small by lia. destruct (N.ltb_spec i 55296); [lia|].
    rewrite char_from_none by lia. reflexivity.
  Qed.

  Lemma char_rejects_32 : usize_width = W32 -> rejects_out_of_range Ordinal_char 1112064.
  Proof.
    intros E i H1 H2. rewrite (usize_max_32 E) in H2. apply char_rejects_below_2_32; lia.
  Qed.

  Lemma char_rejects_64_false : usize_width = W64 ->
    exists i c, 1112064 <= i <= usize_max /\
      from_ordinal Ordinal_char i = Val (Some c) /\ ordinal Ordinal_char c = Val 2048.
  Proof.
    intros E. exists 4294967296.
    destruct (@char_from_some 2048) as (c & Hc & Ec); [lia|].
    exists c. rewrite (usize_max_64 E). split; [lia|]. split.
    - change (Val (char_from_u32 2048) = Val (Some c)). rewrite Hc. reflexivity.
    - rewrite char_ordinal. unfold char_ord. rewrite Ec. reflexivity.
  Qed.

  (** ** Ordering, Infallible *)

  Lemma Ordering_lawful : lawful Ordinal_Ordering 3.
  Proof.
    zmax. split.
    - apply bij_intro with (f := fun c => match c with Lt => 0 | Eq => 1 | Gt => 2 end);
        cbn; auto; try lia.
      + intros []; lia.
      + intros [] []; try reflexivity; lia.
      + intros i Hi. assert (i = 0 \/ i = 1 \/ i = 2) as [-> | [-> | ->]] by lia;
          eexists; split; reflexivity.
    - intros i Hi _. destruct i as [|[[p|p|]|[p|p|]|]]; try lia; reflexivity.
  Qed.

  Lemma Infallible_lawful : lawful Ordinal_Infallible 0.
  Proof.
    zmax. split.
    - split; cbn; auto; try lia. intros [].
    - intros i _ _. reflexivity.
  Qed.
End Prims.

Section Wrappers.
  Context {cfg : Config}.

  Lemma Box_bijection {T} (O : Ordinal T) n :
    ordinal_bijection O n -> ordinal_bijection (Ordinal_Box O) n.
  Proof.
    intros H. split.
    - apply (bij_size H).
    - apply (bij_fits H).
    - intros [t]. destruct (bij_to H t) as (i & H1 & H2 & H3). exists i.
      cbn. rewrite H1, H3. auto.
    - intros i Hi. destruct (bij_from H Hi) as (t & H1 & H2). exists (Box t).
      cbn. rewrite H1, H2. auto.
  Qed.

  Lemma Box_rejects {T} (O : Ordinal T) n :
    rejects_out_of_range O n -> rejects_out_of_range (Ordinal_Box O) n.
  Proof. intros H i H1 H2. cbn. rewrite H by assumption. reflexivity. Qed.

  Lemma Option_size {T} (O : Ordinal T) n :
    ORDINAL_SIZE O = Val n -> n < usize_max -> ORDINAL_SIZE (Ordinal_Option O) = Val (n + 1).
  Proof. intros H Hn. cbn -[cadd]. rewrite H. cbn -[cadd]. apply cadd_ok. lia. Qed.

  Lemma Option_bijection {T} (O : Ordinal T) n :
    ordinal_bijection O n -> n < usize_max -> ordinal_bijection (Ordinal_Option O) (n + 1).
  Proof.
    intros H Hn. split.
    - apply Option_size; [apply (bij_size H)|exact Hn].
    - lia.
    - intros [t|].
      + destruct (bij_to H t) as (i & H1 & H2 & H3). exists (i + 1).
        cbn -[uadd usub]. rewrite H1. cbn -[uadd usub]. rewrite uadd_ok by lia.
        split; [reflexivity|]. split; [lia|].
        destruct (N.eqb_spec (i + 1) 0); [lia|]. rewrite usub_ok by lia. cbn.
        replace (i + 1 - 1) with i by lia. rewrite H3. reflexivity.
      + exists 0. cbn. repeat split; lia.
    - intros i Hi. cbn -[uadd usub]. destruct (N.eqb_spec i 0) as [->|N0].
      + exists None. auto.
      + rewrite usub_ok by lia. cbn -[uadd].
        destruct (@bij_from _ _ _ _ H (i - 1)) as (t & H1 & H2); [lia|].
        exists (Some t). rewrite H1. cbn -[uadd]. split; [reflexivity|].
        rewrite H2. cbn -[uadd]. rewrite uadd_ok by lia. f_equal. lia.
  Qed.

  Lemma Option_rejects {T} (O : Ordinal T) n :
    rejects_out_of_range O n -> rejects_out_of_range (Ordinal_Option O) (n + 1).
  Proof.
    intros H i H1 H2. cbn -[usub]. destruct (N.eqb_spec i 0) as [->|N0]; [lia|].
    rewrite usub_ok by lia. cbn. rewrite H by lia. reflexivity.
  Qed.

  Lemma Result_size {A B} (OA : Ordinal A) (OB : Ordinal B) a b :
    ORDINAL_SIZE OA = Val a -> ORDINAL_SIZE OB = Val b -> a + b <= usize_max ->
    ORDINAL_SIZE (Ordinal_Result OA OB) = Val (a + b).
  Proof. intros HA HB Hn. cbn -[cadd]. rewrite HA, HB. cbn -[cadd]. apply cadd_ok. lia. Qed.

  Lemma Result_bijection {A B} (OA : Ordinal A) (OB : Ordinal B) a b :
    ordinal_bijection OA a -> ordinal_bijection OB b -> a + b <= usize_max ->
    ordinal_bijection (Ordinal_Result OA OB) (a + b).
  Proof.
    intros HA HB Hn. pose proof (bij_size HA) as SA. pose proof (bij_size HB) as SB.
    split.
    - apply Result_size; assumption.
    - lia.
    - intros [x|x]; cbn -[uadd usub]; rewrite SA; cbn -[uadd usub].
      + destruct (bij_to HA x) as (i & H1 & H2 & H3). exists i.
        split; [exact H1|]. split; [lia|].
        destruct (N.ltb_spec i a); [|lia]. rewrite H3. reflexivity.
      + destruct (bij_to HB x) as (i & H1 & H2 & H3). exists (a + i).
        rewrite H1. cbn -[uadd usub]. rewrite uadd_ok by lia.
        split; [reflexivity|]. split; [lia|].
        destruct (N.ltb_spec (a + i) a); [lia|]. rewrite usub_ok by lia.
        cbn. replace (a + i - a) with i by lia. rewrite H3. reflexivity.
    - intros i Hi. cbn -[uadd usub]. rewrite SA. cbn -[uadd usub].
      destruct (N.ltb_spec i a).
      + destruct (@bij_from _ _ _ _ HA i) as (x & H1 & H2); [lia|].
        exists (ResOk x). rewrite H1. cbn. auto.
      + rewrite usub_ok by lia. cbn -[uadd].
        destruct (@bij_from _ _ _ _ HB (i - a)) as (x & H1 & H2); [lia|].
        exists (ResErr x). rewrite H1. cbn -[uadd]. rewrite H2. split; [reflexivity|].
        cbn -[uadd]. rewrite uadd_ok by lia. f_equal. lia.
  Qed.

  Lemma Result_rejects {A B} (OA : Ordinal A) (OB : Ordinal B) a b :
    ORDINAL_SIZE OA = Val a -> rejects_out_of_range OB b ->
    rejects_out_of_range (Ordinal_Result OA OB) (a + b).
  Proof.
    intros SA H i H1 H2. cbn -[usub]. rewrite SA. cbn -[usub].
    destruct (N.ltb_spec i a); [lia|].
    rewrite usub_ok by lia. cbn. rewrite H by lia. reflexivity.
  Qed.

  Lemma Either_bijection {A B} (OA : Ordinal A) (OB : Ordinal B) a b :
    ordinal_bijection OA a -> ordinal_bijection OB b -> a + b <= usize_max ->
    ordinal_bijection (Ordinal_Either OA OB) (a + b).
  Proof.
    intros HA HB Hn. pose proof (bij_size HA) as SA. pose proof (bij_size HB) as SB.
    split.
    - cbn -[Ordinal_Result]. apply Result_size; assumption.
    - lia.
    - intros [x|x]; cbn -[uadd usub]; rewrite SA; cbn -[uadd usub].
      + destruct (bij_to HA x) as (i & H1 & H2 & H3). exists i.
        split; [exact H1|]. split; [lia|].
        destruct (N.ltb_spec i a); [|lia]. rewrite H3. reflexivity.
      + destruct (bij_to HB x) as (i & H1 & H2 & H3). exists (a + i).
        rewrite H1. cbn -[uadd usub]. rewrite uadd_ok by lia.
        split; [reflexivity|]. split; [lia|].
        destruct (N.ltb_spec (a + i) a); [lia|]. rewrite usub_ok by lia.
        cbn. replace (a + i - a) with i by lia. rewrite H3. reflexivity.
    - intros i Hi. cbn -[uadd usub]. rewrite SA. cbn -[uadd usub].
      destruct (N.ltb_spec i a).
      + destruct (@bij_from _ _ _ _ HA i) as (x & H1 & H2); [lia|].
        exists (Left x). rewrite H1. cbn. auto.
      + rewrite usub_ok by lia. cbn -[uadd].
        destruct (@bij_from _ _ _ _ HB (i - a)) as (x & H1 & H2); [lia|].
        exists (Right x). rewrite H1. cbn -[uadd]. rewrite H2. split; [reflexivity|].
        cbn -[uadd]. rewrite uadd_ok by lia. f_equal. lia.
  Qed.

  Lemma Either_rejects {A B} (OA : Ordinal A) (OB : Ordinal B) a b :
    ORDINAL_SIZE OA = Val a -> rejects_out_of_range OB b ->
    rejects_out_of_range (Ordinal_Either OA OB) (a + b).
  Proof.
    intros SA H i H1 H2. cbn -[usub]. rewrite SA. cbn -[usub].
    destruct (N.ltb_spec i a); [lia|].
    rewrite usub_ok by lia. cbn. rewrite H by lia. reflexivity.
  Qed.
End Wrappers.
