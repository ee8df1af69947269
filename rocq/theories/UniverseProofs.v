(** * UniverseProofs: the basic types, counting, and products of sizes (C13-C18). *)
From Verif Require Import Base Spec SpecDerive SpecUniverse ModelOrdinal ModelArrayBuilder
  ModelDerive ModelUniverse BaseProofs OrdinalProofs ArrayProofs DeriveProofs DeriveProofs2
  DeriveProofs3 OrdinalProofs2 IterLib ValuesProofs MapLib MapProofs4.
From Coq Require Import List.
Import ListNotations.
Unset Strict Implicit.

(** ** Basic types *)
Section Prims.
  Context {cfg : Config}.

  Lemma mono_intro {T} (O : Ordinal T) (lt : T -> T -> Prop) (f : T -> N) :
    (forall t, ordinal O t = Val (f t)) -> (forall a b, lt a b <-> f a < f b) ->
    ordinal_monotone O lt.
  Proof.
    intros Ho Hl a b i j Hi Hj. rewrite Ho in Hi, Hj. injection Hi as <-. injection Hj as <-. apply Hl.
  Qed.

  Lemma unsigned_mono (hi : Z) (O : Ordinal (int 0 hi)) :
    (hi <= Z.of_N usize_max)%Z ->
    (forall t, ordinal O t = Val (as_usize (int_val t))) -> ordinal_monotone O int_lt.
  Proof.
    intros Hm Ho. apply mono_intro with (f := fun t => Z.to_N (int_val t)).
    - intros t. rewrite Ho. pose proof (int_range t). rewrite as_usize_ok by lia. reflexivity.
    - intros a b. unfold int_lt. pose proof (int_range a). pose proof (int_range b). lia.
  Qed.

  Lemma signed_mono (lo hi : Z) (O : Ordinal (int lo hi)) :
    (hi - lo <= Z.of_N usize_max)%Z ->
    (forall t, ordinal O t = Val (as_usize (abs_diff (int_val t) lo))) -> ordinal_monotone O int_lt.
  Proof.
    intros Hm Ho. apply mono_intro with (f := fun t => Z.to_N (int_val t - lo)).
    - intros t. rewrite Ho. pose proof (int_range t). unfold abs_diff.
      rewrite Z.abs_eq by lia. rewrite as_usize_ok by lia. reflexivity.
    - intros a b. unfold int_lt. pose proof (int_range a). pose proof (int_range b). lia.
  Qed.

  Lemma nz_unsigned_mono (hi : Z) (O : Ordinal (nonzero 0 hi)) :
    (hi <= Z.of_N usize_max)%Z ->
    (forall t, ordinal O t = usub (as_usize (int_val (nz_get t))) 1) -> ordinal_monotone O nonzero_lt.
  Proof.
    intros Hm Ho. apply mono_intro with (f := fun t => Z.to_N (int_val (nz_get t)) - 1).
    - intros t. rewrite Ho. pose proof (nz_range t). pose proof (nz_nonzero t).
      rewrite as_usize_ok by lia. apply usub_ok; lia.
    - intros a b. unfold nonzero_lt. pose proof (nz_range a). pose proof (nz_nonzero a).
      pose proof (nz_range b). pose proof (nz_nonzero b). lia.
  Qed.

  Lemma nz_signed_mono (half : N) (lo hi : Z) (O : Ordinal (nonzero lo hi)) :
    lo = (- Z.of_N half)%Z -> hi = (Z.of_N half - 1)%Z -> 1 < half ->
    2 * half - 1 <= usize_max ->
    (forall t, ordinal O t =
      if (0 <? int_val (nz_get t))%Z
      then uadd (half - 1) (as_usize (int_val (nz_get t)))
      else Val (as_usize (abs_diff (int_val (nz_get t)) lo))) ->
    ordinal_monotone O nonzero_lt.
  Proof.
    intros Hlo Hhi Hp Hm Ho. apply mono_intro with (f := fun t : nonzero lo hi =>
        if (0 <? int_val (nz_get t))%Z
        then Z.to_N (int_val (nz_get t) - lo - 1) else Z.to_N (int_val (nz_get t) - lo)).
    - intros t. rewrite Ho. pose proof (nz_range t). pose proof (nz_nonzero t).
      destruct (Z.ltb_spec 0 (int_val (nz_get t))).
      + rewrite as_usize_ok by lia. rewrite uadd_ok by lia. f_equal. lia.
      + unfold abs_diff. rewrite Z.abs_eq by lia. rewrite as_usize_ok by lia. reflexivity.
    - intros a b. unfold nonzero_lt. pose proof (nz_range a). pose proof (nz_nonzero a).
      pose proof (nz_range b). pose proof (nz_nonzero b).
      destruct (Z.ltb_spec 0 (int_val (nz_get a))), (Z.ltb_spec 0 (int_val (nz_get b))); lia.
  Qed.

  Lemma Isize_mono : ordinal_monotone Ordinal_NonZeroIsize nonzero_lt.
  Proof.
    pose proof (@usize_max_ge cfg). pose proof (@isize_usize cfg) as E. pose proof (@isize_max_ge cfg) as G.
    assert (Hn : usize_max = 2 * Z.to_N (isize_max + 1) - 1) by lia.
    apply nz_signed_mono with (half := Z.to_N (isize_max + 1)); try lia.
    - unfold isize_min. lia.
    - intros t. cbn [ordinal Ordinal_NonZeroIsize].
      replace (usize_max / 2) with (Z.to_N (isize_max + 1) - 1); [reflexivity|].
      apply (N.div_unique _ _ _ 1); lia.
  Qed.

  Lemma U64_mono : usize_width = W64 -> ordinal_monotone Ordinal_NonZeroU64 nonzero_lt.
  Proof.
    intros E. pose proof (usize_max_64 E) as M. pose proof (NonZeroU64_size_64 E) as Hs.
    apply nz_unsigned_mono; [lia|].
    intros t. cbn [ordinal Ordinal_NonZeroU64]. rewrite Hs. cbn [bind].
    pose proof (nz_range t). pose proof (nz_nonzero t).
    rewrite as_usize_ok by lia.
    destruct (@try_int_some 0 (Z.of_N usize_max) (Z.of_N (Z.to_N (int_val (nz_get t)))))
      as (x & -> & Ex); [lia|]. cbn [unwrap bind].
    destruct (nz_new_some x) as (y & -> & Ey); [lia|]. cbn [unwrap bind].
    cbn. rewrite Ey, Ex. rewrite as_usize_ok by lia. do 2 f_equal. lia.
  Qed.

  Lemma I64_mono : usize_width = W64 -> ordinal_monotone Ordinal_NonZeroI64 nonzero_lt.
  Proof.
    intros E. pose proof (usize_max_64 E) as M. pose proof (NonZeroU64_size_64 E) as Hs.
    assert (Hi : isize_max = 9223372036854775807%Z) by (unfold isize_max; rewrite E; reflexivity).
    assert (Hj : isize_min = (-9223372036854775808)%Z) by (unfold isize_min; rewrite Hi; reflexivity).
    assert (Hto : forall t : nonzero (-9223372036854775808) 9223372036854775807,
      exists s : NonZeroIsize, int_val (nz_get s) = int_val (nz_get t) /\
        ordinal Ordinal_NonZeroI64 t = ordinal Ordinal_NonZeroIsize s).
    { intros t. cbn [ordinal Ordinal_NonZeroI64]. rewrite Hs. cbn [bind].
      pose proof (nz_range t). pose proof (nz_nonzero t).
      assert (Ha : as_isize (int_val (nz_get t)) = int_val (nz_get t)).
      { unfold as_isize. rewrite Z.mod_small by lia. lia. }
      rewrite Ha.
      destruct (@try_int_some isize_min isize_max (int_val (nz_get t)))
        as (x & -> & Ex); [lia|]. cbn [unwrap bind].
      destruct (nz_new_some x) as (y & -> & Ey); [lia|]. cbn [unwrap bind].
      exists y. rewrite Ey, Ex. auto. }
    intros a b i j Ha Hb. destruct (Hto a) as (a' & Ea & Oa), (Hto b) as (b' & Eb & Ob).
    rewrite Oa in Ha. rewrite Ob in Hb. pose proof (Isize_mono Ha Hb) as G.
    unfold nonzero_lt in *. rewrite Ea, Eb in G. exact G.
  Qed.

  Lemma bool_mono : ordinal_monotone Ordinal_bool bool_lt.
  Proof.
    intros a b i j Hi Hj. injection Hi as <-. injection Hj as <-. unfold bool_lt.
    destruct a, b; split; intros H; try (destruct H; discriminate); try lia; auto.
  Qed.

  Lemma Ordering_mono : ordinal_monotone Ordinal_Ordering ordering_lt.
  Proof.
    intros a b i j Hi Hj. injection Hi as <-. injection Hj as <-.
    destruct a, b; cbn [ordering_lt]; split; intros H; try contradiction; try exact I; lia.
  Qed.

  (** Either a basic type obeys the law with its number of values, or it has too many
      values for the target and cannot be used. *)
  Lemma prim_law p :
    (ordinal_bijection (ft_ord (denote_prim p)) (prim_card p) /\
     (p <> Pchar \/ usize_width = W32 ->
      rejects_out_of_range (ft_ord (denote_prim p)) (prim_card p)) /\
     ordinal_monotone (ft_ord (denote_prim p)) (ft_lt (denote_prim p))) \/
    (usize_max < prim_card p /\ ORDINAL_SIZE (ft_ord (denote_prim p)) = NoCompile /\
     forall t, ordinal (ft_ord (denote_prim p)) t = NoCompile).
  Proof.
    pose proof (@usize_max_ge cfg) as G.
    assert (L : forall (f : ftype) n, lawful (ft_ord f) n -> ordinal_monotone (ft_ord f) (ft_lt f) ->
      ordinal_bijection (ft_ord f) n /\
      (p <> Pchar \/ usize_width = W32 -> rejects_out_of_range (ft_ord f) n) /\
      ordinal_monotone (ft_ord f) (ft_lt f)).
    { intros f n [H1 H2] H3. auto. }
    destruct (usize_width) eqn:W; destruct p; cbn [denote_prim prim_card];
    first
    [ left; apply L; cbn [ft_ord ft_lt of_impl];
      [ first [apply bool_lawful|apply u8_lawful|apply i8_lawful|apply u16_lawful|apply i16_lawful
              |apply u32_lawful; exact W|apply i32_lawful; exact W
              |apply NonZeroU8_lawful|apply NonZeroI8_lawful|apply NonZeroU16_lawful
              |apply NonZeroI16_lawful|apply NonZeroU32_lawful|apply NonZeroI32_lawful
              |apply NonZeroU64_lawful; exact W|apply NonZeroI64_lawful; exact W
              |apply NonZeroUsize_lawful|apply NonZeroIsize_lawful
              |apply Ordering_lawful|apply Infallible_lawful]
      | ]
    | right; cbn [ft_ord of_impl ft_T]; pose proof (usize_max_32 W);
      pose proof (u32_i32_rejected W) as (?&?&?&?); pose proof (NonZero64_rejected W) as (?&?&?&?&?&?);
      split; [lia|split; assumption]
    | idtac ].
    all: try (left; cbn [ft_ord ft_lt of_impl]; split; [apply char_bijection|];
              split; [|apply char_monotone]; intros [?|?];
              [congruence|first [apply char_rejects_32; assumption|discriminate]]).
    all: try (apply U64_mono; exact W). all: try (apply I64_mono; exact W).
    all: try apply Isize_mono.
    all: try (apply nz_unsigned_mono; [lia|intros t; reflexivity]).
    all: try (apply unsigned_mono; [lia|intros t; reflexivity]).
    all: try (apply signed_mono; [lia|intros t; reflexivity]).
    all: try (apply (@nz_signed_mono 128); [lia..|intros t; reflexivity]).
    all: try (apply (@nz_signed_mono 32768); [lia..|intros t; reflexivity]).
    all: try (apply (@nz_signed_mono 2147483648); [lia..|intros t; reflexivity]).
    all: try apply bool_mono. all: try apply Ordering_mono.
    all: try (intros []).
    - apply unsigned_mono; [rewrite usize_max_64 by exact W; lia|].
      intros t. cbn [ordinal Ordinal_u32]. rewrite u32_size_64 by exact W. reflexivity.
    - apply signed_mono; [rewrite usize_max_64 by exact W; lia|].
      intros t. cbn [ordinal Ordinal_i32]. rewrite u32_size_64 by exact W. reflexivity.
  Qed.
End Prims.
