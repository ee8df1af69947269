(** * CompatProofs: types that are numbered alike (C67, C68). *)
From Verif Require Import Base Spec SpecDerive SpecCompat ModelOrdinal ModelArrayBuilder ModelDerive BaseProofs OrdinalProofs
  DeriveProofs DeriveProofs2 DeriveProofs3 OrdinalProofs2.
From Coq Require Import String List. Import ListNotations.
Unset Strict Implicit.

Section Compat.
  Context {cfg : Config}.

  Lemma same_of_bijections {A B} (OA : Ordinal A) (OB : Ordinal B) (f : A -> B) n :
    ordinal_bijection OA n -> ordinal_bijection OB n ->
    (forall a i, ordinal OA a = Val i -> ordinal OB (f a) = Val i) -> same_numbering OA OB f n.
  Proof.
    intros HA HB H. split; [apply (bij_size HA)|]. split; [apply (bij_size HB)|]. split.
    - intros a. destruct (bij_to HA a) as (i & E & Hi & _). exists i. auto.
    - intros i Hi. destruct (bij_from HA Hi) as (a & E1 & E2). exists a. split; [exact E1|].
      destruct (bij_to HB (f a)) as (j & F1 & F2 & F3). rewrite (H _ _ E2) in F1. injection F1 as <-. exact F3.
  Qed.

  Lemma names_unit : names_ok (field_vars FUnit).
  Proof. split; [constructor|]. intros x _ []. Qed.
  Lemma names_one f : names_ok (field_vars (FUnnamed [f])).
  Proof.
    split; [repeat constructor; cbn; tauto|]. intros x Hx [<-|[]]. cbn in Hx.
    repeat destruct Hx as [Hx|Hx]; try discriminate Hx. exact Hx.
  Qed.

  Lemma option_size d0 d1 f n : ordinal_bijection (ft_ord f) n -> n < usize_max ->
    ORDINAL_SIZE (derive_enum (option_decl d0 d1 f)) = Val (n + 1).
  Proof.
    intros H Hn. rewrite (derive_enum_compiles (vs := option_decl d0 d1 f) (nss := [[]; [n]])).
    - f_equal. unfold product_of, sum_of. cbn [map fold_right]. lia.
    - constructor; [apply names_unit|]. constructor; [apply (names_one f)|constructor].
    - apply lawful_vsizes. repeat first [exact H|constructor].
    - split; [|unfold product_of, sum_of; cbn [map fold_right]; lia].
      repeat constructor; cbn [prefix_ok]; try split; try exact I; lia.
  Qed.

  Lemma option_same d0 d1 f n : ordinal_bijection (ft_ord f) n -> n < usize_max ->
    same_numbering (Ordinal_Option (ft_ord f)) (derive_enum (option_decl d0 d1 f)) (option_as d0 d1 f) (n + 1).
  Proof.
    intros H Hn. pose proof (option_size d0 d1 H Hn) as Hs.
    assert (Hl : variants_lawful (variant_types (option_decl d0 d1 f)) [[]; [n]]).
    { repeat first [exact H|constructor]. }
    apply same_of_bijections.
    - apply Option_law; assumption.
    - apply (enum_law _ Hl Hs).
    - destruct (Option_law H Hn) as (_ & E0 & E1 & _). intros [a|] i Ei.
      + destruct (bij_to H a) as (j & Ej & Hj & _). rewrite (E1 _ _ Ej) in Ei. injection Ei as <-.
        rewrite (@derive_enum_number _ (option_decl d0 d1 f) _ _ _ [j] Hl Hs).
        * f_equal. unfold enum_position, sum_of. cbn -[N.add N.mul]. lia.
        * cbn. exists j, []. auto.
      + rewrite E0 in Ei. injection Ei as <-.
        rewrite (@derive_enum_number _ (option_decl d0 d1 f) _ _ _ [] Hl Hs); reflexivity.
  Qed.

  Lemma two_size d0 d1 f g a b : ordinal_bijection (ft_ord f) a -> ordinal_bijection (ft_ord g) b -> a + b <= usize_max ->
    ORDINAL_SIZE (derive_enum (two_decl d0 d1 f g)) = Val (a + b).
  Proof.
    intros HA HB Hn. rewrite (derive_enum_compiles (vs := two_decl d0 d1 f g) (nss := [[a]; [b]])).
    - f_equal. unfold product_of, sum_of. cbn [map fold_right]. lia.
    - constructor; [apply (names_one f)|]. constructor; [apply (names_one g)|constructor].
    - apply lawful_vsizes. repeat first [assumption|constructor].
    - split; [|unfold product_of, sum_of; cbn [map fold_right]; lia].
      repeat constructor; cbn [prefix_ok]; try split; try exact I; lia.
  Qed.

  Lemma two_lawful d0 d1 f g a b : ordinal_bijection (ft_ord f) a -> ordinal_bijection (ft_ord g) b ->
    variants_lawful (variant_types (two_decl d0 d1 f g)) [[a]; [b]].
  Proof. intros HA HB. repeat first [assumption|constructor]. Qed.

  Lemma two_number d0 d1 f g a b : ordinal_bijection (ft_ord f) a -> ordinal_bijection (ft_ord g) b -> a + b <= usize_max ->
    (forall x i, ordinal (ft_ord f) x = Val i -> ordinal (derive_enum (two_decl d0 d1 f g)) (inl (x, tt)) = Val i) /\
    (forall y j, ordinal (ft_ord g) y = Val j -> ordinal (derive_enum (two_decl d0 d1 f g)) (inr (inl (y, tt))) = Val (a + j)).
  Proof.
    intros HA HB Hn. pose proof (two_size d0 d1 HA HB Hn) as Hs. pose proof (two_lawful d0 d1 HA HB) as Hl. split.
    - intros x i E. rewrite (@derive_enum_number _ (two_decl d0 d1 f g) _ _ _ [i] Hl Hs).
      + f_equal. unfold enum_position, sum_of. cbn -[N.add N.mul]. lia.
      + cbn. exists i, []. auto.
    - intros y j E. rewrite (@derive_enum_number _ (two_decl d0 d1 f g) _ _ _ [j] Hl Hs).
      + f_equal. unfold enum_position, sum_of. cbn -[N.add N.mul]. lia.
      + cbn. exists j, []. auto.
  Qed.

  Lemma result_same d0 d1 f g a b : ordinal_bijection (ft_ord f) a -> ordinal_bijection (ft_ord g) b -> a + b <= usize_max ->
    same_numbering (Ordinal_Result (ft_ord f) (ft_ord g)) (derive_enum (two_decl d0 d1 f g)) (result_as d0 d1 f g) (a + b).
  Proof.
    intros HA HB Hn. destruct (Result_law HA HB Hn) as (Hb & E0 & E1 & _).
    destruct (two_number d0 d1 HA HB Hn) as [F0 F1]. apply same_of_bijections; [exact Hb| |].
    - apply (enum_law _ (two_lawful d0 d1 HA HB) (two_size d0 d1 HA HB Hn)).
    - intros [x|y] i Ei; cbn [result_as].
      + destruct (bij_to HA x) as (j & Ej & _). rewrite (E0 _ _ Ej) in Ei. injection Ei as <-. apply F0, Ej.
      + destruct (bij_to HB y) as (j & Ej & _). rewrite (E1 _ _ Ej) in Ei. injection Ei as <-. apply F1, Ej.
  Qed.

  Lemma either_same d0 d1 f g a b : ordinal_bijection (ft_ord f) a -> ordinal_bijection (ft_ord g) b -> a + b <= usize_max ->
    same_numbering (Ordinal_Either (ft_ord f) (ft_ord g)) (derive_enum (two_decl d0 d1 f g)) (either_as d0 d1 f g) (a + b).
  Proof.
    intros HA HB Hn. destruct (Either_law HA HB Hn) as (Hb & E0 & E1 & _).
    destruct (two_number d0 d1 HA HB Hn) as [F0 F1]. apply same_of_bijections; [exact Hb| |].
    - apply (enum_law _ (two_lawful d0 d1 HA HB) (two_size d0 d1 HA HB Hn)).
    - intros [x|y] i Ei; cbn [either_as].
      + destruct (bij_to HA x) as (j & Ej & _). rewrite (E0 _ _ Ej) in Ei. injection Ei as <-. apply F0, Ej.
      + destruct (bij_to HB y) as (j & Ej & _). rewrite (E1 _ _ Ej) in Ei. injection Ei as <-. apply F1, Ej.
  Qed.

  Lemma unit_lawful ds : variants_lawful (variant_types (unit_decl ds)) (map (fun _ => []) ds).
  Proof. induction ds as [|d ds IH]; constructor; [constructor|exact IH]. Qed.

  Lemma unit_size ds : N.of_nat (List.length ds) <= usize_max ->
    ORDINAL_SIZE (derive_enum (unit_decl ds)) = Val (N.of_nat (List.length ds)).
  Proof.
    intros H. assert (E : sum_of (map product_of (map (fun _ : option Z => []) ds)) = N.of_nat (List.length ds)).
    { clear H. induction ds as [|d ds IH]; [reflexivity|]. cbn [map]. unfold sum_of in *. cbn [fold_right].
      rewrite IH. cbn -[N.add N.of_nat]. lia. }
    rewrite <- E. apply derive_enum_compiles.
    - clear. induction ds; constructor; [apply names_unit|assumption].
    - clear. induction ds; constructor; [constructor|assumption].
    - split; [|rewrite E; exact H]. clear. induction ds; constructor; [exact I|assumption].
  Qed.

  Lemma three_fit : 3 <= usize_max.
  Proof. unfold usize_max. destruct usize_width; vm_compute; discriminate. Qed.

  Lemma unit_number ds (e : enum_val (variant_types (unit_decl ds))) : N.of_nat (List.length ds) <= usize_max ->
    ordinal (derive_enum (unit_decl ds)) e = Val (N.of_nat (variant_index _ e)).
  Proof.
    intros H. assert (Hd : enum_digits (variant_types (unit_decl ds)) e []).
    { clear H. induction ds as [|d ds IH]; [destruct e|]. destruct e as [t|e]; [reflexivity|]. cbn. apply IH. }
    rewrite (derive_enum_number _ _ _ (unit_lawful ds) (unit_size H) Hd). f_equal. clear H Hd.
    induction ds as [|d ds IH]; [destruct e|]. destruct e as [t|e]; cbn [variant_index].
    - reflexivity.
    - unfold enum_position in *. change (variant_types (unit_decl (d :: ds))) with ([] :: variant_types (unit_decl ds)).
      cbn [variant_index map firstn nth]. unfold sum_of in *. cbn [fold_right]. rewrite <- N.add_assoc, IH. cbn -[N.add N.of_nat]. lia.
  Qed.

  Lemma bool_same d0 d1 : same_numbering Ordinal_bool (derive_enum (unit_decl [d0; d1])) (bool_as d0 d1) 2.
  Proof.
    pose proof three_fit. apply same_of_bijections; [apply bool_lawful| |].
    - apply (enum_law _ (unit_lawful [d0; d1])), (unit_size (ds := [d0; d1])). cbn. lia.
    - intros b i E. rewrite (unit_number (ds := [d0; d1])) by (cbn; lia).
      destruct b; cbn in *; exact E.
  Qed.

  Lemma ordering_same d0 d1 d2 :
    same_numbering Ordinal_Ordering (derive_enum (unit_decl [d0; d1; d2])) (ordering_as d0 d1 d2) 3.
  Proof.
    pose proof three_fit. apply same_of_bijections; [apply Ordering_lawful| |].
    - apply (enum_law _ (unit_lawful [d0; d1; d2])), (unit_size (ds := [d0; d1; d2])). cbn. lia.
    - intros c i E. rewrite (unit_number (ds := [d0; d1; d2])) by (cbn; lia).
      destruct c; cbn in *; exact E.
  Qed.

  Lemma infallible_same :
    same_numbering Ordinal_Infallible (derive_enum []) (fun e : Empty_set => match e with end) 0.
  Proof.
    apply same_of_bijections; [apply Infallible_lawful| |intros []].
    apply (enum_law _ (unit_lawful [])), (unit_size (ds := [])). cbn. lia.
  Qed.

  Lemma box_same f n : ordinal_bijection (ft_ord f) n ->
    same_numbering (Ordinal_Box (ft_ord f)) (derive_struct (FUnnamed [f])) (box_as f) n.
  Proof.
    intros H. assert (Hl : fields_lawful (field_types (FUnnamed [f])) [n]) by (repeat first [exact H|constructor]).
    assert (Hs : ORDINAL_SIZE (derive_struct (FUnnamed [f])) = Val n).
    { replace (Val n) with (Val (product_of [n])) by (unfold product_of; cbn [fold_right]; f_equal; lia). apply derive_struct_size; [apply names_one|exact Hl|].
      cbn [prefix_ok]. pose proof (bij_fits H). split; [lia|exact I]. }
    apply same_of_bijections; [apply Box_law, H|apply (struct_law _ Hl Hs)|].
    intros [a] i E. change (ordinal (Ordinal_Box (ft_ord f)) (Box a)) with (ordinal (ft_ord f) a) in E. cbn [box_as].
    rewrite (@derive_struct_number _ (FUnnamed [f]) _ _ (a, tt) [i] Hl Hs).
    - f_equal. cbn -[N.mul N.add]. lia.
    - cbn. exists i, []. auto.
  Qed.

  Lemma tuple_same tys ns n m : fields_lawful tys ns ->
    ORDINAL_SIZE (impl_ordinal_for_tuple_n tys) = Val n -> ORDINAL_SIZE (derive_struct (FUnnamed tys)) = Val m ->
    same_numbering (impl_ordinal_for_tuple_n tys) (derive_struct (FUnnamed tys)) (fun t => t) n.
  Proof.
    intros Hl Hn Hm. assert (m = n) as ->.
    { destruct (tuple_lawful Hl Hn) as [-> _]. destruct (@derive_struct_lawful _ (FUnnamed tys) _ _ Hl Hm) as [-> _]. reflexivity. }
    apply same_of_bijections; [apply (tuple_law Hl Hn)|apply (struct_law (FUnnamed tys) Hl Hm)|].
    intros t i E. destruct (digits_exist t Hl) as (ds & Hd & _).
    rewrite (@tuple_number _ _ _ _ _ _ Hl Hn Hd) in E. injection E as <-. exact (@derive_struct_number _ (FUnnamed tys) _ _ _ _ Hl Hm Hd).
  Qed.

  (** Both compile or neither does. *)
  Lemma tuple_struct_size tys ns : (List.length tys <= 26)%nat -> fields_lawful tys ns ->
    ORDINAL_SIZE (impl_ordinal_for_tuple_n tys) = ORDINAL_SIZE (derive_struct (FUnnamed tys)).
  Proof.
    intros H26 Hl. destruct (tuple_size H26 Hl) as [A1 A2].
    assert (Hn : names_ok (field_vars (FUnnamed tys))) by (split; [apply numbered_NoDup|apply numbered_not_rem]).
    destruct (@derive_struct_size _ (FUnnamed tys) _ Hn Hl) as [B1 B2].
    assert (D : forall acc, prefix_ok acc ns \/ ~ prefix_ok acc ns).
    { clear. induction ns as [|x ns IH]; intros acc; cbn [prefix_ok]; [auto|].
      destruct (IH (acc * x)); destruct (N.le_decidable (acc * x) usize_max); tauto. }
    destruct (D 1) as [Hp|Hp]; [rewrite A1, B1 by exact Hp|rewrite A2, B2 by exact Hp]; reflexivity.
  Qed.

  Lemma struct_names_same fs ns n m : fields_lawful (map snd fs) ns ->
    ORDINAL_SIZE (derive_struct (FNamed fs)) = Val n -> ORDINAL_SIZE (derive_struct (FUnnamed (map snd fs))) = Val m ->
    same_numbering (derive_struct (FNamed fs)) (derive_struct (FUnnamed (map snd fs))) (fun t => t) n.
  Proof.
    intros Hl Hn Hm. assert (m = n) as ->.
    { destruct (@derive_struct_lawful _ (FNamed fs) _ _ Hl Hn) as [-> _].
      destruct (@derive_struct_lawful _ (FUnnamed (map snd fs)) _ _ Hl Hm) as [-> _]. reflexivity. }
    apply same_of_bijections; [apply (@struct_law _ (FNamed fs) _ _ Hl Hn)|apply (@struct_law _ (FUnnamed (map snd fs)) _ _ Hl Hm)|].
    intros t i E. destruct (@digits_exist _ (map snd fs) _ t Hl) as (ds & Hd & _).
    rewrite (@derive_struct_number _ (FNamed fs) _ _ t ds Hl Hn Hd) in E. injection E as <-.
    exact (@derive_struct_number _ (FUnnamed (map snd fs)) _ _ t ds Hl Hm Hd).
  Qed.

  Lemma only_same d f ns n m : fields_lawful (field_types f) ns ->
    ORDINAL_SIZE (derive_struct f) = Val n -> ORDINAL_SIZE (derive_enum (only_decl d f)) = Val m ->
    same_numbering (derive_struct f) (derive_enum (only_decl d f)) (only_as d f) n.
  Proof.
    intros Hl Hn Hm. assert (Hv : variants_lawful (variant_types (only_decl d f)) [ns]) by (repeat first [exact Hl|constructor]).
    assert (m = n) as ->.
    { destruct (derive_struct_lawful _ Hl Hn) as [-> _]. destruct (derive_enum_lawful _ Hv Hm) as [-> _].
      cbn -[N.add]. lia. }
    apply same_of_bijections; [apply (struct_law _ Hl Hn)|apply (enum_law _ Hv Hm)|].
    intros t i E. destruct (digits_exist t Hl) as (ds & Hd & _).
    rewrite (@derive_struct_number _ f _ _ _ _ Hl Hn Hd) in E. injection E as <-.
    exact (@derive_enum_number _ (only_decl d f) _ _ (inl t) ds Hv Hm Hd).
  Qed.

  (** ** C68 *)
  Lemma extend_digits vs ws e ds : enum_digits (variant_types vs) e ds ->
    enum_digits (variant_types (vs ++ ws)) (extend vs ws e) ds /\
    variant_index (variant_types (vs ++ ws)) (extend vs ws e) = variant_index (variant_types vs) e.
  Proof.
    induction vs as [|v vs IH]; [destruct e|]. destruct e as [t|e]; intros H.
    - split; [exact H|reflexivity].
    - destruct (IH _ H) as [H1 H2]. split; [exact H1|]. cbn. f_equal. exact H2.
  Qed.

  Lemma enum_position_app nss mss k ds : (k < List.length nss)%nat ->
    enum_position (nss ++ mss) k ds = enum_position nss k ds.
  Proof.
    intros H. unfold enum_position. rewrite firstn_app, app_nth1 by exact H.
    replace (k - List.length nss)%nat with 0%nat by lia. cbn [firstn]. now rewrite app_nil_r.
  Qed.

  Lemma extend_law vs ws nss mss n m :
    variants_lawful (variant_types vs) nss -> variants_lawful (variant_types ws) mss ->
    ORDINAL_SIZE (derive_enum vs) = Val n -> ORDINAL_SIZE (derive_enum (vs ++ ws)) = Val m ->
    (forall e, ordinal (derive_enum (vs ++ ws)) (extend vs ws e) = ordinal (derive_enum vs) e) /\
    (forall i, i < n -> exists e, from_ordinal (derive_enum vs) i = Val (Some e) /\
       from_ordinal (derive_enum (vs ++ ws)) i = Val (Some (extend vs ws e))) /\
    (forall e i, ordinal (derive_enum (vs ++ ws)) e = Val i -> (i < n <-> exists e0, e = extend vs ws e0)) /\
    m = n + sum_of (map product_of mss).
  Proof.
    intros Hl1 Hl2 Hn Hm.
    assert (Hl : variants_lawful (variant_types (vs ++ ws)) (nss ++ mss)).
    { unfold variant_types. rewrite map_app. apply Forall2_app; assumption. }
    destruct (derive_enum_lawful _ Hl1 Hn) as [En [Bn _]]. destruct (derive_enum_lawful _ Hl Hm) as [Em [Bm _]].
    assert (HA : forall e, ordinal (derive_enum (vs ++ ws)) (extend vs ws e) = ordinal (derive_enum vs) e).
    { intros e. destruct (enum_digits_exist e Hl1) as (ds & Hd & _). destruct (extend_digits ws Hd) as [Hd' Hi].
      rewrite (@derive_enum_number _ vs _ _ _ _ Hl1 Hn Hd), (@derive_enum_number _ (vs ++ ws) _ _ _ _ Hl Hm Hd'), Hi. f_equal. apply enum_position_app.
      pose proof (variant_index_lt _ e) as L. now rewrite (Forall2_length Hl1) in L. }
    split; [exact HA|]. split; [|split].
    - intros i Hi. destruct (bij_from Bn Hi) as (e & E1 & E2). exists e. split; [exact E1|].
      destruct (bij_to Bm (extend vs ws e)) as (j & F1 & F2 & F3). rewrite HA, E2 in F1. injection F1 as <-. exact F3.
    - intros e i E. split.
      + intros Hi. destruct (bij_from Bn Hi) as (e0 & E1 & E2). exists e0.
        eapply bij_inj; [exact Bm|exact E|]. rewrite HA. exact E2.
      + intros [e0 ->]. rewrite HA in E. destruct (bij_to Bn e0) as (j & E1 & E2 & _). congruence.
    - rewrite Em, En, map_app, sum_of_app. reflexivity.
  Qed.
End Compat.
