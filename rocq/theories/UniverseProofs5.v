(** * UniverseProofs5: arrays, tuples, structs, enums; the law for every type expression. *)
From Verif Require Import Base Spec SpecDerive SpecUniverse ModelOrdinal ModelArrayBuilder
  ModelDerive ModelUniverse BaseProofs OrdinalProofs ArrayProofs DeriveProofs DeriveProofs2
  DeriveProofs3 OrdinalProofs2 UniverseProofs UniverseProofs2 UniverseProofs3 UniverseProofs4.
From Coq Require Import List.
Import ListNotations.
Unset Strict Implicit.

Section Universe.
  Context {cfg : Config}.

  Lemma array_parts {T} (O : Ordinal T) len n : ORDINAL_SIZE (Ordinal_array O len) = Val n ->
    exists m, ORDINAL_SIZE O = Val m /\ n = m ^ N.of_nat len /\ n <= usize_max.
  Proof.
    cbn [ORDINAL_SIZE Ordinal_array]. destruct (ORDINAL_SIZE O) as [m| | | |]; try discriminate.
    cbn [bind]. intros H. apply size_loop_inv in H; [|pose proof usize_max_ge; lia].
    exists m. destruct H as [-> H]. rewrite N.mul_1_l in *. auto.
  Qed.

  Lemma bij_digits {T} (O : Ordinal T) n (l : list T) : ordinal_bijection O n ->
    exists ds, Forall2 (fun t d => ordinal O t = Val d) l ds.
  Proof.
    intros H. induction l as [|t l [ds IH]]; [eauto|].
    destruct (bij_to H t) as (d & Hd & _). exists (d :: ds). constructor; assumption.
  Qed.

  Lemma law_array t len : law t -> law (TArray t len).
  Proof.
    intros L. pose proof (fun n => @array_parts _ (impl_of t) len n) as S.
    change (forall n, ORDINAL_SIZE (impl_of (TArray t len)) = Val n ->
      exists m, ORDINAL_SIZE (impl_of t) = Val m /\ n = m ^ N.of_nat len /\ n <= usize_max) in S.
    split.
    - destruct (law_known L) as [[m E]|E].
      + pose proof (law_bij L E) as B.
        destruct (N.le_gt_cases (npow m len) usize_max) as [G|G].
        * left. eexists. exact (array_size len B G).
        * right. exact (array_size_over len B G).
      + right. change ((' size <- ORDINAL_SIZE (impl_of t);; array_size_loop size len 1) = NoCompile).
        rewrite E. reflexivity.
    - intros n Hn. destruct (S n Hn) as (m & H1 & -> & H2). exact (proj1 (array_law _ (law_bij L H1) H2)).
    - intros n Hn. destruct (S n Hn) as (m & H1 & -> & H2). cbn [card]. rewrite <- (law_card L H1). reflexivity.
    - intros n Hn. destruct (S n Hn) as (m & H1 & -> & H2). split; [|exact (law_fits L H1)].
      cbn [card]. rewrite <- (law_card L H1). exact H2.
    - intros n Hn _. destruct (S n Hn) as (m & H1 & -> & H2). exact (proj2 (array_law _ (law_bij L H1) H2)).
    - intros n Hn D a b i j Ha Hb. destruct (S n Hn) as (m & H1 & _ & H2). pose proof (law_bij L H1) as B.
      destruct (bij_digits (arr_list a) B) as (ds & Hds), (bij_digits (arr_list b) B) as (es & Hes).
      pose proof (val_eq Ha (@array_numbering _ _ _ _ _ _ _ _ B Hn Hds)) as ->.
      pose proof (val_eq Hb (@array_numbering _ _ _ _ _ _ _ _ B Hn Hes)) as ->.
      change (words_lt (lt_of t) (arr_list a) (arr_list b) <->
        mixed_radix (repeat m len) ds < mixed_radix (repeat m len) es).
      assert (La : length (arr_list a) = len) by apply arr_length.
      assert (Lb : length (arr_list b) = len) by apply arr_length.
      pose proof (words_mono B (@law_mono _ _ L _ H1 D) (eq_trans La (eq_sym Lb)) Hds Hes) as W.
      rewrite !arr_length in W. exact W.
    - intros A [F1 F2]. pose proof (law_size L A F2) as E.
      exact (array_size len (law_bij L E) F1).
  Qed.

  Lemma tuple_prefix tys ns n : fields_lawful tys ns ->
    ORDINAL_SIZE (impl_ordinal_for_tuple_n tys) = Val n -> prefix_ok 1 ns.
  Proof.
    intros H Hn. destruct (tuple_inv _ Hn) as (size & ord & block & P & E).
    rewrite E in Hn. destruct P as [P1 _ _ _].
    exact (proj1 (proj2 (run_size_inv (lawful_sizes H) P1 Hn))).
  Qed.

  Lemma struct_prefix f ns n : fields_lawful (field_types f) ns ->
    ORDINAL_SIZE (derive_struct f) = Val n -> prefix_ok 1 ns.
  Proof.
    intros H Hn. destruct (derive_struct_inv _ Hn) as (size & ord & block & P & E).
    rewrite E in Hn. destruct P as [P1 _ _ _].
    exact (proj1 (proj2 (run_size_inv (lawful_sizes H) P1 Hn))).
  Qed.

  Lemma law_tuple ts : Forall law ts -> law (TTuple ts).
  Proof.
    intros Ls.
    assert (S : forall n, ORDINAL_SIZE (impl_of (TTuple ts)) = Val n ->
      (length (map denote ts) <= 16)%nat /\ impl_of (TTuple ts) = impl_ordinal_for_tuple_n (map denote ts) /\
      fields_lawful (map denote ts) (map card ts) /\ Forall compiles (map denote ts) /\
      ORDINAL_SIZE (impl_ordinal_for_tuple_n (map denote ts)) = Val n).
    { intros n Hn. change (impl_of (TTuple ts)) with (tuple_impl (map denote ts)) in *.
      unfold tuple_impl in *. destruct (Nat.leb_spec (length (map denote ts)) 16) as [G|G]; [|discriminate Hn].
      pose proof (tuple_parts Hn) as C. split; [exact G|]. split; [reflexivity|].
      split; [exact (laws_fields Ls C)|]. split; [exact C|exact Hn]. }
    split.
    - apply tuple_known. rewrite Forall_map. eapply Forall_impl; [|exact Ls]. apply law_size_known.
    - intros n Hn. destruct (S n Hn) as (G & E & F & C & Hn'). rewrite E.
      exact (proj1 (proj2 (tuple_lawful F Hn'))).
    - intros n Hn. destruct (S n Hn) as (G & E & F & C & Hn').
      exact (proj1 (tuple_lawful F Hn')).
    - intros n Hn. destruct (S n Hn) as (G & E & F & C & Hn').
      destruct (tuple_lawful F Hn') as [Hc Hl]. cbn [fits]. split.
      { cbn [card]. rewrite <- Hc. exact (bij_fits (proj1 Hl)). }
      split; [rewrite all_map; exact (laws_fits Ls C)|].
      apply products_fit_prefix. exact (tuple_prefix F Hn').
    - intros n Hn _. destruct (S n Hn) as (G & E & F & C & Hn'). rewrite E.
      exact (proj2 (proj2 (tuple_lawful F Hn'))).
    - intros n Hn D a b i j Ha Hb. destruct (S n Hn) as (G & E & F & C & Hn').
      rewrite E in Ha, Hb. cbn [no_discriminants] in D. rewrite all_map in D.
      destruct (@digits_exist _ (map denote ts) _ a F) as (ds & Hds & _).
      destruct (@digits_exist _ (map denote ts) _ b F) as (es & Hes & _).
      pose proof (val_eq Ha (tuple_number _ _ F Hn' Hds)) as ->.
      pose proof (val_eq Hb (tuple_number _ _ F Hn' Hes)) as ->.
      exact (tuple_mono F (laws_mono Ls C D) Hds Hes).
    - intros [G A] (_ & F1 & F2). rewrite all_map in A, F1.
      change (impl_of (TTuple ts)) with (tuple_impl (map denote ts)). unfold tuple_impl.
      assert (G' : (length (map denote ts) <= 16)%nat) by (rewrite map_length; exact G).
      rewrite (proj2 (Nat.leb_le _ _) G').
      apply (tuple_size (Nat.le_trans _ 16 26 G' ltac:(lia)) (laws_fields Ls (laws_compile Ls A F1))). apply products_fit_prefix, F2.
  Qed.

  Lemma law_struct d : Forall law (decl_tys d) -> law (TStruct d).
  Proof.
    intros Ls. set (f := denote_decl denote d). pose proof (field_types_denote denote d) as T. fold f in T.
    assert (S : forall n, ORDINAL_SIZE (derive_struct f) = Val n ->
      Forall compiles (map denote (decl_tys d)) /\
      fields_lawful (field_types f) (map card (decl_tys d))).
    { intros n Hn. pose proof (struct_parts Hn) as C. rewrite T in C. split; [exact C|].
      rewrite T. exact (laws_fields Ls C). }
    split; change (impl_of (TStruct d)) with (derive_struct f) in *.
    - apply struct_known. rewrite T, Forall_map. eapply Forall_impl; [|exact Ls]. apply law_size_known.
    - intros n Hn. destruct (S n Hn) as (C & F). exact (proj1 (proj2 (derive_struct_lawful _ F Hn))).
    - intros n Hn. destruct (S n Hn) as (C & F). rewrite card_struct. exact (proj1 (derive_struct_lawful _ F Hn)).
    - intros n Hn. destruct (S n Hn) as (C & F).
      destruct (derive_struct_lawful _ F Hn) as [Hc Hl]. split.
      { rewrite card_struct, <- Hc. exact (bij_fits (proj1 Hl)). }
      rewrite all_decl, decl_list_map. split; [exact (laws_fits Ls C)|]. apply products_fit_prefix.
      exact (struct_prefix F Hn).
    - intros n Hn _. destruct (S n Hn) as (C & F). exact (proj2 (proj2 (derive_struct_lawful _ F Hn))).
    - intros n Hn D a b i j Ha Hb. destruct (S n Hn) as (C & F).
      cbn [no_discriminants] in D. rewrite all_decl in D.
      destruct (@digits_exist _ (field_types f) _ a F) as (ds & Hds & _).
      destruct (@digits_exist _ (field_types f) _ b F) as (es & Hes & _).
      pose proof (val_eq Ha (derive_struct_number _ _ _ F Hn Hds)) as ->.
      pose proof (val_eq Hb (derive_struct_number _ _ _ F Hn Hes)) as ->.
      refine (tuple_mono F _ Hds Hes). rewrite T. exact (laws_mono Ls C D).
    - intros [N A] (_ & F1 & F2). rewrite all_decl in A, F1. rewrite decl_list_map in F2.
      rewrite card_struct. refine (proj1 (derive_struct_size _ (names_vars denote N) _) _).
      + fold f. rewrite T. exact (laws_fields Ls (laws_compile Ls A F1)).
      + apply products_fit_prefix, F2.
  Qed.

  Lemma law_enum vs : Forall (fun v => Forall law (decl_tys (vd_fields v))) vs -> law (TEnum vs).
  Proof.
    intros Ls. set (V := map (denote_variant denote) vs).
    set (nss := map (fun v => map card (decl_tys (vd_fields v))) vs).
    pose proof (variant_types_denote denote vs) as T. fold V in T.
    assert (S : forall n, ORDINAL_SIZE (derive_enum V) = Val n ->
      Forall (fun v => Forall compiles (map denote (decl_tys (vd_fields v)))) vs /\
      variants_lawful (variant_types V) nss).
    { intros n Hn. pose proof (enum_parts Hn) as C. rewrite T, Forall_map in C. split; [exact C|].
      rewrite T. apply F2_map. rewrite Forall_forall in *. intros v Hv.
      exact (laws_fields (Ls v Hv) (C v Hv)). }
    assert (P : forall n, ORDINAL_SIZE (derive_enum V) = Val n -> variants_fit nss).
    { intros n Hn. destruct (S n Hn) as (C & F).
      destruct (derive_enum_inv _ Hn) as (s & size & arms & bs & H1 & H2 & H3 & _).
      exact (proj2 (enum_total_inv (lawful_vsizes _ F) H1 H2 H3)). }
    split; change (impl_of (TEnum vs)) with (derive_enum V) in *.
    - apply enum_known. rewrite T, Forall_map. eapply Forall_impl; [|exact Ls]. intros v H.
      rewrite Forall_map. eapply Forall_impl; [|exact H]. apply law_size_known.
    - intros n Hn. destruct (S n Hn) as (C & F). exact (proj1 (proj2 (derive_enum_lawful _ F Hn))).
    - intros n Hn. destruct (S n Hn) as (C & F). rewrite card_enum. exact (proj1 (derive_enum_lawful _ F Hn)).
    - intros n Hn. destruct (S n Hn) as (C & F). destruct (P n Hn) as [P1 P2].
      split; [rewrite card_enum; exact P2|]. rewrite all_map.
      unfold nss in P1. rewrite Forall_map in P1. rewrite Forall_forall in *.
      intros v Hv. specialize (P1 v Hv). specialize (C v Hv). specialize (Ls v Hv). destruct v as [z d].
      cbn [vd_fields] in *. rewrite all_decl, decl_list_map.
      split; [exact (laws_fits Ls C)|]. apply products_fit_prefix, P1.
    - intros n Hn _. destruct (S n Hn) as (C & F). exact (proj2 (proj2 (derive_enum_lawful _ F Hn))).
    - intros n Hn D a b i j Ha Hb. destruct (S n Hn) as (C & F).
      cbn [no_discriminants] in D. rewrite all_map in D.
      destruct (@enum_digits_exist _ (variant_types V) _ a F) as (ds & Hds & _).
      destruct (@enum_digits_exist _ (variant_types V) _ b F) as (es & Hes & _).
      pose proof (val_eq Ha (derive_enum_number _ _ _ F Hn Hds)) as ->.
      pose proof (val_eq Hb (derive_enum_number _ _ _ F Hn Hes)) as ->.
      change (lt_of (TEnum vs)) with (enum_lt (discriminants 0 (map vd_discriminant vs)) (variant_types V)).
      assert (E : map vd_discriminant vs = map (fun _ => None) vs).
      { apply map_ext_in. intros v Hv. rewrite Forall_forall in D. specialize (D v Hv). destruct v. apply D. }
      rewrite <- (enum_mono F).
      + unfold enum_lt. rewrite E.
        assert (Lt : length (variant_types V) = length vs).
        { rewrite T, map_length. reflexivity. }
        rewrite !discriminants_none by (rewrite <- Lt; apply variant_index_lt).
        split; (intros [G|G]; [left; lia|right; exact G]).
      + rewrite T, Forall_map. rewrite Forall_forall in *. intros v Hv.
        specialize (D v Hv). specialize (C v Hv). specialize (Ls v Hv). destruct v as [z d]. cbn [vd_fields] in *.
        destruct D as [_ D]. rewrite all_decl in D. exact (laws_mono Ls C D).
      + exact Hds.
      + exact Hes.
    - intros A (F1 & F2). cbn [accepted] in A. rewrite all_map in A, F2. rewrite card_enum.
      apply derive_enum_compiles.
      + unfold V. rewrite Forall_map. eapply Forall_impl; [|exact A]. intros [z d] [H _].
        exact (names_vars denote H).
      + apply lawful_vsizes. rewrite T. apply F2_map. rewrite Forall_forall in *. intros v Hv.
        specialize (A v Hv). specialize (F2 v Hv). specialize (Ls v Hv). destruct v as [z d]. cbn [vd_fields] in *.
        destruct A as [_ A], F2 as [F2 _]. rewrite all_decl in A, F2.
        exact (laws_fields Ls (laws_compile Ls A F2)).
      + split; [|rewrite card_enum in F1; exact F1]. rewrite Forall_map. eapply Forall_impl; [|exact F2].
        intros [z d] [_ H]. rewrite decl_list_map in H. apply products_fit_prefix, H.
  Qed.

  Theorem universe_law t : law t.
  Proof.
    induction t using ty_ind'.
    - apply law_prim.
    - apply law_box. assumption.
    - apply law_option. assumption.
    - apply law_result; assumption.
    - apply law_either; assumption.
    - apply law_array. assumption.
    - apply law_tuple. assumption.
    - apply law_struct. assumption.
    - apply law_enum. assumption.
  Qed.
End Universe.
