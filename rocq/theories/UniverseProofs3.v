(** * UniverseProofs3: order, and the sizes of parts, of products and enums. *)
From Verif Require Import Base Spec SpecDerive SpecUniverse ModelOrdinal ModelArrayBuilder
  ModelDerive ModelUniverse BaseProofs OrdinalProofs ArrayProofs DeriveProofs DeriveProofs2
  DeriveProofs3 OrdinalProofs2 UniverseProofs UniverseProofs2.
From Coq Require Import List.
Import ListNotations.
Unset Strict Implicit.

Section Order.
  Context {cfg : Config}.

  Lemma radix_step d e P r s : r < P -> s < P -> (d * P + r < e * P + s <-> d < e \/ (d = e /\ r < s)).
  Proof. intros Hr Hs. split; intros H; [|nia]. destruct (N.lt_trichotomy d e) as [G|[G|G]]; nia. Qed.

  Lemma bij_same {T} (O : Ordinal T) n a b i j : ordinal_bijection O n ->
    ordinal O a = Val i -> ordinal O b = Val j -> (a = b <-> i = j).
  Proof.
    intros H Ha Hb. split; intros E; [congruence|].
    destruct (bij_to H a) as (i' & H1 & _ & H2), (bij_to H b) as (j' & H3 & _ & H4). congruence.
  Qed.

  Lemma tuple_mono fs ns : fields_lawful fs ns ->
    Forall (fun f => ordinal_monotone (ft_ord f) (ft_lt f)) fs ->
    forall (t u : tuple fs) ds es, tuple_digits fs t ds -> tuple_digits fs u es ->
    (tuple_lt fs t u <-> mixed_radix ns ds < mixed_radix ns es).
  Proof.
    intros H. induction H as [|f n fs ns Hf HF IH]; intros Hm t u ds es Ht Hu.
    - cbn. split; [intros []|lia].
    - inversion Hm as [|? ? Hm1 Hm2]; subst.
      destruct Ht as (d & ds' & -> & T1 & T2), Hu as (e & es' & -> & U1 & U2).
      cbn [tuple_lt mixed_radix].
      rewrite radix_step.
      + rewrite (Hm1 _ _ _ _ T1 U1), (bij_same Hf T1 U1), (IH Hm2 _ _ _ _ T2 U2). reflexivity.
      + apply mixed_radix_lt. exact (@digits_lt _ _ _ _ _ HF T2).
      + apply mixed_radix_lt. exact (@digits_lt _ _ _ _ _ HF U2).
  Qed.

  Lemma words_mono {T} (O : Ordinal T) lt n : ordinal_bijection O n -> ordinal_monotone O lt ->
    forall (x y : list T) ds es, length x = length y ->
    Forall2 (fun t d => ordinal O t = Val d) x ds -> Forall2 (fun t d => ordinal O t = Val d) y es ->
    (words_lt lt x y <-> mixed_radix (repeat n (length x)) ds < mixed_radix (repeat n (length y)) es).
  Proof.
    intros HO Hm x y ds es Hl Hx. revert y es Hl.
    assert (B : forall l cs, Forall2 (fun t d => ordinal O t = Val d) l cs ->
      mixed_radix (repeat n (length l)) cs < product_of (repeat n (length l))).
    { intros l cs H. apply mixed_radix_lt. induction H as [|t d l cs H1 H IH]; constructor; [|exact IH].
      destruct (bij_to HO t) as (i & H2 & H3 & _). congruence. }
    induction Hx as [|t d x ds H1 Hx IH]; intros [|u y] es Hl Hy; try discriminate Hl.
    - inversion Hy; subst. cbn. split; [intros []|lia].
    - inversion Hy as [|? e ? es' H2 Hy']; subst. cbn [words_lt length repeat mixed_radix].
      injection Hl as Hl. rewrite <- Hl at 1. rewrite radix_step.
      + rewrite (Hm _ _ _ _ H1 H2), (bij_same HO H1 H2), (IH y es' Hl Hy'). reflexivity.
      + apply B, Hx.
      + rewrite Hl. apply B, Hy'.
  Qed.

  Lemma discriminants_none {A} (l : list A) : forall z i, (i < length l)%nat ->
    nth i (discriminants z (map (fun _ => None) l)) 0%Z = (z + Z.of_nat i)%Z.
  Proof.
    induction l as [|a l IH]; intros z i Hi; cbn in Hi; [lia|].
    destruct i as [|i]; cbn [map discriminants nth]; [lia|]. rewrite IH by lia. lia.
  Qed.

  Lemma enum_mono vs nss : variants_lawful vs nss ->
    Forall (Forall (fun f => ordinal_monotone (ft_ord f) (ft_lt f))) vs ->
    forall (e f : enum_val vs) ds es, enum_digits vs e ds -> enum_digits vs f es ->
    ((variant_index vs e < variant_index vs f)%nat \/ same_variant_lt vs e f <->
     enum_position nss (variant_index vs e) ds < enum_position nss (variant_index vs f) es).
  Proof.
    intros H. induction H as [|v ns vs nss Hv H IH]; intros Hm e f ds es He Hf; [destruct e|].
    inversion Hm as [|? ? M1 M2]; subst.
    destruct e as [t|e], f as [u|f]; cbn [variant_index same_variant_lt enum_digits] in *;
      rewrite ?enum_position_S, ?enum_position_0.
    - rewrite <- (tuple_mono Hv M1 He Hf). split; [intros [G|G]; [lia|exact G]|auto].
    - pose proof (mixed_radix_lt (@digits_lt _ _ _ _ _ Hv He)). split; [lia|]. intros _. left. lia.
    - pose proof (mixed_radix_lt (@digits_lt _ _ _ _ _ Hv Hf)). split; [intros [G|G]; [lia|contradiction]|lia].
    - specialize (IH M2 _ _ _ _ He Hf). rewrite <- N.add_lt_mono_l, <- IH.
      split; (intros [G|G]; [left; lia|right; exact G]).
  Qed.
End Order.

(** ** Parts of a type whose size compiles *)
Section Parts.
  Context {cfg : Config}.

  Definition compiles (f : ftype) : Prop := exists n, ORDINAL_SIZE (ft_ord f) = Val n.

  Lemma tuple_parts tys n :
    ORDINAL_SIZE (impl_ordinal_for_tuple_n tys) = Val n -> Forall compiles tys.
  Proof.
    intros Hn. destruct (tuple_inv _ Hn) as (size & ord & block & P & E).
    rewrite E in Hn. destruct P as [P1 _ _ _].
    exact (size_form_parts _ _ _ _ _ (SV_inv _ _ _ P1 Hn)).
  Qed.

  Lemma struct_parts f n : ORDINAL_SIZE (derive_struct f) = Val n -> Forall compiles (field_types f).
  Proof.
    intros Hn. destruct (derive_struct_inv _ Hn) as (size & ord & block & P & E).
    rewrite E in Hn. destruct P as [P1 _ _ _].
    exact (size_form_parts _ _ _ _ _ (SV_inv _ _ _ P1 Hn)).
  Qed.

  Lemma enum_parts vs n : ORDINAL_SIZE (derive_enum vs) = Val n ->
    Forall (Forall compiles) (variant_types vs).
  Proof.
    intros Hn. destruct (derive_enum_inv _ Hn) as (s & size & arms & bs & H1 & H2 & H3 & _).
    pose proof (SV_inv _ _ _ H2 H3) as HSV.
    destruct (sum_inv _ _ _ _ (vform_no_sum vs) H1 HSV) as (ws & W1 & _).
    clear -W1. revert ws W1. induction vs as [|v vs IH]; intros ws W; [constructor|].
    inversion W as [|? w ? ws' W1 W2]; subst. constructor; [|exact (IH _ W2)].
    exact (size_form_parts _ _ _ _ _ W1).
  Qed.

  Definition known {T} (O : Ordinal T) : Prop :=
    (exists n, ORDINAL_SIZE O = Val n) \/ ORDINAL_SIZE O = NoCompile.

  Lemma product_known vars fs size ord block : product_pieces vars fs size ord block ->
    Forall size_known fs -> known (product_impl fs size ord block).
  Proof.
    intros [P1 _ _ _] H. unfold known. cbn [ORDINAL_SIZE product_impl]. unfold run_size.
    apply size_only_eval. eapply s_size_only_expr; [apply size_form_known, H|exact P1].
  Qed.

  Lemma tuple_known tys : Forall size_known tys -> known (tuple_impl tys).
  Proof.
    intros H. unfold tuple_impl. destruct (Nat.leb_spec (length tys) 16) as [L|L]; [|right; reflexivity].
    destruct (tuple_form tys (Nat.le_trans _ 16 26 L ltac:(lia))) as (size & ord & block & P & ->). exact (product_known P H).
  Qed.

  Lemma struct_known f : Forall size_known (field_types f) -> known (derive_struct f).
  Proof.
    intros H. pose proof (field_vars_length f) as Hl.
    destruct (pieces_exist _ _ Hl) as (size & ord & block & P).
    pose proof (product_known P H) as K. destruct P as [P1 (s & P2 & P3) P4 P5].
    unfold derive_struct, struct_size, struct_ord, struct_block.
    rewrite struct_ordinal_size_form, P2. cbn [bind]. rewrite P1, P3, P4.
    destruct (resolves block (field_vars f)); [exact K|right; reflexivity].
  Qed.

  Lemma enum_known vs : Forall (Forall size_known) (variant_types vs) -> known (derive_enum vs).
  Proof.
    intros Hs. unfold known, derive_enum, enum_size. rewrite first_variants_form, firstn_all.
    destruct (sum (map vform vs)) as [s| | | |] eqn:H1; cbn [bind]; try (right; reflexivity).
    destruct (expr s) as [size| | | |] eqn:H2; try (right; reflexivity).
    destruct (enum_arms vs 0 vs) as [arms| | | |]; try (right; reflexivity).
    destruct (enum_branches vs 0 vs) as [bs| | | |]; try (right; reflexivity).
    destruct (branches_resolve vs bs); try (right; reflexivity).
    cbn [ORDINAL_SIZE]. unfold run_size. apply size_only_eval.
    eapply s_size_only_expr; [|exact H2]. eapply sum_size_only; [|exact H1].
    clear -Hs. induction vs as [|v vs IH]; cbn; constructor; inversion Hs; subst.
    - apply size_form_known. assumption.
    - apply IH. assumption.
  Qed.

  (** *** The two forms of "every leading product fits" *)
  Lemma prefix_products ns : forall acc, acc <= usize_max ->
    (prefix_ok acc ns <-> forall k, acc * product_of (firstn k ns) <= usize_max).
  Proof.
    induction ns as [|n ns IH]; intros acc Ha; cbn [prefix_ok].
    - split; [|auto]. intros _ k. rewrite firstn_nil. cbn. lia.
    - split.
      + intros [H1 H2] [|k]; cbn [firstn]; [cbn; lia|]. rewrite product_of_cons.
        pose proof (proj1 (IH _ H1) H2 k). lia.
      + intros H. pose proof (H 1%nat) as H1. cbn in H1. assert (acc * n <= usize_max) by lia.
        split; [assumption|]. apply IH; [assumption|]. intros k.
        pose proof (H (S k)) as H2. cbn [firstn] in H2. rewrite product_of_cons in H2. lia.
  Qed.

  Lemma products_fit_prefix ns : products_fit ns <-> prefix_ok 1 ns.
  Proof.
    pose proof (@usize_max_ge cfg). rewrite prefix_products by lia.
    split; intros H1 k; specialize (H1 k); lia.
  Qed.

  Lemma products_fit_pos ns : Forall (fun n => n <> 0) ns -> product_of ns <= usize_max -> products_fit ns.
  Proof.
    intros H Hm. apply products_fit_prefix, prefix_ok_pos; [|lia].
    eapply Forall_impl; [|exact H]. cbn. lia.
  Qed.
End Parts.
