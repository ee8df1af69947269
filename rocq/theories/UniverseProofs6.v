(** * UniverseProofs6: which types compile; no collisions with overflow checks on. *)
From Verif Require Import Base Spec SpecDerive SpecUniverse ModelOrdinal ModelArrayBuilder
  ModelDerive ModelUniverse BaseProofs OrdinalProofs ArrayProofs DeriveProofs DeriveProofs2
  DeriveProofs3 OrdinalProofs2 UniverseProofs UniverseProofs2 UniverseProofs3 UniverseProofs4
  UniverseProofs5.
From Coq Require Import List.
Import ListNotations.
Unset Strict Implicit.

Section Sizes.
  Context {cfg : Config}.

  Lemma sum_part x ns : In x ns -> x <= sum_of ns.
  Proof.
    induction ns as [|n ns IH]; intros H; [destruct H|]. rewrite sum_of_cons.
    destruct H as [->|H]; [lia|]. specialize (IH H). lia.
  Qed.

  Lemma product_part x ns : Forall (fun n => n <> 0) ns -> In x ns -> x <= product_of ns.
  Proof.
    intros F. assert (P : forall l, Forall (fun n => n <> 0) l -> 0 < product_of l).
    { intros l Hl. apply product_pos. eapply Forall_impl; [|exact Hl]. cbn. lia. }
    induction F as [|n ns Hn F IH]; intros H; [destruct H|]. rewrite product_of_cons.
    pose proof (P _ F). destruct H as [->|H]; [nia|]. specialize (IH H). nia.
  Qed.

  Lemma product_fits ts : Forall (fun t => no_empty_parts t -> card t <= usize_max -> fits t) ts ->
    Forall (fun t => no_empty_parts t /\ card t <> 0) ts -> product_of (map card ts) <= usize_max ->
    Forall fits ts /\ products_fit (map card ts).
  Proof.
    intros IH H Hm.
    assert (Z : Forall (fun n => n <> 0) (map card ts)).
    { rewrite Forall_map. eapply Forall_impl; [|exact H]. cbn. tauto. }
    split; [|exact (products_fit_pos Z Hm)].
    rewrite Forall_forall in *. intros t Ht. apply (IH t Ht); [apply (H t Ht)|].
    eapply N.le_trans; [|exact Hm]. apply product_part; [rewrite Forall_forall; exact Z|apply in_map, Ht].
  Qed.

  Theorem fits_if_no_empty_parts t : no_empty_parts t -> card t <= usize_max -> fits t.
  Proof.
    induction t as [p|t IH|t IH|a b IHa IHb|a b IHa IHb|t len IH|ts IH|d IH|vs IH] using ty_ind';
      intros H Hm; cbn [fits]; (split; [exact Hm|]); cbn [no_empty_parts] in H.
    - exact I.
    - exact (IH H Hm).
    - apply (IH H). cbn [card] in Hm. lia.
    - cbn [card] in Hm. split; [apply IHa|apply IHb]; [tauto|lia|tauto|lia].
    - cbn [card] in Hm. split; [apply IHa|apply IHb]; [tauto|lia|tauto|lia].
    - destruct H as [H Hl]. apply (IH H). cbn [card] in Hm.
      destruct len as [|len]; [congruence|]. rewrite Nat2N.inj_succ, N.pow_succ_r' in Hm.
      destruct (N.eq_dec (card t) 0) as [E|E]; [lia|].
      pose proof (N.pow_nonzero _ (N.of_nat len) E). nia.
    - rewrite all_map in *. exact (product_fits IH H Hm).
    - rewrite card_struct in Hm. rewrite all_decl in *. rewrite decl_list_map. exact (product_fits IH H Hm).
    - rewrite card_enum, map_map in Hm. rewrite all_map in *. rewrite Forall_forall in *.
      intros v Hv. specialize (IH v Hv). specialize (H v Hv).
      assert (product_of (map card (decl_tys (vd_fields v))) <= usize_max) as Hp.
      { eapply N.le_trans; [|exact Hm]. apply sum_part.
        exact (in_map (fun v => product_of (map card (decl_tys (vd_fields v)))) _ _ Hv). }
      destruct v as [z d]. cbn [vd_fields] in *. rewrite all_decl in *. rewrite decl_list_map.
      exact (product_fits IH H Hp).
  Qed.

  (** C15, what holds. *)
  Lemma accepted_sizes t : accepted t -> (fits t <-> exists n, ORDINAL_SIZE (impl_of t) = Val n).
  Proof.
    intros A. split.
    - intros F. exists (card t). exact (law_size (universe_law t) A F).
    - intros [n Hn]. exact (law_fits (universe_law t) Hn).
  Qed.

  Lemma no_empty_parts_compiles t n : accepted t -> no_empty_parts t ->
    has_values (type_of t) n -> n <= usize_max -> ORDINAL_SIZE (impl_of t) = Val n.
  Proof.
    intros A E V Hn. rewrite (hv_unique V (values_card t)) in *.
    exact (law_size (universe_law t) A (fits_if_no_empty_parts E Hn)).
  Qed.

  (** C14 *)
  Lemma size_is_count t n : ORDINAL_SIZE (impl_of t) = Val n -> has_values (type_of t) n.
  Proof. intros H. rewrite (law_card (universe_law t) H). apply values_card. Qed.

  Lemma too_many_rejected t n : has_values (type_of t) n -> usize_max < n ->
    ORDINAL_SIZE (impl_of t) = NoCompile.
  Proof.
    intros V Hn. destruct (law_known (universe_law t)) as [[m H]|H]; [|exact H].
    pose proof (bij_fits (law_bij (universe_law t) H)).
    pose proof (hv_unique V (size_is_count H)). lia.
  Qed.

  Lemma size_dichotomy t : (exists n, ORDINAL_SIZE (impl_of t) = Val n) \/ ORDINAL_SIZE (impl_of t) = NoCompile.
  Proof. exact (law_known (universe_law t)). Qed.

  (** C17 *)
  Lemma composed_bijection t n : ORDINAL_SIZE (impl_of t) = Val n -> ordinal_bijection (impl_of t) n.
  Proof. exact (law_bij (universe_law t) (n := n)). Qed.

  (** C18 *)
  Lemma composed_rejects t n : ORDINAL_SIZE (impl_of t) = Val n ->
    exposes_char t = false \/ usize_width = W32 -> rejects_out_of_range (impl_of t) n.
  Proof. exact (law_rejects (universe_law t) (n := n)). Qed.

  (** C13 *)
  Lemma composed_monotone t n : ORDINAL_SIZE (impl_of t) = Val n ->
    no_discriminants t -> ordinal_monotone (impl_of t) (lt_of t).
  Proof. exact (@law_mono _ _ (universe_law t) n). Qed.
End Sizes.

(** ** C16 *)
Section Collide.
  Context {cfg : Config}.

  Lemma uadd_checked a b n : overflow_checks = true -> uadd a b = Val n -> n = a + b.
  Proof.
    intros C. destruct (N.le_gt_cases (a + b) usize_max) as [G|G].
    - rewrite (uadd_ok _ _ G). congruence.
    - unfold uadd, usize_rt. rewrite C.
      destruct ((0 <=? Z.of_N a + Z.of_N b) && (Z.of_N a + Z.of_N b <=? Z.of_N usize_max))%Z eqn:E; [|discriminate].
      apply andb_prop in E. destruct E as [_ E]. apply Z.leb_le in E. lia.
  Qed.

  Definition injective_ordinals {T} (O : Ordinal T) : Prop :=
    forall a b i, ordinal O a = Val i -> ordinal O b = Val i -> a = b.

  Lemma bij_injective {T} (O : Ordinal T) n : ordinal_bijection O n -> injective_ordinals O.
  Proof. intros H a b i Ha Hb. exact (proj2 (bij_same H Ha Hb) eq_refl). Qed.

  (** The size is read before anything else. *)
  Definition reads_size {T} (O : Ordinal T) : Prop :=
    forall t, ORDINAL_SIZE O = NoCompile -> ordinal O t = NoCompile.

  Lemma tuple_reads tys : reads_size (tuple_impl tys).
  Proof.
    intros t. unfold tuple_impl. destruct (Nat.leb_spec (length tys) 16) as [G|G]; [|reflexivity].
    destruct (tuple_form tys (Nat.le_trans _ 16 26 G ltac:(lia))) as (size & ord & block & _ & ->). cbn [ORDINAL_SIZE ordinal product_impl].
    intros ->. reflexivity.
  Qed.

  Lemma struct_reads f : reads_size (derive_struct f).
  Proof.
    intros t. unfold derive_struct.
    destruct (struct_size f) as [size| | | |]; try reflexivity.
    destruct (struct_ord f) as [ord| | | |]; try reflexivity.
    destruct (struct_block f) as [block| | | |]; try reflexivity.
    destruct (resolves block (field_vars f)); try reflexivity.
    cbn [ORDINAL_SIZE ordinal product_impl]. intros ->. reflexivity.
  Qed.

  Lemma enum_reads vs : reads_size (derive_enum vs).
  Proof.
    intros t. unfold derive_enum.
    destruct (enum_size vs) as [size| | | |]; try reflexivity.
    destruct (enum_arms vs 0 vs) as [arms| | | |]; try reflexivity.
    destruct (enum_branches vs 0 vs) as [bs| | | |]; try reflexivity.
    destruct (branches_resolve vs bs); try reflexivity.
    cbn [ORDINAL_SIZE ordinal]. intros ->. reflexivity.
  Qed.

  Lemma prim_reads p : reads_size (ft_ord (denote_prim p)).
  Proof.
    intros t H. destruct (prim_law p) as [(B & _)|(_ & _ & B)]; [|apply B].
    rewrite (bij_size B) in H. discriminate H.
  Qed.

  Lemma forced t : forces_size t = true -> reads_size (impl_of t).
  Proof.
    induction t as [p|t IH|t IH|a b IHa IHb|a b IHa IHb|t len IH|ts IH|d IH|vs IH] using ty_ind';
      intros F; try discriminate F.
    - apply prim_reads.
    - intros [v] H. exact (IH F v H).
    - apply tuple_reads.
    - apply struct_reads.
    - apply enum_reads.
  Qed.

  Lemma forced_rejected t n v : forces_size t = true -> has_values (type_of t) n -> usize_max < n ->
    ordinal (impl_of t) v = NoCompile.
  Proof. intros F V Hn. exact (forced F v (too_many_rejected V Hn)). Qed.

  Lemma forced_injective t : forces_size t = true -> injective_ordinals (impl_of t).
  Proof.
    intros F. destruct (law_known (universe_law t)) as [[n H]|H].
    - exact (bij_injective (law_bij (universe_law t) H)).
    - intros a b i Ha. rewrite (forced F a H) in Ha. discriminate Ha.
  Qed.

  Lemma array_loop_inv {T} (O : Ordinal T) n l : overflow_checks = true -> ordinal_bijection O n ->
    forall r x, array_ordinal_loop O n l r = Val x ->
    exists ds, Forall2 (fun t d => ordinal O t = Val d) l ds /\
      x = r * product_of (repeat n (length l)) + mixed_radix (repeat n (length l)) ds.
  Proof.
    intros C B. induction l as [|v l IH]; intros r x H; cbn [array_ordinal_loop] in H.
    - injection H as ->. exists []. split; [constructor|]. cbn. lia.
    - destruct (checked_mul r n) as [r1|] eqn:E1; [|discriminate H]. cbn [unwrap bind] in H.
      apply checked_mul_inv in E1. destruct E1 as [-> _].
      destruct (bij_to B v) as (i & Hi & _). rewrite Hi in H. cbn [bind] in H.
      destruct (uadd (r * n) i) as [r2| | | |] eqn:E2; try discriminate H. cbn [bind] in H.
      apply (uadd_checked C) in E2. subst r2. apply IH in H. destruct H as (ds & H1 & ->).
      exists (i :: ds). split; [constructor; assumption|].
      cbn [length repeat mixed_radix]. rewrite product_of_cons. lia.
  Qed.

  Lemma same_digits {T} (O : Ordinal T) n (l m : list T) ds : ordinal_bijection O n ->
    Forall2 (fun t d => ordinal O t = Val d) l ds -> Forall2 (fun t d => ordinal O t = Val d) m ds -> l = m.
  Proof.
    intros B Hl. revert m. induction Hl as [|x d l ds H1 Hl IH]; intros m Hm.
    - inversion Hm. reflexivity.
    - inversion Hm as [|y ? m' ? H2 H3]; subst. f_equal; [exact (bij_injective B H1 H2)|].
      exact (IH m' H3).
  Qed.

  Lemma checked_injective t : overflow_checks = true -> injective_ordinals (impl_of t).
  Proof.
    intros C.
    induction t as [p|t IH|t IH|a b IHa IHb|a b IHa IHb|t len IH|ts IH|d IH|vs IH] using ty_ind'.
    - apply forced_injective. reflexivity.
    - intros [a] [b] i Ha Hb. f_equal. exact (IH a b i Ha Hb).
    - assert (S : forall x i, ordinal (impl_of (TOption t)) (Some x) = Val i ->
        exists j, ordinal (impl_of t) x = Val j /\ i = j + 1).
      { intros x i H. change ((' i <- ordinal (impl_of t) x;; uadd i 1) = Val i) in H.
        destruct (ordinal (impl_of t) x) as [j| | | |]; try discriminate H. cbn [bind] in H.
        apply (uadd_checked C) in H. eauto. }
      assert (Z : forall i, ordinal (impl_of (TOption t)) None = Val i -> i = 0).
      { intros i H. change (Val 0 = Val i) in H. congruence. }
      intros [a|] [b|] i Ha Hb; try reflexivity.
      + apply S in Ha, Hb. destruct Ha as (j & Ha & ->), Hb as (k & Hb & E).
        assert (j = k) by lia. subst. f_equal. exact (IH _ _ _ Ha Hb).
      + apply S in Ha. apply Z in Hb. destruct Ha as (j & _ & ->). lia.
      + apply S in Hb. apply Z in Ha. destruct Hb as (j & _ & ->). lia.
    - intros u v i Hu Hv.
      change (ordinal (Ordinal_Result (impl_of a) (impl_of b)) u = Val i) in Hu.
      change (ordinal (Ordinal_Result (impl_of a) (impl_of b)) v = Val i) in Hv.
      cbn [ordinal Ordinal_Result] in Hu, Hv.
      destruct (ORDINAL_SIZE (impl_of a)) as [n| | | |] eqn:En; try discriminate Hu. cbn [bind] in Hu, Hv.
      pose proof (law_bij (universe_law a) En) as B.
      assert (S : forall y j, (' i <- ordinal (impl_of b) y;; uadd n i) = Val j ->
        exists k, ordinal (impl_of b) y = Val k /\ j = n + k).
      { intros y j H. destruct (ordinal (impl_of b) y) as [k| | | |]; try discriminate H. cbn [bind] in H.
        apply (uadd_checked C) in H. eauto. }
      assert (L : forall y j, ordinal (impl_of a) y = Val j -> j < n).
      { intros y j H. destruct (bij_to B y) as (k & K1 & K2 & _). congruence. }
      destruct u as [u|u], v as [v|v].
      + f_equal. exact (IHa _ _ _ Hu Hv).
      + apply S in Hv. apply L in Hu. destruct Hv as (k & _ & ->). lia.
      + apply S in Hu. apply L in Hv. destruct Hu as (k & _ & ->). lia.
      + apply S in Hu, Hv. destruct Hu as (k & Hu & ->), Hv as (k' & Hv & E).
        assert (k = k') by lia. subst. f_equal. exact (IHb _ _ _ Hu Hv).
    - intros u v i Hu Hv.
      change (ordinal (Ordinal_Either (impl_of a) (impl_of b)) u = Val i) in Hu.
      change (ordinal (Ordinal_Either (impl_of a) (impl_of b)) v = Val i) in Hv.
      cbn [ordinal Ordinal_Either] in Hu, Hv.
      destruct (ORDINAL_SIZE (impl_of a)) as [n| | | |] eqn:En; try discriminate Hu. cbn [bind] in Hu, Hv.
      pose proof (law_bij (universe_law a) En) as B.
      assert (S : forall y j, (' i <- ordinal (impl_of b) y;; uadd n i) = Val j ->
        exists k, ordinal (impl_of b) y = Val k /\ j = n + k).
      { intros y j H. destruct (ordinal (impl_of b) y) as [k| | | |]; try discriminate H. cbn [bind] in H.
        apply (uadd_checked C) in H. eauto. }
      assert (L : forall y j, ordinal (impl_of a) y = Val j -> j < n).
      { intros y j H. destruct (bij_to B y) as (k & K1 & K2 & _). congruence. }
      destruct u as [u|u], v as [v|v].
      + f_equal. exact (IHa _ _ _ Hu Hv).
      + apply S in Hv. apply L in Hu. destruct Hv as (k & _ & ->). lia.
      + apply S in Hu. apply L in Hv. destruct Hu as (k & _ & ->). lia.
      + apply S in Hu, Hv. destruct Hu as (k & Hu & ->), Hv as (k' & Hv & E).
        assert (k = k') by lia. subst. f_equal. exact (IHb _ _ _ Hu Hv).
    - intros u v i Hu Hv.
      change (ordinal (Ordinal_array (impl_of t) len) u = Val i) in Hu.
      change (ordinal (Ordinal_array (impl_of t) len) v = Val i) in Hv.
      cbn [ordinal Ordinal_array] in Hu, Hv.
      destruct (ORDINAL_SIZE (impl_of t)) as [n| | | |] eqn:En; try discriminate Hu. cbn [bind] in Hu, Hv.
      pose proof (law_bij (universe_law t) En) as B.
      apply (array_loop_inv C B) in Hu, Hv. destruct Hu as (ds & Hu & E1), Hv as (es & Hv & E2).
      rewrite arr_length in E1, E2. cbn [N.mul] in E1, E2.
      assert (D : forall (l : list (type_of t)) ds, Forall2 (fun x d => ordinal (impl_of t) x = Val d) l ds ->
        Forall2 N.lt ds (repeat n (length l))).
      { intros l cs H. induction H as [|x d l cs H1 H IHl]; constructor; [|exact IHl].
        destruct (bij_to B x) as (k & K1 & K2 & _). congruence. }
      pose proof (D _ _ Hu) as D1. pose proof (D _ _ Hv) as D2. rewrite arr_length in D1, D2.
      assert (ds = es) by (apply (mixed_radix_inj D1 D2); lia). subst es.
      apply arr_ext. exact (same_digits B Hu Hv).
    - apply forced_injective. reflexivity.
    - apply forced_injective. reflexivity.
    - apply forced_injective. reflexivity.
  Qed.
End Collide.
