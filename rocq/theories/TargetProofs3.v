(** * TargetProofs3: pointer-sized parts other than NonZeroIsize make no difference either. *)
From Coq Require Import String List.
From Verif Require Import Base Spec SpecDerive SpecUniverse ModelOrdinal ModelArrayBuilder
  ModelDerive ModelUniverse SpecTarget BaseProofs OrdinalProofs ArrayProofs DeriveProofs DeriveProofs2
  DeriveProofs3 OrdinalProofs2 UniverseProofs UniverseProofs2 UniverseProofs3 UniverseProofs4
  UniverseProofs5 UniverseProofs6 TargetProofs TargetProofs2.
Import ListNotations.
Set Implicit Arguments.
Unset Strict Implicit.

Definition alike (c d : Config) (t : ty) : Prop := @usize_width c = @usize_width d \/ no_isize t.

(** ** Sizes: equal, or those of NonZeroUsize *)
Section Sizes.
  Context (M M' : N) (HM : 2 <= M) (HM' : 2 <= M').

  Definition paired (x y : N) : Prop := x = y \/ x = M /\ y = M'.

  Lemma paired_mul x y p q : paired x y -> paired p q -> x * p <= M -> y * q <= M' -> paired (x * p) (y * q).
  Proof.
    intros H1 H2 F1 F2. unfold paired in *.
    destruct H1 as [H1|[H1 H1']], H2 as [H2|[H2 H2']]; subst; [left; reflexivity| | |nia].
    - assert (y = 0 \/ y = 1) as [-> | ->] by nia; [left; lia|right; lia].
    - assert (q = 0 \/ q = 1) as [-> | ->] by nia; [left; lia|right; lia].
  Qed.

  Lemma paired_add x y p q : paired x y -> paired p q -> x + p <= M -> y + q <= M' -> paired (x + p) (y + q).
  Proof. intros H1 H2 F1 F2. unfold paired in *. destruct H1, H2; lia. Qed.

  Lemma paired_product l k : Forall2 paired l k -> product_of l <= M -> product_of k <= M' ->
    paired (product_of l) (product_of k).
  Proof.
    induction 1 as [|x y l k H HF IH]; intros F1 F2; [left; reflexivity|].
    rewrite !product_of_cons in *.
    destruct (N.eq_dec x 0) as [Hx|Hx].
    { assert (y = 0) by (destruct H; lia). subst. left. lia. }
    assert (y <> 0) by (destruct H; lia).
    apply paired_mul; try assumption. apply IH; nia.
  Qed.

  Lemma paired_radix l k : Forall2 paired l k -> product_of l <= M -> product_of k <= M' ->
    forall ds, Forall2 N.lt ds l -> Forall2 N.lt ds k -> mixed_radix l ds = mixed_radix k ds.
  Proof.
    induction 1 as [|x y l k H HF IH]; intros F1 F2 ds D1 D2; [destruct ds; reflexivity|].
    rewrite !product_of_cons in *. inversion D1 as [|e ? ds' ? E1 D1']; subst.
    inversion D2 as [|? ? ? ? E2 D2']; subst. cbn [mixed_radix].
    assert (G1 : product_of l <= M) by nia. assert (G2 : product_of k <= M') by nia.
    rewrite (IH G1 G2 ds' D1' D2'). f_equal.
    destruct (paired_product HF G1 G2) as [->|[E E']]; [reflexivity|].
    rewrite E, E' in *. assert (e = 0) by nia. subst. reflexivity.
  Qed.

  Lemma product_le_sum x l : In x l -> x <= sum_of l.
  Proof. induction l as [|y l IH]; [intros []|]. intros [->|H]; rewrite sum_of_cons; [lia|]. specialize (IH H). lia. Qed.

  Lemma paired_sum nss mss : Forall2 (Forall2 paired) nss mss ->
    sum_of (map product_of nss) <= M -> sum_of (map product_of mss) <= M' ->
    paired (sum_of (map product_of nss)) (sum_of (map product_of mss)).
  Proof.
    induction 1 as [|l k nss mss H HF IH]; intros F1 F2; [left; reflexivity|].
    cbn [map] in *. rewrite !sum_of_cons in *.
    apply paired_add; try assumption; [apply paired_product; [exact H|lia|lia]|apply IH; lia].
  Qed.

  Lemma paired_position nss mss : Forall2 (Forall2 paired) nss mss ->
    sum_of (map product_of nss) <= M -> sum_of (map product_of mss) <= M' ->
    forall i ds, Forall2 N.lt ds (nth i nss []) -> Forall2 N.lt ds (nth i mss []) ->
    (i < length nss)%nat ->
    enum_position nss i ds = enum_position mss i ds.
  Proof.
    unfold enum_position. induction 1 as [|l k nss mss H HF IH]; intros F1 F2 i ds D1 D2 Hi; [cbn in Hi; lia|].
    cbn [map] in *. rewrite !sum_of_cons in *. destruct i as [|i]; cbn [firstn nth map] in *.
    - f_equal. apply paired_radix; try assumption; lia.
    - rewrite !sum_of_cons.
      assert (P : 0 < product_of (nth i nss [])).
      { apply product_pos. clear -D1. revert D1. generalize (nth i nss []). intros l D.
        induction D; constructor; [lia|assumption]. }
      assert (Q : In (product_of (nth i nss [])) (map product_of nss)).
      { apply in_map. apply nth_In. cbn in Hi. lia. }
      apply product_le_sum in Q.
      assert (G1 : sum_of (map product_of nss) <= M) by lia. assert (G2 : sum_of (map product_of mss) <= M') by lia.
      assert (Hi' : (i < length nss)%nat) by (cbn in Hi; lia).
      specialize (IH G1 G2 i ds D1 D2 Hi').
      destruct (paired_product H) as [->|[E E']]; lia.
  Qed.
End Sizes.

(** ** Parts *)
Section Parts.
  Context (c d : Config).

  Lemma alike_result a b : alike c d (TResult a b) -> alike c d a /\ alike c d b.
  Proof. intros [H|[H1 H2]]; unfold alike; auto. Qed.
  Lemma alike_either a b : alike c d (TEither a b) -> alike c d a /\ alike c d b.
  Proof. intros [H|[H1 H2]]; unfold alike; auto. Qed.
  Lemma alike_all l : @usize_width c = @usize_width d \/ Forall no_isize l -> Forall (alike c d) l.
  Proof.
    intros [H|H]; [apply Forall_forall; intros; left; exact H|]. eapply Forall_impl; [|exact H].
    intros t Ht. right. exact Ht.
  Qed.
  Lemma alike_tuple ts : alike c d (TTuple ts) -> Forall (alike c d) ts.
  Proof. intros [H|H]; apply alike_all; [left; exact H|right; apply all_map; exact H]. Qed.
  Lemma alike_struct s : alike c d (TStruct s) -> Forall (alike c d) (decl_tys s).
  Proof. intros [H|H]; apply alike_all; [left; exact H|right; apply all_decl; exact H]. Qed.
  Lemma alike_enum vs : alike c d (TEnum vs) ->
    Forall (fun v => Forall (alike c d) (decl_tys (vd_fields v))) vs.
  Proof.
    intros [H|H]; [apply Forall_forall; intros v _; apply alike_all; left; exact H|].
    cbn [no_isize] in H. apply all_map in H. eapply Forall_impl; [|exact H].
    intros [z s] Hs. apply alike_all. right. apply all_decl. exact Hs.
  Qed.

  Definition pair : N -> N -> Prop := paired (@usize_max c) (@usize_max d).

  Lemma max_c : 2 <= @usize_max c. Proof. pose proof (@usize_max_ge c). lia. Qed.
  Lemma max_d : 2 <= @usize_max d. Proof. pose proof (@usize_max_ge d). lia. Qed.

  Lemma sized_bound e t : sized e t -> @card e t <= @usize_max e.
  Proof.
    intros [n Hn]. rewrite <- (law_card (@universe_law e t) Hn). exact (bij_fits (law_bij (@universe_law e t) Hn)).
  Qed.

  Lemma prim_pair p : pair (@prim_card c p) (@prim_card d p).
  Proof. destruct p; try (left; reflexivity); right; split; reflexivity. Qed.

  Lemma cards_pair l : Forall (fun t => pair (@card c t) (@card d t)) l ->
    Forall2 pair (map (@card c) l) (map (@card d) l).
  Proof. intros H. apply F2_map. exact H. Qed.

  Lemma card_pair t : sized c t -> sized d t -> pair (@card c t) (@card d t).
  Proof.
    pose proof max_c as HM. pose proof max_d as HM'.
    revert t. intros t.
    induction t as [p|t IH|t IH|a b IHa IHb|a b IHa IHb|t len IH|ts IH|s IH|vs IH] using ty_ind'; intros S1 S2.
    - apply prim_pair.
    - exact (IH S1 S2).
    - destruct (sized_option S1) as [T1 F1]. destruct (sized_option S2) as [T2 F2].
      destruct (IH T1 T2) as [H|H]; [left; cbn; rewrite H; reflexivity|lia].
    - destruct (sized_sum S1) as (A1 & B1 & _ & F1). destruct (sized_sum S2) as (A2 & B2 & _ & F2).
      cbn [card]. apply paired_add; [exact HM|exact HM'|exact (IHa A1 A2)|exact (IHb B1 B2)|exact F1|exact F2].
    - destruct (sized_sum S1) as (A1 & B1 & _ & F1). destruct (sized_sum S2) as (A2 & B2 & _ & F2).
      cbn [card]. apply paired_add; [exact HM|exact HM'|exact (IHa A1 A2)|exact (IHb B1 B2)|exact F1|exact F2].
    - pose proof (sized_bound S1) as F1. pose proof (sized_bound S2) as F2. cbn [card] in *.
      destruct S1 as [n1 N1], S2 as [n2 N2].
      destruct (@array_parts c _ (@impl_of c t) len n1 N1) as (m1 & M1 & _).
      destruct (@array_parts d _ (@impl_of d t) len n2 N2) as (m2 & M2 & _).
      pose proof (IH (ex_intro _ _ M1) (ex_intro _ _ M2)) as R.
      rewrite <- !product_of_repeat in *. apply paired_product; try assumption.
      clear -R. induction len; cbn; constructor; assumption.
    - pose proof (sized_bound S1) as F1. pose proof (sized_bound S2) as F2. cbn [card] in *.
      destruct S1 as [n1 N1], S2 as [n2 N2].
      destruct (sized_fields N1) as (Z1 & _). destruct (sized_fields N2) as (Z2 & _).
      apply paired_product; try assumption. apply cards_pair. exact (forall_apply (forall_apply IH Z1) Z2).
    - pose proof (sized_bound S1) as F1. pose proof (sized_bound S2) as F2. cbn [card] in *.
      rewrite !decl_list_map in *. destruct S1 as [n1 N1], S2 as [n2 N2].
      destruct (sized_decl N1) as (Z1 & _). destruct (sized_decl N2) as (Z2 & _).
      apply paired_product; try assumption. apply cards_pair. exact (forall_apply (forall_apply IH Z1) Z2).
    - pose proof (sized_bound S1) as F1. pose proof (sized_bound S2) as F2.
      destruct S1 as [n1 N1], S2 as [n2 N2].
      destruct (sized_variants N1) as (Z1 & _). destruct (sized_variants N2) as (Z2 & _).
      rewrite !card_enum in *.
      apply paired_sum; try assumption. apply F2_map. rewrite Forall_forall in *. intros v Hv.
      apply cards_pair. exact (forall_apply (forall_apply (IH v Hv) (Z1 v Hv)) (Z2 v Hv)).
  Qed.
End Parts.

(** ** The ordinals *)
Section Number.
  Context (c d : Config).

  Lemma nonzero_usize_number (e : Config) (v : @NonZeroUsize e) :
    ordinal (@Ordinal_NonZeroUsize e) v = Val (Z.to_N (int_val (nz_get v)) - 1).
  Proof.
    destruct v as [[z Hz] H0]. cbn in *. apply andb_prop in Hz. destruct Hz as [Z1 Z2].
    apply Z.leb_le in Z1, Z2. apply Bool.negb_true_iff, Z.eqb_neq in H0.
    assert (E : as_usize z = Z.to_N z).
    { unfold as_usize. rewrite Z.mod_small; [reflexivity|]. lia. }
    rewrite E. apply usub_ok; lia.
  Qed.

  Lemma prim_num_all p : alike c d (TPrim p) -> sized c (TPrim p) -> sized d (TPrim p) -> num c d (TPrim p).
  Proof.
    intros G S1 S2. destruct (Bool.bool_dec (match p with PNonZeroUsize => true | _ => false end) true) as [E|E].
    - destruct p; try discriminate E. intros v w S. eexists. split; [apply nonzero_usize_number|].
      etransitivity; [apply nonzero_usize_number|]. do 3 f_equal. symmetry. exact S.
    - intros v w S. refine (prim_num _ S1 S2 S). destruct G as [G|G]; [left; exact G|]. right.
      destruct p; try exact I; [contradiction E; reflexivity|destruct G].
  Qed.

  Lemma enum_digits_det vs (e : enum_val vs) ds es : enum_digits vs e ds -> enum_digits vs e es -> ds = es.
  Proof.
    clear c d. induction vs as [|v vs IH]; [destruct e|]. destruct e as [t|e]; cbn; intros H1 H2.
    - exact (@digits_unique _ _ _ _ H1 H2).
    - exact (IH e H1 H2).
  Qed.

  Lemma digits_repeat (e : Config) {T} (O : Ordinal T) n l ds len : @ordinal_bijection e T O n ->
    Forall2 (fun x i => ordinal O x = Val i) l ds -> length l = len -> Forall2 N.lt ds (repeat n len).
  Proof.
    intros B D <-. induction D as [|x i l ds E _ IH]; cbn; constructor; [exact (bij_lt _ B E)|exact IH].
  Qed.

  Lemma cards_sized l : Forall (sized c) l -> Forall (sized d) l ->
    Forall (fun t => pair c d (@card c t) (@card d t)) l.
  Proof. rewrite !Forall_forall. intros H1 H2 t Ht. exact (card_pair (H1 t Ht) (H2 t Ht)). Qed.

  Lemma num_law t : alike c d t -> sized c t -> sized d t -> num c d t.
  Proof.
    induction t as [p|t IH|t IH|a b IHa IHb|a b IHa IHb|t len IH|ts IH|s IH|vs IH] using ty_ind';
      intros G S1 S2 v w S.
    - exact (prim_num_all G S1 S2 S).
    - exact (IH G S1 S2 _ _ S).
    - destruct (sized_option S1) as [T1 F1]. destruct (sized_option S2) as [T2 F2].
      destruct v as [v|], w as [w|]; try destruct S; [|exists 0; split; reflexivity].
      destruct (IH G T1 T2 _ _ S) as (i & E1 & E2). exists (i + 1).
      pose proof (bij_lt _ (law_bij' (@universe_law c t) T1) E1) as B1.
      pose proof (bij_lt _ (law_bij' (@universe_law d t) T2) E2) as B2.
      split.
      + change ((' i <- ordinal (@impl_of c t) v;; @uadd c i 1) = Val (i + 1)). rewrite E1. cbn [bind]. apply uadd_ok. lia.
      + change ((' i <- ordinal (@impl_of d t) w;; @uadd d i 1) = Val (i + 1)). rewrite E2. cbn [bind]. apply uadd_ok. lia.
    - destruct (alike_result G) as [Ga Gb].
      destruct (sized_sum S1) as (A1 & B1 & Z1 & F1). destruct (sized_sum S2) as (A2 & B2 & Z2 & F2).
      destruct v as [v|v], w as [w|w]; try (destruct S; fail).
      + destruct (IHa Ga A1 A2 _ _ S) as (i & E1 & E2). exists i. split.
        * change ((' x <- ORDINAL_SIZE (@impl_of c a);; ordinal (@impl_of c a) v) = Val i). rewrite Z1. exact E1.
        * change ((' x <- ORDINAL_SIZE (@impl_of d a);; ordinal (@impl_of d a) w) = Val i). rewrite Z2. exact E2.
      + destruct (IHb Gb B1 B2 _ _ S) as (i & E1 & E2). exists (@card c a + i).
        pose proof (bij_lt _ (law_bij' (@universe_law c b) B1) E1) as L1.
        pose proof (bij_lt _ (law_bij' (@universe_law d b) B2) E2) as L2.
        assert (Ea : @card c a = @card d a) by (destruct (card_pair A1 A2) as [H|H]; lia).
        split.
        * change ((' x <- ORDINAL_SIZE (@impl_of c a);; ' i <- ordinal (@impl_of c b) v;; @uadd c x i) = Val (@card c a + i)).
          rewrite Z1, E1. cbn [bind]. apply uadd_ok. lia.
        * change ((' x <- ORDINAL_SIZE (@impl_of d a);; ' i <- ordinal (@impl_of d b) w;; @uadd d x i) = Val (@card c a + i)).
          rewrite Z2, E2, Ea. cbn [bind]. apply uadd_ok. lia.
    - destruct (alike_either G) as [Ga Gb].
      destruct (sized_sum S1) as (A1 & B1 & Z1 & F1). destruct (sized_sum S2) as (A2 & B2 & Z2 & F2).
      destruct v as [v|v], w as [w|w]; try (destruct S; fail).
      + destruct (IHa Ga A1 A2 _ _ S) as (i & E1 & E2). exists i. split.
        * change ((' x <- ORDINAL_SIZE (@impl_of c a);; ordinal (@impl_of c a) v) = Val i). rewrite Z1. exact E1.
        * change ((' x <- ORDINAL_SIZE (@impl_of d a);; ordinal (@impl_of d a) w) = Val i). rewrite Z2. exact E2.
      + destruct (IHb Gb B1 B2 _ _ S) as (i & E1 & E2). exists (@card c a + i).
        pose proof (bij_lt _ (law_bij' (@universe_law c b) B1) E1) as L1.
        pose proof (bij_lt _ (law_bij' (@universe_law d b) B2) E2) as L2.
        assert (Ea : @card c a = @card d a) by (destruct (card_pair A1 A2) as [H|H]; lia).
        split.
        * change ((' x <- ORDINAL_SIZE (@impl_of c a);; ' i <- ordinal (@impl_of c b) v;; @uadd c x i) = Val (@card c a + i)).
          rewrite Z1, E1. cbn [bind]. apply uadd_ok. lia.
        * change ((' x <- ORDINAL_SIZE (@impl_of d a);; ' i <- ordinal (@impl_of d b) w;; @uadd d x i) = Val (@card c a + i)).
          rewrite Z2, E2, Ea. cbn [bind]. apply uadd_ok. lia.
    - pose proof (sized_bound S1) as F1. pose proof (sized_bound S2) as F2. cbn [card] in F1, F2.
      rewrite <- !product_of_repeat in F1, F2.
      destruct S1 as [n1 N1], S2 as [n2 N2].
      destruct (@array_parts c _ (@impl_of c t) len n1 N1) as (m1 & M1 & _).
      destruct (@array_parts d _ (@impl_of d t) len n2 N2) as (m2 & M2 & _).
      pose proof (law_bij (@universe_law c t) M1) as B1. pose proof (law_bij (@universe_law d t) M2) as B2.
      pose proof (law_card (@universe_law c t) M1) as C1. pose proof (law_card (@universe_law d t) M2) as C2.
      pose proof (@card_pair c d t (ex_intro _ _ M1) (ex_intro _ _ M2)) as P.
      pose proof (IH G (ex_intro _ _ M1) (ex_intro _ _ M2)) as R.
      rewrite <- C1, <- C2 in *.
      assert (D : exists ds, Forall2 (fun x i => ordinal (@impl_of c t) x = Val i) (arr_list v) ds /\
                             Forall2 (fun x i => ordinal (@impl_of d t) x = Val i) (arr_list w) ds).
      { change (Forall2 (same c d t) (arr_list v) (arr_list w)) in S. clear N1 N2.
        induction S as [|x y l l' H _ (ds & D1 & D2)]; [exists []; split; constructor|].
        destruct (R _ _ H) as (i & E1 & E2). exists (i :: ds). split; constructor; assumption. }
      destruct D as (ds & D1 & D2). exists (mixed_radix (repeat m1 len) ds). split.
      + exact (@array_numbering c _ (@impl_of c t) m1 len n1 v ds B1 N1 D1).
      + rewrite (@paired_radix (@usize_max c) (@usize_max d) (@max_c c) (@max_d d) _ (repeat m2 len)).
        * exact (@array_numbering d _ (@impl_of d t) m2 len n2 w ds B2 N2 D2).
        * clear -P. induction len; cbn; constructor; assumption.
        * exact F1.
        * exact F2.
        * exact (digits_repeat B1 D1 (arr_length v)).
        * exact (digits_repeat B2 D2 (arr_length w)).
    - pose proof (sized_bound S1) as W1. pose proof (sized_bound S2) as W2. cbn [card] in W1, W2.
      destruct S1 as [n1 N1], S2 as [n2 N2].
      destruct (sized_fields N1) as (Z1 & F1 & N1' & E1). destruct (sized_fields N2) as (Z2 & F2 & N2' & E2).
      pose proof (alike_tuple G) as Gs.
      assert (R : Forall (num c d) ts) by exact (forall_apply (forall_apply (forall_apply IH Gs) Z1) Z2).
      destruct (same_fields_digits R S) as (ds & D1 & D2).
      exists (mixed_radix (map (@card c) ts) ds). rewrite E1, E2. split.
      + exact (tuple_number _ _ F1 N1' D1).
      + rewrite (@paired_radix (@usize_max c) (@usize_max d) (@max_c c) (@max_d d) _ (map (@card d) ts)).
        * exact (tuple_number _ _ F2 N2' D2).
        * apply cards_pair. exact (cards_sized Z1 Z2).
        * exact W1.
        * exact W2.
        * exact (digits_lt _ _ F1 D1).
        * exact (digits_lt _ _ F2 D2).
    - pose proof (sized_bound S1) as W1. pose proof (sized_bound S2) as W2. cbn [card] in W1, W2.
      rewrite decl_list_map in W1, W2. destruct S1 as [n1 N1], S2 as [n2 N2].
      destruct (sized_decl N1) as (Z1 & F1). destruct (sized_decl N2) as (Z2 & F2).
      pose proof (alike_struct G) as Gs.
      assert (R : Forall (num c d) (decl_tys s)) by exact (forall_apply (forall_apply (forall_apply IH Gs) Z1) Z2).
      destruct (same_decl_digits R S) as (ds & D1 & D2).
      exists (mixed_radix (map (@card c) (decl_tys s)) ds). split.
      + exact (derive_struct_number _ _ _ F1 N1 D1).
      + rewrite (@paired_radix (@usize_max c) (@usize_max d) (@max_c c) (@max_d d) _ (map (@card d) (decl_tys s))).
        * exact (derive_struct_number _ _ _ F2 N2 D2).
        * apply cards_pair. exact (cards_sized Z1 Z2).
        * exact W1.
        * exact W2.
        * exact (digits_lt _ _ F1 D1).
        * exact (digits_lt _ _ F2 D2).
    - pose proof (sized_bound S1) as W1. pose proof (sized_bound S2) as W2. rewrite card_enum in W1. rewrite card_enum in W2.
      destruct S1 as [n1 N1], S2 as [n2 N2].
      destruct (sized_variants N1) as (Z1 & F1). destruct (sized_variants N2) as (Z2 & F2).
      pose proof (alike_enum G) as Gs.
      assert (R : Forall (fun v => Forall (num c d) (decl_tys (vd_fields v))) vs).
      { rewrite Forall_forall in *. intros x Hx.
        exact (forall_apply (forall_apply (forall_apply (IH x Hx) (Gs x Hx)) (Z1 x Hx)) (Z2 x Hx)). }
      destruct (same_variant_digits R S) as (Ei & ds & D1 & D2).
      destruct (enum_digits_exist v F1) as (ds1 & X1 & Y1). destruct (enum_digits_exist w F2) as (ds2 & X2 & Y2).
      rewrite <- (enum_digits_det D1 X1) in Y1. rewrite <- (enum_digits_det D2 X2) in Y2.
      eexists. split; [exact (derive_enum_number _ _ _ F1 N1 D1)|].
      rewrite Ei. rewrite (@paired_position (@usize_max c) (@usize_max d) (@max_c c) (@max_d d) _
        (map (fun v => map (@card d) (decl_tys (vd_fields v))) vs)).
      + exact (derive_enum_number _ _ _ F2 N2 D2).
      + apply F2_map. rewrite Forall_forall in *. intros x Hx. apply cards_pair. exact (cards_sized (Z1 x Hx) (Z2 x Hx)).
      + exact W1.
      + exact W2.
      + rewrite <- Ei. exact Y1.
      + exact Y2.
      + rewrite map_length. rewrite <- Ei. pose proof (@variant_index_lt (variant_types (map (denote_variant (@denote c)) vs)) v) as L.
        assert (E : length (variant_types (map (denote_variant (@denote c)) vs)) = length vs)
          by (rewrite variant_types_denote; apply map_length).
        rewrite E in L. exact L.
  Qed.
End Number.

(** ** What follows *)
Section Consequences.
  Context (c d : Config) (t : ty) (n m : N).
  Context (Hn : ORDINAL_SIZE (@impl_of c t) = Val n) (Hm : ORDINAL_SIZE (@impl_of d t) = Val m).

  Lemma target_size_pair : n = m \/ n = @usize_max c /\ m = @usize_max d.
  Proof.
    rewrite (law_card (@universe_law c t) Hn), (law_card (@universe_law d t) Hm).
    exact (card_pair (ex_intro _ _ Hn) (ex_intro _ _ Hm)).
  Qed.

  Lemma target_size : same_here c d t -> n = m.
  Proof.
    intros G. rewrite (law_card (@universe_law c t) Hn), (law_card (@universe_law d t) Hm). exact (same_card G).
  Qed.

  Lemma target_ordinal v w : alike c d t -> same_value c d t v w ->
    exists i, i < n /\ i < m /\ ordinal (@impl_of c t) v = Val i /\ ordinal (@impl_of d t) w = Val i.
  Proof.
    intros G S. destruct (@num_law c d t G (ex_intro _ _ Hn) (ex_intro _ _ Hm) v w S) as (i & E1 & E2).
    exists i. split; [exact (bij_lt _ (law_bij (@universe_law c t) Hn) E1)|].
    split; [exact (bij_lt _ (law_bij (@universe_law d t) Hm) E2)|]. split; assumption.
  Qed.

  Lemma target_ordinal_iff v w : alike c d t -> (same_value c d t v w <->
    exists i, ordinal (@impl_of c t) v = Val i /\ ordinal (@impl_of d t) w = Val i).
  Proof.
    intros G. split.
    - intros S. destruct (target_ordinal G S) as (i & _ & _ & H). exists i. exact H.
    - intros (i & E1 & E2). destruct (N.le_ge_cases (@usize_max c) (@usize_max d)) as [W|W].
      + destruct (@same_total c d t (or_introl W) v) as (w' & S).
        destruct (target_ordinal G S) as (j & _ & _ & F1 & F2). assert (i = j) by congruence. subst j.
        rewrite (bij_inj _ _ (law_bij (@universe_law d t) Hm) E2 F2). exact S.
      + destruct (@same_total d c t (or_introl W) w) as (v' & S). apply same_sym in S.
        destruct (target_ordinal G S) as (j & _ & _ & F1 & F2). assert (i = j) by congruence. subst j.
        rewrite (bij_inj _ _ (law_bij (@universe_law c t) Hn) E1 F1). exact S.
  Qed.

  Lemma target_decode i : alike c d t -> i < n -> i < m ->
    exists v w, from_ordinal (@impl_of c t) i = Val (Some v) /\ from_ordinal (@impl_of d t) i = Val (Some w) /\
      same_value c d t v w.
  Proof.
    intros G Hi Hi'. destruct (bij_from (law_bij (@universe_law c t) Hn) Hi) as (v & Hv & Ev).
    destruct (bij_from (law_bij (@universe_law d t) Hm) Hi') as (w & Hw & Ew).
    exists v, w. split; [exact Hv|]. split; [exact Hw|]. apply target_ordinal_iff; [exact G|].
    exists i. split; assumption.
  Qed.

  Lemma here_alike : same_here c d t -> alike c d t.
  Proof.
    intros [H|H]; [left; exact H|right]. clear -H. revert H.
    induction t as [p|s IH|s IH|a b IHa IHb|a b IHa IHb|s len IH|ts IH|s IH|vs IH] using ty_ind'; intros H.
    - destruct p; try exact I. exact H.
    - exact (IH H).
    - exact (IH H).
    - destruct H as [Ha Hb]. exact (conj (IHa Ha) (IHb Hb)).
    - destruct H as [Ha Hb]. exact (conj (IHa Ha) (IHb Hb)).
    - exact (IH H).
    - cbn [portable no_isize] in *. rewrite all_map in *. exact (forall_apply IH H).
    - cbn [portable no_isize] in *. rewrite all_decl in *. exact (forall_apply IH H).
    - cbn [portable no_isize] in *. rewrite all_map in *. rewrite Forall_forall in *.
      intros [z s] Hx. specialize (IH _ Hx). specialize (H _ Hx). cbn in IH, H |- *. rewrite all_decl in *.
      exact (forall_apply IH H).
  Qed.

  Lemma target_enumeration l k : same_here c d t -> enumeration (@impl_of c t) l -> enumeration (@impl_of d t) k ->
    Forall2 (same_value c d t) l k.
  Proof.
    intros G [L1 L2] [K1 K2].
    pose proof (law_bij (@universe_law c t) Hn) as B1. pose proof (law_bij (@universe_law d t) Hm) as B2.
    assert (A : forall s l k, StronglySorted (ordinal_before (@impl_of c t)) l ->
      StronglySorted (ordinal_before (@impl_of d t)) k ->
      (forall v, In v l <-> exists i, ordinal (@impl_of c t) v = Val i /\ s <= i) ->
      (forall w, In w k <-> exists i, ordinal (@impl_of d t) w = Val i /\ s <= i) ->
      Forall2 (same_value c d t) l k).
    { clear -Hn Hm G B1 B2.
      assert (Hnil : forall e (O : Ordinal (@type_of e t)) q, @ordinal_bijection e _ O q -> forall s v l,
        s < q -> (forall v, In v l <-> exists i, ordinal O v = Val i /\ s <= i) ->
        StronglySorted (ordinal_before O) l -> from_ordinal O s = Val (Some v) ->
        exists r, l = v :: r /\ forall v, In v r <-> exists i, ordinal O v = Val i /\ s + 1 <= i).
      { intros e O q B s v l Hs Hl Sl Hv. pose proof (bij_from_inv B Hs Hv) as Ev.
        destruct l as [|x r]; [destruct (proj2 (Hl v)); exists s; split; [exact Ev|lia]|].
        inversion Sl as [|? ? Sr Fr]; subst. rewrite Forall_forall in Fr.
        assert (x = v).
        { destruct (proj2 (Hl v)) as [E|Hin]; [exists s; split; [exact Ev|lia]|exact E|].
          destruct (Fr v Hin) as (i & j & Ei & Ej & Hij).
          destruct (proj1 (Hl x) (or_introl eq_refl)) as (i' & Ei' & Hi').
          assert (i = i') by congruence. assert (j = s) by congruence. lia. }
        subst x. exists r. split; [reflexivity|]. intros u. split.
        - intros Hu. destruct (Fr u Hu) as (i & j & Ei & Ej & Hij). exists j. split; [exact Ej|].
          assert (i = s) by congruence. lia.
        - intros (i & Ei & Hi). destruct (proj2 (Hl u)) as [E|Hin]; [exists i; split; [exact Ei|lia]| |exact Hin].
          subst u. assert (i = s) by congruence. lia. }
      intros s l. revert s. induction l as [|v l IH]; intros s k Sl Sk Hl Hk.
      - destruct k as [|w k]; [constructor|]. exfalso.
        destruct (proj1 (Hk w) (or_introl eq_refl)) as (i & Ei & Hi).
        pose proof (bij_lt _ B2 Ei) as Li. rewrite <- (target_size G) in Li.
        destruct (bij_from B1 Li) as (v & _ & Ev). apply (proj2 (Hl v)). exists i. split; [exact Ev|exact Hi].
      - assert (Ls : s < n).
        { destruct (proj1 (Hl v) (or_introl eq_refl)) as (i & Ei & Hi). pose proof (bij_lt _ B1 Ei). lia. }
        assert (Ls' : s < m) by (rewrite <- (target_size G); exact Ls).
        destruct (target_decode (here_alike G) Ls Ls') as (v0 & w0 & Dv & Dw & S).
        destruct (Hnil c _ n B1 s v0 (v :: l) Ls Hl Sl Dv) as (r & E & Hr). injection E as -> ->.
        destruct (Hnil d _ m B2 s w0 k Ls' Hk Sk Dw) as (r' & -> & Hr').
        inversion Sl; inversion Sk; subst. constructor; [exact S|]. exact (IH (s + 1) r' ltac:(assumption) ltac:(assumption) Hr Hr'). }
    apply (A 0 l k L2 K2).
    - intros v. split; [|intros _; apply L1]. intros _. destruct (bij_to B1 v) as (i & Ei & _). exists i. split; [exact Ei|lia].
    - intros w. split; [|intros _; apply K1]. intros _. destruct (bij_to B2 w) as (i & Ei & _). exists i. split; [exact Ei|lia].
  Qed.
End Consequences.


Lemma partner_up (c d : Config) t v : not_wider c d ->
  exists w, same_value c d t v w /\ forall w', same_value c d t v w' -> w' = w.
Proof.
  intros W. destruct (@same_total c d t (or_introl W) v) as (w & S). exists w. split; [exact S|].
  intros w' S'. exact (same_one S' S).
Qed.

Lemma partner_portable (c d : Config) t v : portable t ->
  exists w, same_value c d t v w /\ forall w', same_value c d t v w' -> w' = w.
Proof.
  intros W. destruct (@same_total c d t (or_intror W) v) as (w & S). exists w. split; [exact S|].
  intros w' S'. exact (same_one S' S).
Qed.

Lemma same_value_sym (c d : Config) t v w : same_value c d t v w <-> same_value d c t w v.
Proof. split; apply same_sym. Qed.

Lemma pointer_sized_differ :
  exists (v : @type_of debug32 (TPrim PNonZeroIsize)) (w : @type_of debug64 (TPrim PNonZeroIsize)),
    same_value debug32 debug64 (TPrim PNonZeroIsize) v w /\
    ordinal (@impl_of debug32 (TPrim PNonZeroIsize)) v = Val 2147483648 /\
    ordinal (@impl_of debug64 (TPrim PNonZeroIsize)) w = Val 9223372036854775808.
Proof.
  exists (mk_nonzero (mk_int (-2147483648) 2147483647 1 eq_refl) eq_refl).
  exists (mk_nonzero (mk_int (-9223372036854775808) 9223372036854775807 1 eq_refl) eq_refl).
  split; [reflexivity|]. split; vm_compute; reflexivity.
Qed.

Lemma rank_discriminants (cfg : Config) :
  exists (t : ty) (v : type_of t) (n : N), ORDINAL_SIZE (impl_of t) = Val n /\
    ~ exists l, NoDup l /\ (forall u, In u l <-> lt_of t u v) /\
        ordinal (impl_of t) v = Val (N.of_nat (length l)).
Proof.
  exists (TEnum [VDecl (Some 1%Z) DUnit; VDecl (Some 0%Z) DUnit]), (inl tt), 2.
  split; [destruct cfg as [[] [] []]; vm_compute; reflexivity|].
  intros (l & _ & Hl & E).
  assert (H0 : ordinal (impl_of (TEnum [VDecl (Some 1%Z) DUnit; VDecl (Some 0%Z) DUnit])) (inl tt) = Val 0)
    by (destruct cfg as [[] [] []]; vm_compute; reflexivity).
  rewrite H0 in E. injection E as E. destruct l as [|x l]; [|discriminate E].
  apply (proj2 (Hl (inr (inl tt)))). left. reflexivity.
Qed.
