(** * TargetProofs: a bijection that respects an order is the only one; the same value has the
    same ordinal on every target. *)
From Coq Require Import String List.
From Verif Require Import Base Spec SpecDerive SpecUniverse ModelOrdinal ModelArrayBuilder
  ModelDerive ModelUniverse SpecTarget BaseProofs OrdinalProofs ArrayProofs DeriveProofs DeriveProofs2
  DeriveProofs3 OrdinalProofs2 UniverseProofs UniverseProofs2 UniverseProofs3 UniverseProofs4
  UniverseProofs5.
Import ListNotations.
Set Implicit Arguments.
Unset Strict Implicit.

(** ** Uniqueness *)
Section Unique.
  Context (c d : Config) {T : Type} (O P : Ordinal T) (lt : T -> T -> Prop) (n m : N).
  Context (HO : @ordinal_bijection c T O n) (HP : @ordinal_bijection d T P m).
  Context (MO : ordinal_monotone O lt) (MP : ordinal_monotone P lt).

  Lemma unique_number : forall t, ordinal O t = ordinal P t.
  Proof.
    assert (G : forall i t, ordinal O t = Val i -> ordinal P t = Val i).
    { intros i. induction i as [i IH] using (well_founded_induction N.lt_wf_0). intros t Ht.
      destruct (bij_to HP t) as (j & Hj & Lj & _). destruct (N.lt_trichotomy j i) as [H|[->|H]]; [|exact Hj|].
      - assert (Hj' : j < n) by (pose proof (bij_lt _ HO Ht); lia).
        destruct (bij_from HO Hj') as (s & _ & Hs). pose proof (IH j H s Hs) as Hs'.
        pose proof (bij_inj _ _ HP Hs' Hj). subst s. congruence.
      - assert (Li : i < m) by lia. destruct (bij_from HP Li) as (s & _ & Hs).
        destruct (bij_to HO s) as (k & Hk & _ & _).
        assert (k < i) as Hki.
        { apply (MO Hk Ht). apply (MP Hs Hj). exact H. }
        pose proof (IH k Hki s Hk). assert (k = i) by congruence. lia. }
    intros t. destruct (bij_to HO t) as (i & Hi & _). rewrite Hi. symmetry. exact (G i t Hi).
  Qed.

  Lemma unique_size : n = m.
  Proof.
    destruct (N.lt_trichotomy n m) as [H|[H|H]]; [|exact H|]; exfalso.
    - destruct (bij_from HP H) as (t & _ & Ht). rewrite <- unique_number in Ht.
      pose proof (bij_lt _ HO Ht). lia.
    - destruct (bij_from HO H) as (t & _ & Ht). rewrite unique_number in Ht.
      pose proof (bij_lt _ HP Ht). lia.
  Qed.

  Lemma unique_decode i : i < n -> from_ordinal O i = from_ordinal P i.
  Proof.
    intros Hi. destruct (bij_from HO Hi) as (t & Ht & Ht'). rewrite Ht. symmetry.
    rewrite unique_number in Ht'. exact (bij_back _ HP Ht').
  Qed.
End Unique.

(** ** Fields *)
Section Fields.
  Context {A : Type} (f g : A -> ftype) (R : forall a, ft_T (f a) -> ft_T (g a) -> Prop).

  Definition numbers_agree (a : A) : Prop := forall v w, @R a v w ->
    exists i, ordinal (ft_ord (f a)) v = Val i /\ ordinal (ft_ord (g a)) w = Val i.
  Definition has_partner (a : A) : Prop := forall v, exists w, @R a v w.
  Definition one_partner (a : A) : Prop := forall v w w', @R a v w -> @R a v w' -> w = w'.

  Lemma same_fields_digits l : Forall numbers_agree l -> forall t u, same_fields f g (@R) l t u ->
    exists ds, tuple_digits (map f l) t ds /\ tuple_digits (map g l) u ds.
  Proof.
    induction 1 as [|a l H _ IH]; intros t u S; [exists []; split; reflexivity|].
    destruct S as [S1 S2]. destruct (H _ _ S1) as (i & Ei & Ei'). destruct (IH _ _ S2) as (ds & D1 & D2).
    exists (i :: ds). split; cbn; exists i, ds; auto.
  Qed.

  Lemma same_named_digits l : Forall numbers_agree (map (fun '(_, t) => t) l) ->
    forall t u, same_named f g (@R) l t u ->
    exists ds, tuple_digits (map snd (map (fun '(x, a) => (x, f a)) l)) t ds /\
               tuple_digits (map snd (map (fun '(x, a) => (x, g a)) l)) u ds.
  Proof.
    induction l as [|[x a] l IH]; intros H t u S; [exists []; split; reflexivity|].
    cbn in H. inversion H as [|? ? H1 H2]; subst. destruct S as [S1 S2].
    destruct (H1 _ _ S1) as (i & Ei & Ei'). destruct (IH H2 _ _ S2) as (ds & D1 & D2).
    exists (i :: ds). split; cbn; exists i, ds; auto.
  Qed.

  Lemma same_decl_digits d : Forall numbers_agree (decl_tys d) -> forall t u, same_decl f g (@R) d t u ->
    exists ds, tuple_digits (field_types (denote_decl f d)) t ds /\
               tuple_digits (field_types (denote_decl g d)) u ds.
  Proof.
    destruct d as [|l|l]; cbn; intros H t u S.
    - exists []. split; reflexivity.
    - unfold decl_tys in H. cbn in H. rewrite map_id in H. exact (same_fields_digits H S).
    - exact (same_named_digits H S).
  Qed.

  Lemma same_variant_digits vs : Forall (fun v => Forall numbers_agree (decl_tys (vd_fields v))) vs ->
    forall e h, same_variant f g (@R) vs e h ->
    variant_index _ e = variant_index _ h /\
    exists ds, enum_digits (variant_types (map (denote_variant f) vs)) e ds /\
               enum_digits (variant_types (map (denote_variant g) vs)) h ds.
  Proof.
    induction 1 as [|[z d] vs H _ IH]; intros e h S; [destruct S|].
    destruct e as [t|e], h as [u|h]; cbn in S; try easy.
    - split; [reflexivity|]. exact (same_decl_digits H S).
    - destruct (IH _ _ S) as (E & ds & D1 & D2). split; [cbn; f_equal; exact E|]. exists ds. split; assumption.
  Qed.

  Lemma same_fields_total l : Forall has_partner l -> forall t, exists u, same_fields f g (@R) l t u.
  Proof.
    induction 1 as [|a l H _ IH]; intros t; [exists tt; exact I|].
    destruct (H (fst t)) as (w & Hw). destruct (IH (snd t)) as (u & Hu). exists (w, u). split; assumption.
  Qed.

  Lemma same_named_total l : Forall has_partner (map (fun '(_, t) => t) l) ->
    forall t, exists u, same_named f g (@R) l t u.
  Proof.
    induction l as [|[x a] l IH]; intros H t; [exists tt; exact I|].
    cbn in H. inversion H as [|? ? H1 H2]; subst.
    destruct (H1 (fst t)) as (w & Hw). destruct (IH H2 (snd t)) as (u & Hu). exists (w, u). split; assumption.
  Qed.

  Lemma same_decl_total d : Forall has_partner (decl_tys d) -> forall t, exists u, same_decl f g (@R) d t u.
  Proof.
    destruct d as [|l|l]; cbn; intros H t.
    - exists tt. exact I.
    - unfold decl_tys in H. cbn in H. rewrite map_id in H. exact (same_fields_total H t).
    - exact (same_named_total H t).
  Qed.

  Lemma same_variant_total vs : Forall (fun v => Forall has_partner (decl_tys (vd_fields v))) vs ->
    forall e, exists h, same_variant f g (@R) vs e h.
  Proof.
    induction 1 as [|[z d] vs H _ IH]; intros e; [destruct e|].
    destruct e as [t|e].
    - destruct (same_decl_total H t) as (u & Hu). exists (inl u). exact Hu.
    - destruct (IH e) as (h & Hh). exists (inr h). exact Hh.
  Qed.

  Lemma same_fields_one l : Forall one_partner l ->
    forall t u u', same_fields f g (@R) l t u -> same_fields f g (@R) l t u' -> u = u'.
  Proof.
    induction 1 as [|a l H _ IH]; intros t u u' S S'; [destruct u, u'; reflexivity|].
    destruct u as [w u], u' as [w' u']. destruct S as [S1 S2], S' as [S1' S2'].
    f_equal; [exact (H _ _ _ S1 S1')|exact (IH _ _ _ S2 S2')].
  Qed.

  Lemma same_named_one l : Forall one_partner (map (fun '(_, t) => t) l) ->
    forall t u u', same_named f g (@R) l t u -> same_named f g (@R) l t u' -> u = u'.
  Proof.
    induction l as [|[x a] l IH]; intros H t u u' S S'; [destruct u, u'; reflexivity|].
    cbn in H. inversion H as [|? ? H1 H2]; subst.
    destruct u as [w u], u' as [w' u']. destruct S as [S1 S2], S' as [S1' S2'].
    f_equal; [exact (H1 _ _ _ S1 S1')|exact (IH H2 _ _ _ S2 S2')].
  Qed.

  Lemma same_decl_one d : Forall one_partner (decl_tys d) ->
    forall t u u', same_decl f g (@R) d t u -> same_decl f g (@R) d t u' -> u = u'.
  Proof.
    destruct d as [|l|l]; cbn; intros H t u u' S S'.
    - destruct u, u'. reflexivity.
    - unfold decl_tys in H. cbn in H. rewrite map_id in H. exact (same_fields_one H S S').
    - exact (same_named_one H S S').
  Qed.

  Lemma same_variant_one vs : Forall (fun v => Forall one_partner (decl_tys (vd_fields v))) vs ->
    forall e h h', same_variant f g (@R) vs e h -> same_variant f g (@R) vs e h' -> h = h'.
  Proof.
    induction 1 as [|[z d] vs H _ IH]; intros e h h' S S'; [destruct e|].
    destruct e as [t|e], h as [u|h], h' as [u'|h']; cbn in S, S'; try easy.
    - f_equal. exact (same_decl_one H S S').
    - f_equal. exact (IH _ _ _ S S').
  Qed.
End Fields.

(** ** Symmetry *)
Section Sym.
  Context {A : Type} (f g : A -> ftype) (R : forall a, ft_T (f a) -> ft_T (g a) -> Prop)
    (Q : forall a, ft_T (g a) -> ft_T (f a) -> Prop).

  Definition mirrored (a : A) : Prop := forall v w, @R a v w -> @Q a w v.

  Lemma same_fields_sym l : Forall mirrored l ->
    forall t u, same_fields f g (@R) l t u -> same_fields g f (@Q) l u t.
  Proof.
    induction 1 as [|a l H _ IH]; intros t u S; [exact I|]. destruct S as [S1 S2].
    split; [exact (H _ _ S1)|exact (IH _ _ S2)].
  Qed.

  Lemma same_named_sym l : Forall mirrored (map (fun '(_, t) => t) l) ->
    forall t u, same_named f g (@R) l t u -> same_named g f (@Q) l u t.
  Proof.
    induction l as [|[x a] l IH]; intros H t u S; [exact I|].
    cbn in H. inversion H as [|? ? H1 H2]; subst. destruct S as [S1 S2].
    split; [exact (H1 _ _ S1)|exact (IH H2 _ _ S2)].
  Qed.

  Lemma same_decl_sym d : Forall mirrored (decl_tys d) ->
    forall t u, same_decl f g (@R) d t u -> same_decl g f (@Q) d u t.
  Proof.
    destruct d as [|l|l]; cbn; intros H t u S.
    - exact I.
    - unfold decl_tys in H. cbn in H. rewrite map_id in H. exact (same_fields_sym H S).
    - exact (same_named_sym H S).
  Qed.

  Lemma same_variant_sym vs : Forall (fun v => Forall mirrored (decl_tys (vd_fields v))) vs ->
    forall e h, same_variant f g (@R) vs e h -> same_variant g f (@Q) vs h e.
  Proof.
    induction 1 as [|[z d] vs H _ IH]; intros e h S; [destruct e|].
    destruct e as [t|e], h as [u|h]; cbn in S |- *; try easy.
    - exact (same_decl_sym H S).
    - exact (IH _ _ S).
  Qed.
End Sym.
