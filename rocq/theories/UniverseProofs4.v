(** * UniverseProofs4: every type expression, by induction. *)
From Verif Require Import Base Spec SpecDerive SpecUniverse ModelOrdinal ModelArrayBuilder
  ModelDerive ModelUniverse BaseProofs OrdinalProofs ArrayProofs DeriveProofs DeriveProofs2
  DeriveProofs3 OrdinalProofs2 UniverseProofs UniverseProofs2 UniverseProofs3.
From Coq Require Import List.
Import ListNotations.
Unset Strict Implicit.

Lemma val_eq {A} (x : res A) a b : x = Val a -> x = Val b -> a = b.
Proof. congruence. Qed.

Lemma F2_map {A B C} (R : B -> C -> Prop) (f : A -> B) (g : A -> C) l :
  Forall (fun a => R (f a) (g a)) l -> Forall2 R (map f l) (map g l).
Proof. induction 1; constructor; assumption. Qed.

Lemma all_map {A} (P : A -> Prop) l : fold_right and True (map P l) <-> Forall P l.
Proof.
  induction l as [|a l IH]; cbn; [split; auto|]. rewrite IH. split; [intros []; auto|].
  intros H; inversion H; auto.
Qed.

Lemma all_decl {A} (P : A -> Prop) d : fold_right and True (decl_list P d) <-> Forall P (decl_tys d).
Proof. rewrite decl_list_map. apply all_map. Qed.

Lemma field_types_denote {A} (f : A -> ftype) d : field_types (denote_decl f d) = map f (decl_tys d).
Proof.
  destruct d as [|l|l]; cbn; [reflexivity| |]; unfold decl_tys; cbn.
  - rewrite map_id. reflexivity.
  - rewrite !map_map. apply map_ext. intros []. reflexivity.
Qed.

Lemma variant_types_denote {A} (f : A -> ftype) vs :
  variant_types (map (denote_variant f) vs) = map (fun v => map f (decl_tys (vd_fields v))) vs.
Proof.
  unfold variant_types. rewrite map_map. apply map_ext. intros []. apply field_types_denote.
Qed.

Section Universe.
  Context {cfg : Config}.

  Lemma prim_values p : has_values (ft_T (denote_prim p)) (prim_card p).
  Proof.
    destruct (prim_law p) as [[H _]|[H _]]; [exact (hv_bij H)|].
    assert (forall q, p = q -> has_values (ft_T (denote_prim (cfg := debug64) q)) (prim_card (cfg := debug64) q)) as D.
    { intros q _. destruct (prim_law (cfg := debug64) q) as [[G _]|[G _]]; [exact (hv_bij G)|].
      destruct q; cbv in G; discriminate G. }
    specialize (D p eq_refl).
    destruct p; try exact D; exfalso; pose proof usize_max_ge; cbn [prim_card] in H; lia.
  Qed.

  Lemma card_enum vs : card (TEnum vs) = sum_of (map product_of (map (fun v => map card (decl_tys (vd_fields v))) vs)).
  Proof.
    cbn [card]. rewrite map_map. f_equal. apply map_ext. intros []. cbn. rewrite decl_list_map. reflexivity.
  Qed.

  Lemma card_struct d : card (TStruct d) = product_of (map card (decl_tys d)).
  Proof. cbn [card]. rewrite decl_list_map. reflexivity. Qed.

  Theorem values_card t : has_values (type_of t) (card t).
  Proof.
    induction t as [p|t IH|t IH|a b IHa IHb|a b IHa IHb|t len IH|ts IH|d IH|vs IH] using ty_ind'; unfold type_of.
    - apply prim_values.
    - apply hv_box, IH.
    - apply hv_option, IH.
    - apply hv_result; assumption.
    - apply hv_either; assumption.
    - apply hv_array, IH.
    - apply (@hv_tuple (map denote ts)). apply F2_map, IH.
    - cbn [denote of_impl ft_T]. rewrite field_types_denote, card_struct. apply hv_tuple, F2_map, IH.
    - cbn [denote of_impl ft_T]. rewrite variant_types_denote, card_enum, map_map.
      apply hv_enum, F2_map. eapply Forall_impl; [|exact IH].
      intros v H. cbn beta. apply hv_tuple, F2_map, H.
  Qed.

  Record law (t : ty) : Prop := {
    law_known : known (impl_of t);
    law_bij : forall n, ORDINAL_SIZE (impl_of t) = Val n -> ordinal_bijection (impl_of t) n;
    law_card : forall n, ORDINAL_SIZE (impl_of t) = Val n -> n = card t;
    law_fits : forall n, ORDINAL_SIZE (impl_of t) = Val n -> fits t;
    law_rejects : forall n, ORDINAL_SIZE (impl_of t) = Val n ->
      exposes_char t = false \/ usize_width = W32 -> rejects_out_of_range (impl_of t) n;
    law_mono : forall n, ORDINAL_SIZE (impl_of t) = Val n ->
      no_discriminants t -> ordinal_monotone (impl_of t) (lt_of t);
    law_size : accepted t -> fits t -> ORDINAL_SIZE (impl_of t) = Val (card t) }.

  Lemma law_bij' t : law t -> compiles (denote t) -> ordinal_bijection (impl_of t) (card t).
  Proof. intros L [n H]. pose proof (law_card L H). subst n. exact (law_bij L H). Qed.

  Lemma law_size_known t : law t -> size_known (denote t).
  Proof.
    intros L. destruct (law_known L) as [[n H]|H]; [left|right; exact H].
    exists n. split; [exact H|]. exact (bij_fits (law_bij L H)).
  Qed.

  Lemma fits_card t : fits t -> card t <= usize_max.
  Proof. destruct t; cbn [fits]; tauto. Qed.

  Lemma laws_fields ts : Forall law ts -> Forall compiles (map denote ts) ->
    fields_lawful (map denote ts) (map card ts).
  Proof.
    intros H C. apply F2_map. rewrite Forall_map in C. rewrite Forall_forall in *.
    intros t Ht. exact (law_bij' (H t Ht) (C t Ht)).
  Qed.

  Lemma laws_mono ts : Forall law ts -> Forall compiles (map denote ts) -> Forall no_discriminants ts ->
    Forall (fun f => ordinal_monotone (ft_ord f) (ft_lt f)) (map denote ts).
  Proof.
    intros H C D. rewrite Forall_map. rewrite Forall_map in C. rewrite Forall_forall in *.
    intros t Ht. destruct (C t Ht) as [n Hn]. exact (@law_mono _ (H t Ht) _ Hn (D t Ht)).
  Qed.

  Lemma laws_fits ts : Forall law ts -> Forall compiles (map denote ts) -> Forall fits ts.
  Proof.
    intros H C. rewrite Forall_map in C. rewrite Forall_forall in *.
    intros t Ht. destruct (C t Ht) as [n Hn]. exact (law_fits (H t Ht) Hn).
  Qed.

  Lemma laws_compile ts : Forall law ts -> Forall accepted ts -> Forall fits ts -> Forall compiles (map denote ts).
  Proof.
    intros H A F. rewrite Forall_map. rewrite Forall_forall in *.
    intros t Ht. exists (card t). exact (law_size (H t Ht) (A t Ht) (F t Ht)).
  Qed.

  Lemma names_vars {A} (f : A -> ftype) d : names_accepted d -> names_ok (field_vars (denote_decl f d)).
  Proof.
    destruct d as [|l|l]; cbn; intros [H1 H2].
    - split; [constructor|]. intros x _ [].
    - split; [apply numbered_NoDup|apply numbered_not_rem].
    - split; cbn [field_vars]; rewrite map_map.
      + erewrite map_ext; [exact H1|]. intros []. reflexivity.
      + erewrite map_ext; [exact H2|]. intros []. reflexivity.
  Qed.

  (** *** One case each *)
  Lemma law_prim p : law (TPrim p).
  Proof.
    destruct (prim_law p) as [(H1 & H2 & H3)|(H1 & H2 & H3)].
    - pose proof (bij_size H1) as Hs.
      split; unfold impl_of, lt_of; cbn [denote].
      + left. eauto.
      + intros n Hn. assert (n = prim_card p) by exact (val_eq Hn Hs). subst. exact H1.
      + intros n Hn. exact (val_eq Hn Hs).
      + intros n Hn. cbn [fits card]. split; [exact (bij_fits H1)|exact I].
      + intros n Hn E. assert (n = prim_card p) by exact (val_eq Hn Hs). subst. apply H2.
        destruct E as [E|E]; [|right; exact E]. left. intros E'. rewrite E' in E. discriminate E.
      + intros n Hn _. exact H3.
      + intros _ _. exact Hs.
    - split; unfold impl_of, lt_of; cbn [denote]; try (intros n Hn; exfalso; pose proof (eq_trans (eq_sym Hn) H2) as X; discriminate X).
      + right. exact H2.
      + intros _ F. apply fits_card in F. cbn [card] in F. lia.
  Qed.

  Lemma law_box t : law t -> law (TBox t).
  Proof.
    intros L. assert (S : ORDINAL_SIZE (impl_of (TBox t)) = ORDINAL_SIZE (impl_of t)) by reflexivity.
    split.
    - unfold known. rewrite S. exact (law_known L).
    - intros n Hn. rewrite S in Hn. exact (proj1 (Box_law (law_bij L Hn))).
    - intros n Hn. rewrite S in Hn. exact (law_card L Hn).
    - intros n Hn. rewrite S in Hn. pose proof (law_fits L Hn) as F. split; [exact (fits_card F)|exact F].
    - intros n Hn E. rewrite S in Hn. apply (Box_law (law_bij L Hn)). exact (law_rejects L Hn E).
    - intros n Hn D [a] [b] i j. rewrite S in Hn. exact (@law_mono _ L _ Hn D a b i j).
    - intros A [_ F]. rewrite S. exact (law_size L A F).
  Qed.

  Lemma cadd_known a b : (exists n, cadd a b = Val n) \/ cadd a b = NoCompile.
  Proof.
    destruct (N.le_gt_cases (a + b) usize_max) as [G|G]; [left|right; apply cadd_over, G].
    eexists. apply cadd_ok, G.
  Qed.

  Lemma law_option t : law t -> law (TOption t).
  Proof.
    intros L.
    assert (S : forall n, ORDINAL_SIZE (impl_of (TOption t)) = Val n ->
      exists m, ORDINAL_SIZE (impl_of t) = Val m /\ n = m + 1 /\ m < usize_max).
    { intros n Hn. change ((' a <- ORDINAL_SIZE (impl_of t);; cadd a 1) = Val n) in Hn.
      destruct (ORDINAL_SIZE (impl_of t)) as [m| | | |]; try discriminate Hn.
      cbn [bind] in Hn. apply cadd_inv in Hn. exists m. split; [reflexivity|lia]. }
    split.
    - change ((exists n, (' a <- ORDINAL_SIZE (impl_of t);; cadd a 1) = Val n) \/
              (' a <- ORDINAL_SIZE (impl_of t);; cadd a 1) = NoCompile).
      destruct (law_known L) as [[m E]|E]; rewrite E; cbn [bind]; [|right; reflexivity].
      apply cadd_known.
    - intros n Hn. destruct (S n Hn) as (m & H1 & -> & H2). exact (proj1 (Option_law (law_bij L H1) H2)).
    - intros n Hn. destruct (S n Hn) as (m & H1 & -> & H2). cbn [card]. rewrite (law_card L H1). reflexivity.
    - intros n Hn. destruct (S n Hn) as (m & H1 & -> & H2). pose proof (law_fits L H1).
      pose proof (law_card L H1). split; [cbn [card]; lia|assumption].
    - intros n Hn E. destruct (S n Hn) as (m & H1 & -> & H2).
      apply (Option_law (law_bij L H1) H2). exact (law_rejects L H1 E).
    - intros n Hn D a b i j Ha Hb. destruct (S n Hn) as (m & H1 & -> & H2).
      destruct (Option_law (law_bij L H1) H2) as (_ & N0 & NS & _).
      pose proof (law_mono L H1 D) as M.
      assert (NS' : forall x k, ordinal (Ordinal_Option (impl_of t)) (Some x) = Val k ->
        exists k', ordinal (impl_of t) x = Val k' /\ k = k' + 1).
      { intros x k Hk. destruct (bij_to (law_bij L H1) x) as (k' & K1 & _). exists k'. split; [exact K1|].
        exact (val_eq Hk (NS _ _ K1)). }
      destruct a as [a|], b as [b|]; cbn [lt_of denote of_impl ft_lt option_lt].
      + apply NS' in Ha, Hb. destruct Ha as (i' & Ha & ->), Hb as (j' & Hb & ->).
        change (lt_of t a b <-> i' + 1 < j' + 1). rewrite (M _ _ _ _ Ha Hb). lia.
      + change (ordinal (Ordinal_Option (impl_of t)) None = Val j) in Hb. rewrite N0 in Hb.
        injection Hb as <-. split; [intros []|lia].
      + apply NS' in Hb. change (ordinal (Ordinal_Option (impl_of t)) None = Val i) in Ha. rewrite N0 in Ha.
        injection Ha as <-. destruct Hb as (j' & Hb & ->). split; [lia|auto].
      + assert (i = j) by congruence. split; [intros []|lia].
    - intros A [F1 F2]. change ((' a <- ORDINAL_SIZE (impl_of t);; cadd a 1) = Val (card (TOption t))).
      rewrite (law_size L A F2). cbn [bind].
      apply cadd_ok. exact F1.
  Qed.

  Lemma sum_size {A B} (OA : Ordinal A) (OB : Ordinal B) n :
    (' a <- ORDINAL_SIZE OA;; ' b <- ORDINAL_SIZE OB;; cadd a b) = Val n ->
    exists a b, ORDINAL_SIZE OA = Val a /\ ORDINAL_SIZE OB = Val b /\ n = a + b /\ a + b <= usize_max.
  Proof.
    destruct (ORDINAL_SIZE OA) as [a| | | |]; cbn [bind]; try discriminate.
    destruct (ORDINAL_SIZE OB) as [b| | | |]; cbn [bind]; try discriminate.
    intros H. apply cadd_inv in H. exists a, b. auto.
  Qed.

  Lemma sum_known {A B} (OA : Ordinal A) (OB : Ordinal B) : known OA -> known OB ->
    (exists n, (' a <- ORDINAL_SIZE OA;; ' b <- ORDINAL_SIZE OB;; cadd a b) = Val n) \/
    (' a <- ORDINAL_SIZE OA;; ' b <- ORDINAL_SIZE OB;; cadd a b) = NoCompile.
  Proof.
    intros [[a Ha]|Ha]; rewrite Ha; cbn [bind]; [|right; reflexivity].
    intros [[b Hb]|Hb]; rewrite Hb; cbn [bind]; [|right; reflexivity].
    apply cadd_known.
  Qed.

  Lemma law_result a b : law a -> law b -> law (TResult a b).
  Proof.
    intros La Lb.
    pose proof (fun n => @sum_size _ _ (impl_of a) (impl_of b) n) as S.
    split.
    - exact (sum_known (law_known La) (law_known Lb)).
    - intros n Hn. destruct (S n Hn) as (x & y & H1 & H2 & -> & H3).
      exact (proj1 (Result_law (law_bij La H1) (law_bij Lb H2) H3)).
    - intros n Hn. destruct (S n Hn) as (x & y & H1 & H2 & -> & H3). cbn [card].
      rewrite (law_card La H1), (law_card Lb H2). reflexivity.
    - intros n Hn. destruct (S n Hn) as (x & y & H1 & H2 & -> & H3).
      rewrite (law_card La H1), (law_card Lb H2) in H3. split; [exact H3|].
      split; [exact (law_fits La H1)|exact (law_fits Lb H2)].
    - intros n Hn E. destruct (S n Hn) as (x & y & H1 & H2 & -> & H3).
      apply (Result_law (law_bij La H1) (law_bij Lb H2) H3). exact (law_rejects Lb H2 E).
    - intros n Hn [D1 D2] u v i j Hu Hv. destruct (S n Hn) as (x & y & H1 & H2 & -> & H3).
      destruct (Result_law (law_bij La H1) (law_bij Lb H2) H3) as (_ & NA & NB & _).
      pose proof (law_mono La H1 D1) as Ma. pose proof (law_mono Lb H2 D2) as Mb.
      assert (NA' : forall z k, ordinal (impl_of (TResult a b)) (ResOk z) = Val k ->
        ordinal (impl_of a) z = Val k /\ k < x).
      { intros z k Hk. destruct (bij_to (law_bij La H1) z) as (k' & K1 & K2 & _).
        pose proof (NA _ _ K1) as K3. assert (k = k') by exact (val_eq Hk K3). subst. auto. }
      assert (NB' : forall z k, ordinal (impl_of (TResult a b)) (ResErr z) = Val k ->
        exists k', ordinal (impl_of b) z = Val k' /\ k = x + k').
      { intros z k Hk. destruct (bij_to (law_bij Lb H2) z) as (k' & K1 & K2 & _).
        pose proof (NB _ _ K1) as K3. exists k'. split; [exact K1|]. exact (val_eq Hk K3). }
      destruct u as [u|u], v as [v|v]; change (lt_of (TResult a b)) with (result_lt (lt_of a) (lt_of b)); cbn [result_lt].
      + apply NA' in Hu, Hv. apply Ma; tauto.
      + apply NA' in Hu. apply NB' in Hv. destruct Hv as (? & _ & ->). split; [lia|auto].
      + apply NA' in Hv. apply NB' in Hu. destruct Hu as (? & _ & ->). split; [intros []|lia].
      + apply NB' in Hu, Hv. destruct Hu as (k & Hu & ->), Hv as (k' & Hv & ->).
        rewrite (Mb _ _ _ _ Hu Hv). lia.
    - intros [A1 A2] [F (F1 & F2)]. pose proof (law_size La A1 F1) as E1. pose proof (law_size Lb A2 F2) as E2.
      change ((' x <- ORDINAL_SIZE (impl_of a);; ' y <- ORDINAL_SIZE (impl_of b);; cadd x y) = Val (card a + card b)).
      rewrite E1, E2. cbn [bind]. apply cadd_ok. exact F.
  Qed.

  Lemma law_either a b : law a -> law b -> law (TEither a b).
  Proof.
    intros La Lb.
    pose proof (fun n => @sum_size _ _ (impl_of a) (impl_of b) n) as S.
    split.
    - exact (sum_known (law_known La) (law_known Lb)).
    - intros n Hn. destruct (S n Hn) as (x & y & H1 & H2 & -> & H3).
      exact (proj1 (Either_law (law_bij La H1) (law_bij Lb H2) H3)).
    - intros n Hn. destruct (S n Hn) as (x & y & H1 & H2 & -> & H3). cbn [card].
      rewrite (law_card La H1), (law_card Lb H2). reflexivity.
    - intros n Hn. destruct (S n Hn) as (x & y & H1 & H2 & -> & H3).
      rewrite (law_card La H1), (law_card Lb H2) in H3. split; [exact H3|].
      split; [exact (law_fits La H1)|exact (law_fits Lb H2)].
    - intros n Hn E. destruct (S n Hn) as (x & y & H1 & H2 & -> & H3).
      apply (Either_law (law_bij La H1) (law_bij Lb H2) H3). exact (law_rejects Lb H2 E).
    - intros n Hn [D1 D2] u v i j Hu Hv. destruct (S n Hn) as (x & y & H1 & H2 & -> & H3).
      destruct (Either_law (law_bij La H1) (law_bij Lb H2) H3) as (_ & NA & NB & _).
      pose proof (law_mono La H1 D1) as Ma. pose proof (law_mono Lb H2 D2) as Mb.
      assert (NA' : forall z k, ordinal (impl_of (TEither a b)) (Left z) = Val k ->
        ordinal (impl_of a) z = Val k /\ k < x).
      { intros z k Hk. destruct (bij_to (law_bij La H1) z) as (k' & K1 & K2 & _).
        pose proof (NA _ _ K1) as K3. assert (k = k') by exact (val_eq Hk K3). subst. auto. }
      assert (NB' : forall z k, ordinal (impl_of (TEither a b)) (Right z) = Val k ->
        exists k', ordinal (impl_of b) z = Val k' /\ k = x + k').
      { intros z k Hk. destruct (bij_to (law_bij Lb H2) z) as (k' & K1 & K2 & _).
        pose proof (NB _ _ K1) as K3. exists k'. split; [exact K1|]. exact (val_eq Hk K3). }
      destruct u as [u|u], v as [v|v]; change (lt_of (TEither a b)) with (either_lt (lt_of a) (lt_of b)); cbn [either_lt].
      + apply NA' in Hu, Hv. apply Ma; tauto.
      + apply NA' in Hu. apply NB' in Hv. destruct Hv as (? & _ & ->). split; [lia|auto].
      + apply NA' in Hv. apply NB' in Hu. destruct Hu as (? & _ & ->). split; [intros []|lia].
      + apply NB' in Hu, Hv. destruct Hu as (k & Hu & ->), Hv as (k' & Hv & ->).
        rewrite (Mb _ _ _ _ Hu Hv). lia.
    - intros [A1 A2] [F (F1 & F2)]. pose proof (law_size La A1 F1) as E1. pose proof (law_size Lb A2 F2) as E2.
      change ((' x <- ORDINAL_SIZE (impl_of a);; ' y <- ORDINAL_SIZE (impl_of b);; cadd x y) = Val (card a + card b)).
      rewrite E1, E2. cbn [bind]. apply cadd_ok. exact F.
  Qed.
End Universe.
