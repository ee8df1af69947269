(** * OrdinalProofs2: statements combining the lemmas about the basic impls. *)
From Verif Require Import Base Spec SpecDerive ModelOrdinal ModelArrayBuilder ModelDerive
  BaseProofs OrdinalProofs ArrayProofs DeriveProofs DeriveProofs2 DeriveProofs3.

Section Combined.
  Context {cfg : Config}.

  Lemma char_monotone : ordinal_monotone Ordinal_char (fun c d => char_val c < char_val d).
  Proof.
    intros c d i j Hi Hj. rewrite char_ordinal in Hi, Hj.
    injection Hi as <-. injection Hj as <-. unfold char_ord.
    pose proof (char_scalar c). pose proof (char_scalar d).
    destruct (N.ltb_spec (char_val c) 55296), (N.ltb_spec (char_val d) 55296); lia.
  Qed.

  Lemma Option_numbering {T} (O : Ordinal T) n :
    ordinal_bijection O n -> n < usize_max ->
    ordinal (Ordinal_Option O) None = Val 0 /\
    forall t i, ordinal O t = Val i -> ordinal (Ordinal_Option O) (Some t) = Val (i + 1).
  Proof.
    intros H Hn. split; [reflexivity|]. intros t i Ht. cbn [ordinal Ordinal_Option]. rewrite Ht.
    destruct (bij_to H t) as (k & Hk & Hlt & _).
    assert (k = i) by congruence. subst. apply uadd_ok. lia.
  Qed.

  Lemma Result_numbering {A B} (OA : Ordinal A) (OB : Ordinal B) a b :
    ordinal_bijection OA a -> ordinal_bijection OB b -> a + b <= usize_max ->
    (forall x i, ordinal OA x = Val i -> ordinal (Ordinal_Result OA OB) (ResOk x) = Val i) /\
    (forall y j, ordinal OB y = Val j -> ordinal (Ordinal_Result OA OB) (ResErr y) = Val (a + j)).
  Proof.
    intros HA HB Hab. cbn [ordinal Ordinal_Result]. rewrite (bij_size HA). cbn [bind]. split.
    - intros x i Hx. exact Hx.
    - intros y j Hy. rewrite Hy. destruct (bij_to HB y) as (k & Hk & Hlt & _).
      assert (k = j) by congruence. subst. apply uadd_ok. lia.
  Qed.

  Lemma Either_numbering {A B} (OA : Ordinal A) (OB : Ordinal B) a b :
    ordinal_bijection OA a -> ordinal_bijection OB b -> a + b <= usize_max ->
    (forall x i, ordinal OA x = Val i -> ordinal (Ordinal_Either OA OB) (Left x) = Val i) /\
    (forall y j, ordinal OB y = Val j -> ordinal (Ordinal_Either OA OB) (Right y) = Val (a + j)).
  Proof.
    intros HA HB Hab. cbn [ordinal Ordinal_Either]. rewrite (bij_size HA). cbn [bind]. split.
    - intros x i Hx. exact Hx.
    - intros y j Hy. rewrite Hy. destruct (bij_to HB y) as (k & Hk & Hlt & _).
      assert (k = j) by congruence. subst. apply uadd_ok. lia.
  Qed.

  Lemma array_numbering {T} (O : Ordinal T) n len m (a : arr T len) ds :
    ordinal_bijection O n -> ORDINAL_SIZE (Ordinal_array O len) = Val m ->
    Forall2 (fun t d => ordinal O t = Val d) (arr_list a) ds ->
    ordinal (Ordinal_array O len) a = Val (mixed_radix (repeat n len) ds).
  Proof.
    intros HO Hm Hd.
    assert (Hle : npow n len <= usize_max).
    { destruct (N.le_gt_cases (npow n len) usize_max) as [H|H]; [exact H|].
      rewrite (array_size_over len HO H) in Hm. discriminate Hm. }
    assert (Ho : ordinals O n (arr_list a) ds).
    { clear -HO Hd. induction Hd as [|t d l ds Ht Hd IH]; constructor; [|exact IH].
      split; [exact Ht|]. destruct (bij_to HO t) as (k & Hk & Hlt & _).
      assert (k = d) by congruence. subst. exact Hlt. }
    rewrite (array_ordinal_ok HO a Hle Ho). unfold array_value.
    rewrite <- (ordinals_length Ho), (arr_length a). reflexivity.
  Qed.

  Lemma tuple_list_digits f n (t : tuple (repeat f n)) ds :
    Forall2 (fun t d => ordinal (ft_ord f) t = Val d) (tuple_list f n t) ds ->
    tuple_digits (repeat f n) t ds.
  Proof.
    revert t ds. induction n as [|n IH]; intros t ds H; cbn [tuple_list] in H.
    - inversion H. reflexivity.
    - inversion H as [|? d ? ds' H1 H2]; subst. exists d, ds'. split; [reflexivity|].
      split; [exact H1|]. apply IH. exact H2.
  Qed.

  Lemma array_tuple_agree (f : ftype) n len m p (a : arr (ft_T f) len) (t : tuple (repeat f len)) :
    ordinal_bijection (ft_ord f) n ->
    ORDINAL_SIZE (Ordinal_array (ft_ord f) len) = Val m ->
    ORDINAL_SIZE (impl_ordinal_for_tuple_n (repeat f len)) = Val p ->
    tuple_list f len t = arr_list a ->
    ordinal (Ordinal_array (ft_ord f) len) a = ordinal (impl_ordinal_for_tuple_n (repeat f len)) t.
  Proof.
    intros HO Hm Hp E.
    destruct (@ordinals_exist _ _ (ft_ord f) n HO (arr_list a)) as (ds & Hds).
    assert (Hd : Forall2 (fun t d => ordinal (ft_ord f) t = Val d) (arr_list a) ds).
    { clear -Hds. induction Hds as [|x d l ds [H1 _] H IH]; constructor; assumption. }
    rewrite (array_numbering _ HO Hm Hd). symmetry. eapply tuple_number.
    - clear -HO. unfold fields_lawful. induction len as [|len IH]; cbn; constructor; [exact HO|exact IH].
    - exact Hp.
    - apply tuple_list_digits. rewrite E. exact Hd.
  Qed.

  (** Ordinal law of a pair of conjuncts, as used by the property files. *)
  Lemma Option_law {T} (O : Ordinal T) n :
    ordinal_bijection O n -> n < usize_max ->
    ordinal_bijection (Ordinal_Option O) (n + 1) /\
    ordinal (Ordinal_Option O) None = Val 0 /\
    (forall t i, ordinal O t = Val i -> ordinal (Ordinal_Option O) (Some t) = Val (i + 1)) /\
    (rejects_out_of_range O n -> rejects_out_of_range (Ordinal_Option O) (n + 1)).
  Proof.
    intros H Hn. split; [apply Option_bijection; assumption|].
    destruct (Option_numbering H Hn) as [H1 H2]. split; [exact H1|]. split; [exact H2|].
    apply Option_rejects.
  Qed.

  Lemma Result_law {A B} (OA : Ordinal A) (OB : Ordinal B) a b :
    ordinal_bijection OA a -> ordinal_bijection OB b -> a + b <= usize_max ->
    ordinal_bijection (Ordinal_Result OA OB) (a + b) /\
    (forall x i, ordinal OA x = Val i -> ordinal (Ordinal_Result OA OB) (ResOk x) = Val i) /\
    (forall y j, ordinal OB y = Val j -> ordinal (Ordinal_Result OA OB) (ResErr y) = Val (a + j)) /\
    (rejects_out_of_range OB b -> rejects_out_of_range (Ordinal_Result OA OB) (a + b)).
  Proof.
    intros HA HB Hn. split; [apply Result_bijection; assumption|].
    destruct (Result_numbering HA HB Hn) as [H1 H2]. split; [exact H1|]. split; [exact H2|].
    apply Result_rejects, (bij_size HA).
  Qed.

  Lemma Either_law {A B} (OA : Ordinal A) (OB : Ordinal B) a b :
    ordinal_bijection OA a -> ordinal_bijection OB b -> a + b <= usize_max ->
    ordinal_bijection (Ordinal_Either OA OB) (a + b) /\
    (forall x i, ordinal OA x = Val i -> ordinal (Ordinal_Either OA OB) (Left x) = Val i) /\
    (forall y j, ordinal OB y = Val j -> ordinal (Ordinal_Either OA OB) (Right y) = Val (a + j)) /\
    (rejects_out_of_range OB b -> rejects_out_of_range (Ordinal_Either OA OB) (a + b)).
  Proof.
    intros HA HB Hn. split; [apply Either_bijection; assumption|].
    destruct (Either_numbering HA HB Hn) as [H1 H2]. split; [exact H1|]. split; [exact H2|].
    apply Either_rejects, (bij_size HA).
  Qed.

  Lemma Box_law {T} (O : Ordinal T) n :
    ordinal_bijection O n ->
    ordinal_bijection (Ordinal_Box O) n /\
    (forall t, ordinal (Ordinal_Box O) (Box t) = ordinal O t) /\
    (rejects_out_of_range O n -> rejects_out_of_range (Ordinal_Box O) n).
  Proof.
    intros H. split; [apply Box_bijection, H|]. split; [reflexivity|]. apply Box_rejects.
  Qed.

  Lemma array_law {T} (O : Ordinal T) n len :
    ordinal_bijection O n -> n ^ N.of_nat len <= usize_max ->
    lawful (Ordinal_array O len) (n ^ N.of_nat len).
  Proof.
    intros H Hn. split; [apply array_bijection; assumption|apply array_rejects, H].
  Qed.

  Lemma Ordering_numbering :
    ordinal Ordinal_Ordering Lt = Val 0 /\ ordinal Ordinal_Ordering Eq = Val 1 /\
    ordinal Ordinal_Ordering Gt = Val 2.
  Proof. repeat split. Qed.

  Lemma Infallible_none i : from_ordinal Ordinal_Infallible i = Val None.
  Proof. reflexivity. Qed.
End Combined.
