(** * ExpandProofs: lemmas for C74 (PropExpand.v). *)
From Verif Require Import Base Spec ModelDerive SpecDerive SpecFold SpecExpand
  BaseProofs DeriveProofs DeriveProofs2 DeriveProofs3 FoldProofs.
From Coq Require Import String List. Import ListNotations.
Set Implicit Arguments. Unset Strict Implicit.

Section Expand.
  Context {cfg : Config}.

  Lemma struct_expands f : exists size ord block,
    struct_size f = Val size /\ struct_ord f = Val ord /\ struct_block f = Val block.
  Proof.
    destruct (pieces_exist _ _ (field_vars_length f)) as (size & ord & block & [P1 (so & P2 & P3) P4 P5]).
    exists size, ord, block. unfold struct_size, struct_ord, struct_block.
    rewrite struct_ordinal_size_form, P2. cbn [bind]. auto.
  Qed.

  Lemma tuple_expands tys : exists size ord block,
    (s <- struct_ordinal_size tys ;; expr s) = Val size /\ (s <- struct_ordinal tys ;; expr s) = Val ord /\
    struct_from_ordinal ROrdinalVar (tuple_vars 0 tys) tys = Val block.
  Proof.
    destruct (pieces_exist _ _ (tuple_vars_length 0 tys)) as (size & ord & block & [P1 (so & P2 & P3) P4 P5]).
    exists size, ord, block. rewrite struct_ordinal_size_form, P2. cbn [bind]. auto.
  Qed.

  (** Only a variant without fields contributes a literal. *)
  Lemma constants_count vs : sum_of (constants (map vform vs)) = N.of_nat (List.length (filter no_fields_at vs)).
  Proof.
    induction vs as [|v vs IH]; [reflexivity|]. cbn [map filter]. unfold no_fields_at at 1, vform at 1, size_form.
    destruct (field_types (v_fields v)) as [|a [|b r]]; cbn [product_ignore_const map constants List.length].
    - change (sum_of (1 :: constants (map vform vs))) with (1 + sum_of (constants (map vform vs))). rewrite IH. lia.
    - exact IH.
    - exact IH.
  Qed.

  Lemma filter_firstn_le {A} (p : A -> bool) l : forall i, (List.length (filter p (firstn i l)) <= List.length (filter p l))%nat.
  Proof.
    induction l as [|a l IH]; intros [|i]; cbn; try lia. specialize (IH i). destruct (p a); cbn; lia.
  Qed.

  (** A folded literal stays a u64. *)
  Definition u64_literal (s : SizeExpr) : Prop := match s with SConst c => c <= u64_max | _ => True end.

  Lemma sum_scan_literal es : forall p items q items', p <= u64_max -> Forall u64_literal items ->
    Forall no_sum es -> sum_scan es p items = Val (q, items') -> q <= u64_max /\ Forall u64_literal items'.
  Proof.
    induction es as [|e es IH]; intros p items q items' Hp Hi Hn H.
    - cbn in H. apply Val_inj in H. injection H as <- <-. auto.
    - inversion Hn as [|? ? N1 N2]; subst. destruct e as [c|x|l|l]; cbn [sum_scan] in H.
      + destruct (N.leb_spec (p + c) u64_max) as [L|L]; [|discriminate H]. eapply IH; [|exact Hi|exact N2|exact H]; lia.
      + eapply IH; [exact Hp| |exact N2|exact H]. apply Forall_app. split; [exact Hi|repeat constructor].
      + contradiction N1.
      + eapply IH; [exact Hp| |exact N2|exact H]. apply Forall_app. split; [exact Hi|repeat constructor].
  Qed.
  Lemma sum_ignore_literal L : Forall u64_literal L -> u64_literal (sum_ignore_const L).
  Proof.
    intros H. destruct L as [|a [|b r]]; cbn [sum_ignore_const]; [apply N.le_0_l|now inversion H|exact I].
  Qed.
  Lemma sum_literal es s : Forall no_sum es -> sum es = Val s -> u64_literal s.
  Proof.
    unfold sum. intros Hn H. destruct (sum_scan es 0 []) as [[q items]| | | |] eqn:E; try discriminate H. cbn [bind] in H.
    destruct (@sum_scan_literal es 0 [] q items (N.le_0_l _) (Forall_nil _) Hn E) as [Hq Hi].
    destruct (q =? 0); apply Val_inj in H; subst s; apply sum_ignore_literal; [exact Hi|now constructor].
  Qed.

  Lemma first_variants_val vs i : N.of_nat (List.length (filter no_fields_at vs)) <= u64_max ->
    exists s, size_of_first_variants vs i = Val s /\ s_wf s /\ u64_literal s.
  Proof.
    intros H. rewrite first_variants_form.
    destruct (FoldProofs.sum_returns (map vform (firstn i vs))) as [[(s & Hs) Hc]|[_ Hc]].
    - exists s. split; [exact Hs|]. split; [eapply DeriveProofs3.sum_wf; [apply vform_wf|exact Hs]|].
      eapply sum_literal; [apply vform_no_sum|exact Hs].
    - rewrite constants_count in Hc. pose proof (@filter_firstn_le _ no_fields_at vs i). lia.
  Qed.

  Lemma const_expr_total s : s_wf s -> exists e, const_expr s = Val e.
  Proof.
    intros H. destruct (s_wf_expr _ H) as (e & He). destruct s; cbn [const_expr]; eauto; rewrite He; cbn [bind]; eauto.
  Qed.

  Lemma from_total e vars tys : exists b, struct_from_ordinal e vars tys = Val b.
  Proof. unfold struct_from_ordinal. rewrite field_stmts_form. cbn [bind]. eauto. Qed.

  Lemma ordinal_item_zero tys : match sum_ignore_const (ord_items (seq 0 (List.length tys)) tys) with SConst c => c = 0 | _ => True end.
  Proof.
    pose proof (ord_items_nonconst (seq 0 (List.length tys)) tys) as H.
    destruct (ord_items (seq 0 (List.length tys)) tys) as [|a [|b r]]; cbn [sum_ignore_const]; try reflexivity; try exact I.
    inversion H as [|? ? H1 _]; subst. destruct a; try exact I. contradiction H1.
  Qed.

  Lemma arm_total before tys : s_wf before -> u64_literal before ->
    exists s e, sum [before; sum_ignore_const (ord_items (seq 0 (List.length tys)) tys)] = Val s /\ expr s = Val e.
  Proof.
    intros Hw Hl. set (so := sum_ignore_const _).
    assert (Hso : s_wf so) by (apply sum_ignore_wf, ord_items_wf, seq_length).
    pose proof (ordinal_item_zero tys) as Hz. fold so in Hz.
    destruct (FoldProofs.sum_returns [before; so]) as [[(s & Hs) _]|[_ Hc]].
    - exists s. destruct (s_wf_expr s) as (e & He); [|eauto].
      eapply DeriveProofs3.sum_wf; [|exact Hs]. repeat constructor; assumption.
    - exfalso. destruct before as [c| | |], so as [c'| | |]; cbn [constants u64_literal] in *; subst; unfold sum_of, u64_max in *; cbn -[N.add] in *; lia.
  Qed.

  Lemma enum_arms_total vs : N.of_nat (List.length (filter no_fields_at vs)) <= u64_max ->
    forall rest i, exists arms, enum_arms vs i rest = Val arms.
  Proof.
    intros H. induction rest as [|v rest IH]; intros i; cbn [enum_arms]; [eauto|].
    destruct (first_variants_val i H) as (s & Hs & Hw & Hl). rewrite Hs, struct_ordinal_form. cbn [bind].
    destruct (@arm_total s (field_types (v_fields v)) Hw Hl) as (s' & e & Hs' & He). rewrite Hs'. cbn [bind]. rewrite He. cbn [bind].
    destruct (IH (S i)) as (arms & ->). cbn [bind]. eauto.
  Qed.

  Lemma enum_branches_total vs : N.of_nat (List.length (filter no_fields_at vs)) <= u64_max ->
    forall rest i, exists bs, enum_branches vs i rest = Val bs.
  Proof.
    intros H. induction rest as [|v rest IH]; intros i; cbn [enum_branches]; [eauto|].
    destruct (first_variants_val i H) as (s & Hs & Hw & _). rewrite Hs. cbn [bind].
    destruct (const_expr_total Hw) as (e & ->). cbn [bind].
    destruct (first_variants_val (S i) H) as (s' & Hs' & Hw' & _). rewrite Hs'. cbn [bind].
    destruct (const_expr_total Hw') as (e' & ->). cbn [bind].
    destruct (@from_total (RSub ROrdinalVar e) (field_vars (v_fields v)) (field_types (v_fields v))) as (b & ->). cbn [bind].
    destruct (IH (S i)) as (bs & ->). cbn [bind]. eauto.
  Qed.

  Lemma enum_size_total vs :
    N.of_nat (List.length (filter no_fields_at vs)) <= u64_max <-> exists size, enum_size vs = Val size.
  Proof.
    split; intros H.
    - destruct (first_variants_val (List.length vs) H) as (s & Hs & Hw & _). unfold enum_size. rewrite Hs. cbn [bind].
      apply s_wf_expr, Hw.
    - destruct H as (size & H). unfold enum_size in H. rewrite first_variants_form, firstn_all in H.
      destruct (FoldProofs.sum_returns (map vform vs)) as [[_ Hc]|[E _]]; [now rewrite <- constants_count|].
      rewrite E in H. discriminate H.
  Qed.

  Lemma enum_expands vs :
    N.of_nat (List.length (filter no_fields_at vs)) <= u64_max <->
    exists size arms bs, enum_size vs = Val size /\ enum_arms vs 0 vs = Val arms /\ enum_branches vs 0 vs = Val bs.
  Proof.
    split; intros H.
    - destruct (proj1 (enum_size_total vs) H) as (size & ?). destruct (enum_arms_total H vs 0) as (arms & ?).
      destruct (enum_branches_total H vs 0) as (bs & ?). eauto 6.
    - destruct H as (size & _ & _ & H & _). apply enum_size_total. eauto.
  Qed.

  Lemma enum_aborts vs : u64_max < N.of_nat (List.length (filter no_fields_at vs)) ->
    enum_size vs = NoCompile /\ derive_enum vs = rejected _.
  Proof.
    intros H. assert (E : enum_size vs = NoCompile).
    { unfold enum_size. rewrite first_variants_form, firstn_all.
      destruct (FoldProofs.sum_returns (map vform vs)) as [[_ Hc]|[E _]]; [rewrite constants_count in Hc; lia|].
      now rewrite E. }
    split; [exact E|]. unfold derive_enum. now rewrite E.
  Qed.

  (** Enums whose variants have no fields. *)
  Lemma unit_forms vs : forallb no_fields_at vs = true -> map vform vs = repeat (SConst 1) (List.length vs).
  Proof.
    induction vs as [|v vs IH]; cbn [forallb map repeat List.length]; intros H; [reflexivity|].
    apply andb_prop in H as [Hv H]. rewrite (IH H). f_equal. unfold no_fields_at in Hv. unfold vform, size_form.
    destruct (field_types (v_fields v)); [reflexivity|discriminate Hv].
  Qed.
  Lemma sum_scan_ones n : forall p, p + N.of_nat n <= u64_max -> sum_scan (repeat (SConst 1) n) p [] = Val (p + N.of_nat n, []).
  Proof.
    induction n as [|n IH]; intros p H; cbn [repeat sum_scan].
    - now rewrite N.add_0_r.
    - destruct (N.leb_spec (p + 1) u64_max) as [L|L]; [|lia]. rewrite IH by lia. do 2 f_equal. lia.
  Qed.
  Lemma sum_ones n : N.of_nat n <= u64_max -> sum (repeat (SConst 1) n) = Val (SConst (N.of_nat n)).
  Proof.
    intros H. unfold sum. rewrite sum_scan_ones by lia. cbn [bind]. rewrite N.add_0_l.
    destruct (N.eqb_spec (N.of_nat n) 0) as [E|E]; [rewrite E|]; reflexivity.
  Qed.
  Lemma forallb_firstn {A} (p : A -> bool) l : forall i, forallb p l = true -> forallb p (firstn i l) = true.
  Proof. induction l as [|a l IH]; intros [|i] H; cbn in *; auto. apply andb_prop in H as [-> H]. apply IH, H. Qed.
  Lemma unit_first vs i : forallb no_fields_at vs = true -> N.of_nat (List.length vs) <= u64_max -> (i <= List.length vs)%nat ->
    size_of_first_variants vs i = Val (SConst (N.of_nat i)).
  Proof.
    intros Hv Hn Hi. rewrite first_variants_form, unit_forms by now apply forallb_firstn.
    rewrite firstn_length_le by exact Hi. apply sum_ones. lia.
  Qed.
  Lemma unit_arms vs : forallb no_fields_at vs = true -> N.of_nat (List.length vs) <= u64_max ->
    forall rest i, forallb no_fields_at rest = true -> (i + List.length rest = List.length vs)%nat ->
    enum_arms vs i rest = Val (map (fun k => RLit (N.of_nat k)) (seq i (List.length rest))).
  Proof.
    intros Hv Hn. induction rest as [|v rest IH]; intros i Hr Hi; [reflexivity|].
    cbn [enum_arms forallb List.length] in *. apply andb_prop in Hr as [Hv1 Hr].
    rewrite unit_first by (assumption || lia). cbn [bind].
    unfold no_fields_at in Hv1. destruct (field_types (v_fields v)) eqn:E; [|discriminate Hv1].
    cbn [bind struct_ordinal List.length seq struct_ordinal_impl].
    assert (Es : sum [SConst (N.of_nat i); SConst 0] = Val (SConst (N.of_nat i))).
    { unfold sum. cbn [sum_scan]. rewrite N.add_0_l, N.add_0_r. destruct (N.leb_spec (N.of_nat i) u64_max) as [L|L]; [|lia].
      cbn [bind]. destruct (N.eqb_spec (N.of_nat i) 0) as [Z|Z]; [rewrite Z|]; reflexivity. }
    unfold struct_ordinal. cbn [List.length seq struct_ordinal_impl bind]. rewrite Es. cbn [bind expr].
    rewrite IH by (assumption || lia). reflexivity.
  Qed.
  Lemma unit_enum vs : forallb no_fields_at vs = true -> N.of_nat (List.length vs) <= u64_max ->
    enum_size vs = Val (RLit (N.of_nat (List.length vs))) /\
    enum_arms vs 0 vs = Val (map (fun k => RLit (N.of_nat k)) (seq 0 (List.length vs))).
  Proof.
    intros Hv Hn. split; [|now apply unit_arms].
    unfold enum_size. rewrite unit_first by (assumption || lia). reflexivity.
  Qed.
End Expand.
