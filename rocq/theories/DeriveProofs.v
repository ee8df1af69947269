(** * DeriveProofs: the generated code of tuples, structs and enums (C09-C12, C19). *)
From Verif Require Import Base Spec BaseProofs ArrayProofs ModelDerive.
From Coq Require Import String Ascii List.
Import ListNotations.

(** ** Sums and products without overflow *)
Section Sizes.
  Context {cfg : Config}.

  (** Every prefix product, starting from [acc], fits usize. *)
  Fixpoint prefix_ok (acc : N) (ns : list N) : Prop :=
    match ns with
    | [] => True
    | n :: r => acc * n <= usize_max /\ prefix_ok (acc * n) r
    end.

  Lemma product_of_cons n ns : product_of (n :: ns) = n * product_of ns.
  Proof. reflexivity. Qed.
  Lemma sum_of_cons n ns : sum_of (n :: ns) = n + sum_of ns.
  Proof. reflexivity. Qed.
  Lemma sum_of_app a b : sum_of (a ++ b) = sum_of a + sum_of b.
  Proof. unfold sum_of. induction a as [|x a IH]; cbn [app fold_right]; [lia|]. rewrite IH. lia. Qed.

  Lemma prefix_ok_pos ns acc :
    Forall (fun n => 0 < n) ns -> acc * product_of ns <= usize_max -> prefix_ok acc ns.
  Proof.
    intros H. revert acc. induction H as [|n ns Hn H IH]; intros acc Hm; cbn [prefix_ok]; [exact I|].
    rewrite product_of_cons in Hm.
    assert (0 < product_of ns).
    { clear -H. induction H as [|n ns Hn H IH]; [reflexivity|]. rewrite product_of_cons. nia. }
    split; [nia|]. apply IH. lia.
  Qed.

  Lemma prefix_ok_total ns acc :
    acc <= usize_max -> prefix_ok acc ns -> acc * product_of ns <= usize_max.
  Proof.
    revert acc. induction ns as [|n ns IH]; intros acc Ha H.
    - cbn. lia.
    - destruct H as [H1 H2]. apply IH in H2; [|exact H1]. rewrite product_of_cons. lia.
  Qed.

  Lemma product_pos ns : Forall (fun n => 0 < n) ns -> 0 < product_of ns.
  Proof.
    induction 1 as [|n ns Hn H IH]; [reflexivity|]. rewrite product_of_cons. nia.
  Qed.

  Lemma product_pos_inv ns : 0 < product_of ns -> Forall (fun n => 0 < n) ns.
  Proof.
    induction ns as [|n ns IH]; intros H; constructor; rewrite product_of_cons in H.
    - nia.
    - apply IH. nia.
  Qed.
End Sizes.

(** ** Meaning of SizeExprs *)
Section SizeExprs.
  Context {cfg : Config}.
  Variables (ctx : bool) (fo : nat -> res N) (ov : N).

  (** [SV s v]: the expression emitted for [s] evaluates to [v] without overflow. *)
  Fixpoint SV (s : SizeExpr) (v : N) : Prop :=
    match s with
    | SConst c => v = c /\ c <= usize_max
    | SSyn e => eval ctx fo ov e = Val v
    | SSum l =>
        (2 <= length l)%nat /\ exists vs,
        (fix F2 (l : list SizeExpr) (vs : list N) : Prop :=
           match l, vs with
           | [], [] => True
           | x :: l', y :: vs' => SV x y /\ F2 l' vs'
           | _, _ => False
           end) l vs /\ v = sum_of vs /\ v <= usize_max
    | SProduct l =>
        (2 <= length l)%nat /\ exists vs,
        (fix F2 (l : list SizeExpr) (vs : list N) : Prop :=
           match l, vs with
           | [], [] => True
           | x :: l', y :: vs' => SV x y /\ F2 l' vs'
           | _, _ => False
           end) l vs /\ v = product_of vs /\ prefix_ok (hd 0 vs) (tl vs)
    end.

  Definition SVs (l : list SizeExpr) (vs : list N) : Prop := Forall2 SV l vs.

  Lemma F2_SVs l vs :
    (fix F2 (l : list SizeExpr) (vs : list N) : Prop :=
       match l, vs with
       | [], [] => True
       | x :: l', y :: vs' => SV x y /\ F2 l' vs'
       | _, _ => False
       end) l vs <-> SVs l vs.
  Proof.
    revert vs. induction l as [|x l IH]; intros [|y vs]; split; intros H;
      try contradiction; try (inversion H; fail); try constructor; try exact I.
    - apply H.
    - apply IH, H.
    - inversion H; assumption.
    - inversion H; apply IH; assumption.
  Qed.

  Lemma SV_sum l v :
    SV (SSum l) v <-> (2 <= length l)%nat /\ exists vs, SVs l vs /\ v = sum_of vs /\ v <= usize_max.
  Proof.
    cbn [SV]. split; intros (H & vs & H1 & H2); split; try exact H; exists vs; split; try exact H2;
      apply F2_SVs; exact H1.
  Qed.

  Lemma SV_product l v :
    SV (SProduct l) v <->
    (2 <= length l)%nat /\ exists vs, SVs l vs /\ v = product_of vs /\ prefix_ok (hd 0 vs) (tl vs).
  Proof.
    cbn [SV]. split; intros (H & vs & H1 & H2); split; try exact H; exists vs; split; try exact H2;
      apply F2_SVs; exact H1.
  Qed.

  (** *** Evaluation of the chains *)
  Definition evs (es : list rexpr) (vs : list N) : Prop :=
    Forall2 (fun e v => eval ctx fo ov e = Val v) es vs.

  Lemma chain_add_ok es vs e0 v0 :
    eval ctx fo ov e0 = Val v0 -> evs es vs -> v0 + sum_of vs <= usize_max ->
    eval ctx fo ov (fold_left RAdd es e0) = Val (v0 + sum_of vs).
  Proof.
    intros H0 H. revert e0 v0 H0. induction H as [|e v es vs He H IH]; intros e0 v0 H0 Hm.
    - cbn [fold_left]. rewrite H0. f_equal. cbn. lia.
    - cbn [fold_left]. rewrite sum_of_cons in *.
      rewrite (IH (RAdd e0 e) (v0 + v)); [f_equal; lia| |lia].
      cbn [eval]. rewrite H0, He. cbn [bind].
      destruct ctx; [apply cadd_ok|apply uadd_ok]; lia.
  Qed.

  Lemma chain_mul_ok es vs e0 v0 :
    eval ctx fo ov e0 = Val v0 -> evs es vs -> prefix_ok v0 vs ->
    eval ctx fo ov (fold_left RMul es e0) = Val (v0 * product_of vs).
  Proof.
    intros H0 H. revert e0 v0 H0. induction H as [|e v es vs He H IH]; intros e0 v0 H0 Hm.
    - cbn [fold_left]. rewrite H0. f_equal. cbn. lia.
    - cbn [fold_left]. rewrite product_of_cons. destruct Hm as [Hm1 Hm2].
      rewrite (IH (RMul e0 e) (v0 * v)); [f_equal; lia| |exact Hm2].
      cbn [eval]. rewrite H0, He. cbn [bind].
      destruct ctx; [apply cmul_ok|apply umul_ok]; lia.
  Qed.

  Fixpoint exprs (l : list SizeExpr) : res (list rexpr) :=
    match l with
    | [] => Val []
    | x :: r => e <- expr x ;; es <- exprs r ;; Val (e :: es)
    end.

  Lemma expr_sum l : expr (SSum l) = (es <- exprs l ;; chain RAdd es).
  Proof. reflexivity. Qed.
  Lemma expr_product l : expr (SProduct l) = (es <- exprs l ;; chain RMul es).
  Proof. reflexivity. Qed.

  Lemma SizeExpr_ind' (P : SizeExpr -> Prop) :
    (forall c, P (SConst c)) -> (forall e, P (SSyn e)) ->
    (forall l, Forall P l -> P (SSum l)) -> (forall l, Forall P l -> P (SProduct l)) ->
    forall s, P s.
  Proof.
    intros H1 H2 H3 H4. fix IH 1. intros [c|e|l|l].
    - apply H1.
    - apply H2.
    - apply H3. induction l as [|x l IHl]; constructor; [apply IH|exact IHl].
    - apply H4. induction l as [|x l IHl]; constructor; [apply IH|exact IHl].
  Qed.

  (** L1: the emitted expression evaluates to the value. *)
  Lemma SV_eval s : forall v, SV s v -> exists e, expr s = Val e /\ eval ctx fo ov e = Val v.
  Proof.
    induction s as [c|e|l IH|l IH] using SizeExpr_ind'; intros v H.
    - destruct H as [-> H]. eexists. split; [reflexivity|]. cbn [eval].
      destruct (N.leb_spec c usize_max); [reflexivity|lia].
    - eexists. split; [reflexivity|exact H].
    - apply SV_sum in H. destruct H as (Hl & vs & Hvs & -> & Hm).
      assert (He : exists es, exprs l = Val es /\ evs es vs).
      { clear Hl Hm. induction Hvs as [|x y l vs Hx Hvs IHl].
        - exists []. split; [reflexivity|constructor].
        - inversion IH as [|? ? IH1 IH2]; subst.
          destruct (IH1 _ Hx) as (e & He1 & He2).
          destruct (IHl IH2) as (es & Hes1 & Hes2).
          exists (e :: es). cbn [exprs]. rewrite He1, Hes1. split; [reflexivity|constructor; assumption]. }
      destruct He as (es & He1 & He2). rewrite expr_sum, He1. cbn [bind].
      inversion He2 as [|e0 v0 es' vs' H0 H'].
      { subst. inversion Hvs. subst. cbn in Hl. lia. }
      subst. inversion H' as [|e1 v1 es'' vs'' H1 H''].
      { subst. inversion Hvs as [|? ? ? ? ? Hn]. subst. inversion Hn. subst. cbn in Hl. lia. }
      subst. eexists. split; [reflexivity|]. cbn [tl]. rewrite sum_of_cons.
      apply chain_add_ok; [exact H0|exact H'|rewrite <- sum_of_cons; exact Hm].
    - apply SV_product in H. destruct H as (Hl & vs & Hvs & -> & Hm).
      assert (He : exists es, exprs l = Val es /\ evs es vs).
      { clear Hl Hm. induction Hvs as [|x y l vs Hx Hvs IHl].
        - exists []. split; [reflexivity|constructor].
        - inversion IH as [|? ? IH1 IH2]; subst.
          destruct (IH1 _ Hx) as (e & He1 & He2).
          destruct (IHl IH2) as (es & Hes1 & Hes2).
          exists (e :: es). cbn [exprs]. rewrite He1, Hes1. split; [reflexivity|constructor; assumption]. }
      destruct He as (es & He1 & He2). rewrite expr_product, He1. cbn [bind].
      inversion He2 as [|e0 v0 es' vs' H0 H'].
      { subst. inversion Hvs. subst. cbn in Hl. lia. }
      subst. inversion H' as [|e1 v1 es'' vs'' H1 H''].
      { subst. inversion Hvs as [|? ? ? ? ? Hn]. subst. inversion Hn. subst. cbn in Hl. lia. }
      subst. eexists. split; [reflexivity|]. cbn [tl]. rewrite product_of_cons.
      apply chain_mul_ok; [exact H0|exact H'|exact Hm].
  Qed.

  (** L3: [sum] adds the values. *)
  Lemma SV_sum_ignore L vs :
    SVs L vs -> sum_of vs <= usize_max -> SV (sum_ignore_const L) (sum_of vs).
  Proof.
    intros H Hm. destruct L as [|a [|b r]].
    - inversion H; subst. cbn. split; [reflexivity|lia].
    - inversion H as [|? y ? ? Hy Hn]; subst. inversion Hn; subst. cbn [sum_ignore_const].
      replace (sum_of [y]) with y by (cbn; lia). exact Hy.
    - cbn [sum_ignore_const]. apply SV_sum. split; [cbn; lia|]. exists vs. auto.
  Qed.

  Lemma usize_le_u64 : usize_max <= u64_max.
  Proof. unfold usize_max, u64_max. destruct usize_width; lia. Qed.

  Lemma sum_scan_ok es vs : forall acc items ivs,
    SVs es vs -> SVs items ivs -> acc + sum_of ivs + sum_of vs <= usize_max ->
    exists acc' items' ivs',
      sum_scan es acc items = Val (acc', items') /\ SVs items' ivs' /\
      acc' + sum_of ivs' = acc + sum_of ivs + sum_of vs.
  Proof.
    intros acc items ivs H. revert acc items ivs.
    induction H as [|e v es vs He H IH]; intros acc items ivs Hi Hm.
    - exists acc, items, ivs. split; [reflexivity|]. split; [exact Hi|]. cbn [sum_of fold_right]. lia.
    - rewrite sum_of_cons in *. destruct e as [c|x|l|l].
      + destruct He as [-> Hc]. cbn [sum_scan]. pose proof usize_le_u64 as Hu.
        destruct (N.leb_spec (acc + c) u64_max) as [Hle|Hle]; [|lia].
        destruct (IH (acc + c) items ivs) as (a' & i' & iv' & H1 & H2 & H3); [exact Hi|lia|].
        exists a', i', iv'. split; [exact H1|]. split; [exact H2|]. lia.
      + cbn [sum_scan].
        destruct (IH acc (items ++ [SSyn x]) (ivs ++ [v])) as (a' & i' & iv' & H1 & H2 & H3).
        { apply Forall2_app; [exact Hi|]. constructor; [exact He|constructor]. }
        { rewrite sum_of_app. cbn [sum_of fold_right]. lia. }
        exists a', i', iv'. split; [exact H1|]. split; [exact H2|].
        rewrite sum_of_app in H3. cbn [sum_of fold_right] in H3. lia.
      + cbn [sum_scan]. apply SV_sum in He. destruct He as (_ & lvs & Hl & -> & Hlm).
        destruct (IH acc (items ++ l) (ivs ++ lvs)) as (a' & i' & iv' & H1 & H2 & H3).
        { apply Forall2_app; assumption. }
        { rewrite sum_of_app. lia. }
        exists a', i', iv'. split; [exact H1|]. split; [exact H2|].
        rewrite sum_of_app in H3. lia.
      + cbn [sum_scan].
        destruct (IH acc (items ++ [SProduct l]) (ivs ++ [v])) as (a' & i' & iv' & H1 & H2 & H3).
        { apply Forall2_app; [exact Hi|]. constructor; [exact He|constructor]. }
        { rewrite sum_of_app. cbn [sum_of fold_right]. lia. }
        exists a', i', iv'. split; [exact H1|]. split; [exact H2|].
        rewrite sum_of_app in H3. cbn [sum_of fold_right] in H3. lia.
  Qed.

  Lemma sum_ok es vs :
    SVs es vs -> sum_of vs <= usize_max -> exists s, sum es = Val s /\ SV s (sum_of vs).
  Proof.
    intros H Hm. destruct (@sum_scan_ok es vs 0 [] []) as (a & items & ivs & H1 & H2 & H3).
    { exact H. } { constructor. } { cbn [sum_of fold_right]. lia. }
    cbn [sum_of fold_right] in H3. unfold sum. rewrite H1. cbn [bind].
    destruct (N.eqb_spec a 0) as [->|Ha].
    - eexists. split; [reflexivity|]. replace (sum_of vs) with (sum_of ivs) by (unfold sum_of at 2; lia).
      apply SV_sum_ignore; [exact H2|]. unfold sum_of in *. lia.
    - eexists. split; [reflexivity|].
      replace (sum_of vs) with (sum_of (a :: ivs)) by (rewrite sum_of_cons; unfold sum_of in *; lia).
      apply SV_sum_ignore.
      + constructor; [|exact H2]. split; [reflexivity|]. unfold sum_of in *. lia.
      + rewrite sum_of_cons. unfold sum_of in *. lia.
  Qed.
End SizeExprs.

(** ** Const evaluation can be inverted *)
Section ConstInv.
  Context {cfg : Config}.
  Variables (fo : nat -> res N) (ov : N).

  Lemma chain_add_inv es : forall e0 v,
    eval true fo ov (fold_left RAdd es e0) = Val v ->
    exists v0 vs, eval true fo ov e0 = Val v0 /\ evs true fo ov es vs /\
      v = v0 + sum_of vs /\ (es <> [] -> v <= usize_max).
  Proof.
    induction es as [|e es IH]; intros e0 v H.
    - exists v, []. split; [exact H|]. split; [constructor|]. split; [cbn; lia|congruence].
    - cbn [fold_left] in H. destruct (IH _ _ H) as (v1 & vs & H1 & H2 & H3 & H4).
      cbn [eval] in H1. bind_inv H1. bind_inv H1. apply cadd_inv in H1. destruct H1 as [-> H1].
      exists a, (a0 :: vs). split; [exact Ha|]. split; [constructor; assumption|].
      rewrite sum_of_cons. split; [lia|]. intros _.
      destruct es; [|apply H4; discriminate]. inversion H2; subst. cbn [sum_of fold_right]. lia.
  Qed.

  Lemma chain_mul_inv es : forall e0 v,
    eval true fo ov (fold_left RMul es e0) = Val v ->
    exists v0 vs, eval true fo ov e0 = Val v0 /\ evs true fo ov es vs /\
      v = v0 * product_of vs /\ prefix_ok v0 vs.
  Proof.
    induction es as [|e es IH]; intros e0 v H.
    - exists v, []. split; [exact H|]. split; [constructor|]. split; [cbn; lia|exact I].
    - cbn [fold_left] in H. destruct (IH _ _ H) as (v1 & vs & H1 & H2 & H3 & H4).
      cbn [eval] in H1. bind_inv H1. bind_inv H1. apply cmul_inv in H1. destruct H1 as [-> H1].
      exists a, (a0 :: vs). split; [exact Ha|]. split; [constructor; assumption|].
      rewrite product_of_cons. split; [lia|]. cbn [prefix_ok]. auto.
  Qed.

  Lemma exprs_inv l : forall es, exprs l = Val es -> Forall2 (fun s e => expr s = Val e) l es.
  Proof.
    induction l as [|x l IH]; intros es H; cbn [exprs] in H.
    - injection H as <-. constructor.
    - bind_inv H. bind_inv H. injection H as <-. constructor; [exact Ha|apply IH; exact Ha0].
  Qed.

  Lemma all_SVs l es ws :
    Forall (fun s => forall e v, expr s = Val e -> eval true fo ov e = Val v -> SV true fo ov s v) l ->
    Forall2 (fun s e => expr s = Val e) l es -> evs true fo ov es ws -> SVs true fo ov l ws.
  Proof.
    intros IH Ha. revert ws. induction Ha as [|s e l es Hs Ha IHl]; intros ws Hall.
    - inversion Hall; subst. constructor.
    - inversion IH as [|? ? I1 I2]; subst. inversion Hall as [|? w ? ws' W1 W2]; subst. constructor.
      + eapply I1; eassumption.
      + apply IHl; assumption.
  Qed.

  (** L2 *)
  Lemma SV_inv s : forall e v,
    expr s = Val e -> eval true fo ov e = Val v -> SV true fo ov s v.
  Proof.
    induction s as [c|x|l IH|l IH] using SizeExpr_ind'; intros e v He Hv.
    - injection He as <-. cbn [eval] in Hv. destruct (N.leb_spec c usize_max); [|discriminate].
      injection Hv as <-. split; [reflexivity|assumption].
    - injection He as <-. exact Hv.
    - rewrite expr_sum in He. bind_inv He. apply exprs_inv in Ha.
      destruct a as [|e0 [|e1 es]]; try discriminate.
      change (Val (fold_left RAdd (e1 :: es) e0) = Val e) in He.
      assert (e = fold_left RAdd (e1 :: es) e0) as -> by congruence. apply chain_add_inv in Hv.
      destruct Hv as (v0 & vs & H1 & H2 & H3 & H4). apply SV_sum.
      split; [rewrite (Forall2_length Ha); cbn; lia|].
      exists (v0 :: vs). split.
      + assert (Hall : evs true fo ov (e0 :: e1 :: es) (v0 :: vs)) by (constructor; assumption).
        exact (all_SVs IH Ha Hall).
      + rewrite sum_of_cons. split; [exact H3|]. apply H4. discriminate.
    - rewrite expr_product in He. bind_inv He. apply exprs_inv in Ha.
      destruct a as [|e0 [|e1 es]]; try discriminate.
      change (Val (fold_left RMul (e1 :: es) e0) = Val e) in He.
      assert (e = fold_left RMul (e1 :: es) e0) as -> by congruence. apply chain_mul_inv in Hv.
      destruct Hv as (v0 & vs & H1 & H2 & H3 & H4). apply SV_product.
      split; [rewrite (Forall2_length Ha); cbn; lia|].
      exists (v0 :: vs). split.
      + assert (Hall : evs true fo ov (e0 :: e1 :: es) (v0 :: vs)) by (constructor; assumption).
        exact (all_SVs IH Ha Hall).
      + rewrite product_of_cons. split; [exact H3|]. exact H4.
  Qed.

  (** L4 *)
  Definition no_sum (s : SizeExpr) : Prop := match s with SSum _ => False | _ => True end.

  Lemma sum_scan_inv ctx es : forall acc items acc' items' ivs',
    Forall no_sum es ->
    sum_scan es acc items = Val (acc', items') -> acc' <= usize_max ->
    SVs ctx fo ov items' ivs' ->
    exists vs ivs, SVs ctx fo ov es vs /\ SVs ctx fo ov items ivs /\
      acc + sum_of ivs + sum_of vs = acc' + sum_of ivs' /\ acc <= acc'.
  Proof.
    induction es as [|e es IH]; intros acc items acc' items' ivs' Hn H Hm Hi.
    - injection H as <- <-. exists [], ivs'. split; [constructor|]. split; [exact Hi|].
      cbn [sum_of fold_right]. fold (sum_of ivs'). lia.
    - inversion Hn as [|? ? Hn1 Hn2]; subst. destruct e as [c|x|l|l]; cbn [sum_scan] in H.
      + destruct (N.leb_spec (acc + c) u64_max); [|discriminate].
        destruct (IH _ _ _ _ _ Hn2 H Hm Hi) as (vs & ivs & H1 & H2 & H3 & H4).
        exists (c :: vs), ivs. split.
        { constructor; [|exact H1]. split; [reflexivity|lia]. }
        split; [exact H2|]. rewrite sum_of_cons. lia.
      + destruct (IH _ _ _ _ _ Hn2 H Hm Hi) as (vs & ivs & H1 & H2 & H3 & H4).
        apply Forall2_app_inv_l in H2. destruct H2 as (iv1 & iv2 & H2a & H2b & ->).
        inversion H2b as [|? y ? ? Hy Hnil]; subst. inversion Hnil; subst.
        exists (y :: vs), iv1. split; [constructor; assumption|]. split; [exact H2a|].
        rewrite sum_of_app in H3. rewrite sum_of_cons. cbn [sum_of fold_right] in H3.
        fold (sum_of iv1) in H3. unfold sum_of in *. lia.
      + contradiction.
      + destruct (IH _ _ _ _ _ Hn2 H Hm Hi) as (vs & ivs & H1 & H2 & H3 & H4).
        apply Forall2_app_inv_l in H2. destruct H2 as (iv1 & iv2 & H2a & H2b & ->).
        inversion H2b as [|? y ? ? Hy Hnil]; subst. inversion Hnil; subst.
        exists (y :: vs), iv1. split; [constructor; assumption|]. split; [exact H2a|].
        rewrite sum_of_app in H3. rewrite sum_of_cons. cbn [sum_of fold_right] in H3.
        unfold sum_of in *. lia.
  Qed.

  Lemma SV_sum_ignore_inv ctx L v :
    SV ctx fo ov (sum_ignore_const L) v ->
    exists vs, SVs ctx fo ov L vs /\ sum_of vs = v.
  Proof.
    destruct L as [|a [|b r]]; cbn [sum_ignore_const]; intros H.
    - destruct H as [-> _]. exists []. split; [constructor|reflexivity].
    - exists [v]. split; [constructor; [exact H|constructor]|cbn; lia].
    - apply SV_sum in H. destruct H as (_ & vs & H1 & H2 & _). exists vs. auto.
  Qed.

  Lemma sum_inv ctx es s v :
    Forall no_sum es -> sum es = Val s -> SV ctx fo ov s v ->
    exists vs, SVs ctx fo ov es vs /\ sum_of vs = v.
  Proof.
    intros Hn H Hv. unfold sum in H. bind_inv H. destruct a as [c items].
    destruct (N.eqb_spec c 0) as [->|Hc]; injection H as <-.
    - apply SV_sum_ignore_inv in Hv. destruct Hv as (ivs & H1 & H2).
      destruct (@sum_scan_inv ctx _ _ _ _ _ _ Hn Ha ltac:(lia) H1) as (vs & iv0 & G1 & G2 & G3 & _).
      inversion G2; subst. exists vs. split; [exact G1|]. cbn [sum_of fold_right] in G3.
      unfold sum_of in *. lia.
    - apply (@SV_sum_ignore_inv ctx (SConst c :: items)) in Hv. destruct Hv as (ivs & H1 & H2).
      inversion H1 as [|? y ? ivs' Hy' Hr]; subst. destruct Hy' as [-> Hy].
      destruct (@sum_scan_inv ctx _ _ _ _ _ _ Hn Ha Hy Hr) as (vs & iv0 & G1 & G2 & G3 & _).
      inversion G2; subst. exists vs. split; [exact G1|]. rewrite sum_of_cons.
      cbn [sum_of fold_right] in G3. unfold sum_of in *. lia.
  Qed.
End ConstInv.

(** ** Sizes of field lists *)
Section FieldSizes.
  Context {cfg : Config}.

  Definition has_size (f : ftype) (n : N) : Prop :=
    ORDINAL_SIZE (ft_ord f) = Val n /\ n <= usize_max.
  Definition has_sizes (fs : list ftype) (ns : list N) : Prop := Forall2 has_size fs ns.

  Definition size_form (tys : list ftype) : SizeExpr :=
    product_ignore_const (map ordinal_size_expr tys).

  Lemma product_scan_sizes tys items :
    product_scan (map ordinal_size_expr tys) 1 items = Val (1, items ++ map ordinal_size_expr tys).
  Proof.
    revert items. induction tys as [|t tys IH]; intros items.
    - cbn. rewrite app_nil_r. reflexivity.
    - cbn [map product_scan ordinal_size_expr]. rewrite IH, <- app_assoc. reflexivity.
  Qed.

  Lemma struct_ordinal_size_form tys : struct_ordinal_size tys = Val (size_form tys).
  Proof. unfold struct_ordinal_size, product. rewrite product_scan_sizes. reflexivity. Qed.

  Lemma sizes_SVs ctx fo ov tys ns :
    has_sizes tys ns -> SVs ctx fo ov (map ordinal_size_expr tys) ns.
  Proof. induction 1 as [|t n tys ns [H1 H2] H IH]; cbn [map]; constructor; auto. Qed.

  Lemma sizes_SVs_unique ctx fo ov tys ns ms :
    has_sizes tys ns -> SVs ctx fo ov (map ordinal_size_expr tys) ms -> ms = ns.
  Proof.
    intros H. revert ms. induction H as [|t n tys ns [H1 H2] H IH]; intros ms Hm; inversion Hm; subst.
    - reflexivity.
    - f_equal; [|apply IH; assumption].
      match goal with He : SV _ _ _ (ordinal_size_expr t) _ |- _ => cbn in He end. congruence.
  Qed.

  Lemma size_form_ok ctx fo ov tys ns :
    has_sizes tys ns -> prefix_ok 1 ns -> SV ctx fo ov (size_form tys) (product_of ns).
  Proof.
    intros H Hp. pose proof (sizes_SVs ctx fo ov H) as Hs. unfold size_form.
    destruct H as [|t n tys ns H0 H]; [|destruct H as [|t' n' tys ns H1 H]].
    - cbn. pose proof (@usize_max_ge cfg). split; [reflexivity|lia].
    - inversion Hs as [|? ? ? ? Hs1 _]; subst. cbn [map product_ignore_const].
      replace (product_of [n]) with n by (cbn; lia). exact Hs1.
    - cbn [map product_ignore_const]. apply SV_product. split; [cbn; lia|].
      exists (n :: n' :: ns). split; [exact Hs|]. split; [reflexivity|].
      destruct Hp as [_ Hp]. rewrite N.mul_1_l in Hp. exact Hp.
  Qed.

  Lemma size_form_inv ctx fo ov tys ns v :
    has_sizes tys ns -> SV ctx fo ov (size_form tys) v -> v = product_of ns /\ prefix_ok 1 ns.
  Proof.
    intros H Hv. unfold size_form in Hv. pose proof H as Hall.
    destruct H as [|t n tys ns H0 H]; [|destruct H as [|t' n' tys ns H1 H]].
    - cbn in Hv. destruct Hv as [-> _]. split; [reflexivity|exact I].
    - destruct H0 as [H1 H2]. cbn in Hv. rewrite H1 in Hv. injection Hv as <-.
      split; [cbn [product_of fold_right]; lia|]. cbn [prefix_ok]. split; [lia|exact I].
    - cbn [map product_ignore_const] in Hv. apply SV_product in Hv.
      destruct Hv as (_ & vs & H2 & H3 & H4).
      assert (vs = n :: n' :: ns) as ->.
      { eapply sizes_SVs_unique; [exact Hall|exact H2]. }
      split; [exact H3|]. destruct H0 as [_ H0]. cbn [hd tl] in H4.
      cbn [prefix_ok] in *. rewrite N.mul_1_l. split; [exact H0|exact H4].
  Qed.

  (** A size that is a number or a compile error. *)
  Definition size_known (t : ftype) : Prop :=
    (exists n, has_size t n) \/ ORDINAL_SIZE (ft_ord t) = NoCompile.

  (** Const evaluation either succeeds or is a compile error. *)
  Fixpoint size_only (e : rexpr) : Prop :=
    match e with
    | RLit _ => True
    | RSizeOf t => size_known t
    | RAdd a b | RMul a b | RSub a b => size_only a /\ size_only b
    | RConst a => size_only a
    | ROrdinalOf _ | ROrdinalVar => False
    end.

  Lemma size_only_eval e : size_only e -> forall fo ov,
    (exists v, eval true fo ov e = Val v) \/ eval true fo ov e = NoCompile.
  Proof.
    induction e as [c|t|i|a IHa b IHb|a IHa b IHb|a IHa b IHb| |a IHa]; cbn [size_only eval];
      intros H fo ov; try contradiction.
    - destruct (c <=? usize_max); eauto.
    - destruct H as [(n & H & _)|H]; eauto.
    - destruct H as [H1 H2]. destruct (IHa H1 fo ov) as [[v ->] | ->]; [|auto].
      destruct (IHb H2 fo ov) as [[w ->] | ->]; [|auto]. cbn [bind].
      unfold cadd, usize_const. destruct (_ && _)%bool; eauto.
    - destruct H as [H1 H2]. destruct (IHa H1 fo ov) as [[v ->] | ->]; [|auto].
      destruct (IHb H2 fo ov) as [[w ->] | ->]; [|auto]. cbn [bind].
      unfold cmul, usize_const. destruct (_ && _)%bool; eauto.
    - destruct H as [H1 H2]. destruct (IHa H1 fo ov) as [[v ->] | ->]; [|auto].
      destruct (IHb H2 fo ov) as [[w ->] | ->]; [|auto]. cbn [bind].
      unfold csub, usize_const. destruct (_ && _)%bool; eauto.
    - apply IHa. exact H.
  Qed.

  Lemma size_only_le e : size_only e -> forall fo ov v,
    eval true fo ov e = Val v -> v <= usize_max.
  Proof.
    induction e as [c|t|i|a IHa b IHb|a IHa b IHb|a IHa b IHb| |a IHa]; cbn [size_only eval];
      intros H fo ov v Hv; try contradiction.
    - destruct (N.leb_spec c usize_max); [|discriminate]. injection Hv as <-. assumption.
    - destruct H as [(n & H1 & H2)|H]; congruence.
    - bind_inv Hv. bind_inv Hv. apply cadd_inv in Hv. lia.
    - bind_inv Hv. bind_inv Hv. apply cmul_inv in Hv. lia.
    - bind_inv Hv. bind_inv Hv. unfold csub, usize_const in Hv.
      destruct (_ && _)%bool eqn:E in Hv; [|discriminate]. injection Hv as <-. lia.
    - eapply IHa; eassumption.
  Qed.

  Fixpoint s_size_only (s : SizeExpr) : Prop :=
    match s with
    | SConst _ => True
    | SSyn e => size_only e
    | SSum l | SProduct l => fold_right (fun x P => s_size_only x /\ P) True l
    end.

  Lemma size_only_chain op es e0 :
    (forall a b, size_only a -> size_only b -> size_only (op a b)) ->
    Forall size_only es -> size_only e0 -> size_only (fold_left op es e0).
  Proof.
    intros Hop H. revert e0. induction H as [|e es He H IH]; intros e0 H0; cbn; auto.
  Qed.

  Lemma s_size_only_expr s : forall e, s_size_only s -> expr s = Val e -> size_only e.
  Proof.
    induction s as [c|x|l IH|l IH] using SizeExpr_ind'; intros e Hs He.
    - injection He as <-. exact I.
    - injection He as <-. exact Hs.
    - rewrite expr_sum in He. bind_inv He. apply exprs_inv in Ha.
      assert (Forall size_only a).
      { clear He. induction Ha as [|s e' l es Hse Ha IHl]; constructor.
        - inversion IH; subst. destruct Hs. eauto.
        - apply IHl; [inversion IH; assumption|apply Hs]. }
      destruct a as [|e0 [|e1 es]]; try discriminate.
      apply (f_equal (fun r => match r with Val x => x | _ => e0 end)) in He. cbn beta iota in He.
      rewrite <- He. inversion H; subst. apply size_only_chain; try assumption. cbn. auto.
    - rewrite expr_product in He. bind_inv He. apply exprs_inv in Ha.
      assert (Forall size_only a).
      { clear He. induction Ha as [|s e' l es Hse Ha IHl]; constructor.
        - inversion IH; subst. destruct Hs. eauto.
        - apply IHl; [inversion IH; assumption|apply Hs]. }
      destruct a as [|e0 [|e1 es]]; try discriminate.
      apply (f_equal (fun r => match r with Val x => x | _ => e0 end)) in He. cbn beta iota in He.
      rewrite <- He. inversion H; subst. apply size_only_chain; try assumption. cbn. auto.
  Qed.

  (** A well-formed SizeExpr (every sum/product has two operands) can be printed. *)
  Fixpoint s_wf (s : SizeExpr) : Prop :=
    match s with
    | SConst _ | SSyn _ => True
    | SSum l | SProduct l => (2 <= length l)%nat /\ fold_right (fun x P => s_wf x /\ P) True l
    end.

  Lemma s_wf_expr s : s_wf s -> exists e, expr s = Val e.
  Proof.
    induction s as [c|x|l IH|l IH] using SizeExpr_ind'; intros H.
    - eexists; reflexivity.
    - eexists; reflexivity.
    - destruct H as [Hl H]. rewrite expr_sum.
      assert (He : exists es, exprs l = Val es /\ length es = length l).
      { clear Hl. induction l as [|x l IHl]; [exists []; auto|].
        inversion IH as [|? ? I1 I2]; subst. destruct H as [H1 H2].
        destruct (I1 H1) as (e & He). destruct (IHl I2 H2) as (es & Hes & Hle).
        exists (e :: es). cbn [exprs]. rewrite He, Hes. cbn. auto. }
      destruct He as (es & -> & Hle). cbn [bind].
      destruct es as [|e0 [|e1 es]]; cbn in Hle; try lia. eexists; reflexivity.
    - destruct H as [Hl H]. rewrite expr_product.
      assert (He : exists es, exprs l = Val es /\ length es = length l).
      { clear Hl. induction l as [|x l IHl]; [exists []; auto|].
        inversion IH as [|? ? I1 I2]; subst. destruct H as [H1 H2].
        destruct (I1 H1) as (e & He). destruct (IHl I2 H2) as (es & Hes & Hle).
        exists (e :: es). cbn [exprs]. rewrite He, Hes. cbn. auto. }
      destruct He as (es & -> & Hle). cbn [bind].
      destruct es as [|e0 [|e1 es]]; cbn in Hle; try lia. eexists; reflexivity.
  Qed.

  Lemma size_form_wf tys : s_wf (size_form tys).
  Proof.
    unfold size_form. destruct tys as [|a [|b r]]; cbn [map product_ignore_const]; try exact I.
    split; [cbn; lia|]. cbn. split; [exact I|]. split; [exact I|].
    induction r as [|c r IH]; cbn; auto.
  Qed.

  Lemma size_form_known tys : Forall size_known tys -> s_size_only (size_form tys).
  Proof.
    intros H. assert (Ha : Forall s_size_only (map ordinal_size_expr tys)).
    { induction H as [|t tys H1 H IH]; cbn; constructor; [exact H1|exact IH]. }
    unfold size_form. destruct (map ordinal_size_expr tys) as [|a [|b r]]; cbn [product_ignore_const].
    - exact I.
    - inversion Ha; assumption.
    - cbn [s_size_only]. induction Ha; cbn; auto.
  Qed.

  Lemma size_form_only tys ns : has_sizes tys ns -> s_size_only (size_form tys).
  Proof.
    intros H. apply size_form_known. induction H as [|t n tys ns H1 H IH]; constructor; [|exact IH].
    left. eauto.
  Qed.

  (** If the product of the sizes evaluates, all the sizes do. *)
  Lemma size_form_parts ctx fo ov tys v : SV ctx fo ov (size_form tys) v ->
    Forall (fun t => exists n, ORDINAL_SIZE (ft_ord t) = Val n) tys.
  Proof.
    unfold size_form. destruct tys as [|a [|b r]]; cbn [map product_ignore_const]; intros H.
    - constructor.
    - constructor; [exists v; exact H|constructor].
    - apply SV_product in H. destruct H as (_ & vs & H & _).
      change (ordinal_size_expr a :: ordinal_size_expr b :: map ordinal_size_expr r)
        with (map ordinal_size_expr (a :: b :: r)) in H.
      revert H. generalize (a :: b :: r) as l. clear. intros l. revert vs.
      induction l as [|t l IH]; intros vs H; [constructor|].
      inversion H as [|? v ? vs' H1 H2]; subst. constructor; [exists v; exact H1|exact (IH _ H2)].
  Qed.
End FieldSizes.
