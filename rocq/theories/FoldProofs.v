(** * FoldProofs: constant folding in the derive macro preserves values (C71). *)
From Verif Require Import Base Spec ModelDerive SpecFold BaseProofs.
From Coq Require Import List. Import ListNotations.
Unset Strict Implicit.

Lemma Val_inj {A} (a b : A) : Val a = Val b -> a = b.
Proof. congruence. Qed.

Lemma prod_app a b : product_of (a ++ b) = product_of a * product_of b.
Proof. induction a as [|x a IH]; unfold product_of in *; cbn -[N.mul]; [lia|]. rewrite IH. lia. Qed.
Lemma sum_app a b : sum_of (a ++ b) = sum_of a + sum_of b.
Proof. induction a as [|x a IH]; unfold sum_of in *; cbn -[N.add]; [lia|]. rewrite IH. lia. Qed.

Lemma prod_one x : product_of [x] = x.
Proof. unfold product_of. cbn -[N.mul]. lia. Qed.
Lemma sum_one x : sum_of [x] = x.
Proof. unfold sum_of. cbn -[N.add]. lia. Qed.

Lemma two_parts_list l : (fix all (l : list SizeExpr) : Prop :=
         match l with [] => True | x :: r => two_parts x /\ all r end) l <-> Forall two_parts l.
Proof.
  induction l as [|x r IH]; [split; auto|]. rewrite Forall_cons_iff. rewrite <- IH. reflexivity.
Qed.

Section Fold.
  Variables (fo : nat -> res N) (ov : N).
  Notation val := (sval fo ov).

  Lemma product_ignore_val l : val (product_ignore_const l) = product_of (map val l).
  Proof. destruct l as [|a [|b r]]; cbn -[N.mul]; unfold product_of; cbn -[N.mul]; lia. Qed.
  Lemma sum_ignore_val l : val (sum_ignore_const l) = sum_of (map val l).
  Proof. destruct l as [|a [|b r]]; cbn -[N.add]; unfold sum_of; cbn -[N.add]; lia. Qed.

  Lemma product_scan_val es : forall p items q items', product_scan es p items = Val (q, items') ->
    q * product_of (map val items') = p * product_of (map val items) * product_of (map val es).
  Proof.
    induction es as [|e es IH]; intros p items q items' H; cbn [product_scan] in H.
    - injection H as <- <-. change (map val []) with (@nil N). change (product_of []) with 1. lia.
    - change (product_of (map val (e :: es))) with (val e * product_of (map val es)).
      destruct e as [c|x|l|l].
      + destruct (p * c <=? u64_max); [|discriminate]. rewrite (IH _ _ _ _ H). cbn [sval]. lia.
      + rewrite (IH _ _ _ _ H), map_app, prod_app. change (map val [SSyn x]) with [val (SSyn x)]. rewrite (prod_one (val (SSyn x))). lia.
      + rewrite (IH _ _ _ _ H), map_app, prod_app. change (map val [SSum l]) with [val (SSum l)]. rewrite (prod_one (val (SSum l))). lia.
      + rewrite (IH _ _ _ _ H), map_app, prod_app. cbn [sval]. lia.
  Qed.
  Lemma sum_scan_val es : forall p items q items', sum_scan es p items = Val (q, items') ->
    q + sum_of (map val items') = p + sum_of (map val items) + sum_of (map val es).
  Proof.
    induction es as [|e es IH]; intros p items q items' H; cbn [sum_scan] in H.
    - injection H as <- <-. change (map val []) with (@nil N). change (sum_of []) with 0. lia.
    - change (sum_of (map val (e :: es))) with (val e + sum_of (map val es)).
      destruct e as [c|x|l|l].
      + destruct (p + c <=? u64_max); [|discriminate]. rewrite (IH _ _ _ _ H). cbn [sval]. lia.
      + rewrite (IH _ _ _ _ H), map_app, sum_app. change (map val [SSyn x]) with [val (SSyn x)]. rewrite (sum_one (val (SSyn x))). lia.
      + rewrite (IH _ _ _ _ H), map_app, sum_app. cbn [sval]. lia.
      + rewrite (IH _ _ _ _ H), map_app, sum_app. change (map val [SProduct l]) with [val (SProduct l)]. rewrite (sum_one (val (SProduct l))). lia.
  Qed.

  Lemma product_val es s : product es = Val s -> val s = product_of (map val es).
  Proof.
    unfold product. intros H. destruct (product_scan es 1 []) as [[p items]| | | |] eqn:E; try discriminate H. cbn [bind] in H.
    apply product_scan_val in E. change (map val []) with (@nil N) in E. change (product_of []) with 1 in E.
    destruct (N.eqb_spec p 0) as [->|H0]; [injection H as <-; cbn [sval]; lia|].
    destruct (N.eqb_spec p 1) as [->|H1]; apply Val_inj in H; subst s; rewrite product_ignore_val; [lia|].
    change (product_of (map val (SConst p :: items))) with (p * product_of (map val items)). lia.
  Qed.
  Lemma sum_val es s : sum es = Val s -> val s = sum_of (map val es).
  Proof.
    unfold sum. intros H. destruct (sum_scan es 0 []) as [[p items]| | | |] eqn:E; try discriminate H. cbn [bind] in H.
    apply sum_scan_val in E. change (map val []) with (@nil N) in E. change (sum_of []) with 0 in E.
    destruct (N.eqb_spec p 0) as [->|H0]; apply Val_inj in H; subst s; rewrite sum_ignore_val; [lia|].
    change (sum_of (map val (SConst p :: items))) with (p + sum_of (map val items)). lia.
  Qed.

  Lemma chain_add es e : chain RAdd es = Val e -> rval fo ov e = sum_of (map (rval fo ov) es).
  Proof.
    destruct es as [|a [|b r]]; try discriminate. intros H. apply Val_inj in H. subst e. cbn [tl].
    generalize (b :: r) as l. intros l. revert a. induction l as [|x l IH]; intros a.
    - cbn [fold_left map]. now rewrite sum_one.
    - cbn [fold_left]. rewrite IH. cbn [map rval]. unfold sum_of. cbn [fold_right]. lia.
  Qed.
  Lemma chain_mul es e : chain RMul es = Val e -> rval fo ov e = product_of (map (rval fo ov) es).
  Proof.
    destruct es as [|a [|b r]]; try discriminate. intros H. apply Val_inj in H. subst e. cbn [tl].
    generalize (b :: r) as l. intros l. revert a. induction l as [|x l IH]; intros a.
    - cbn [fold_left map]. now rewrite prod_one.
    - cbn [fold_left]. rewrite IH. cbn [map rval]. unfold product_of. cbn [fold_right]. lia.
  Qed.
End Fold.

Fixpoint exprs_of (l : list SizeExpr) : res (list rexpr) :=
  match l with
  | [] => Val []
  | x :: r => e <- expr x ;; es <- exprs_of r ;; Val (e :: es)
  end.
Lemma expr_SSum l : expr (SSum l) = (es <- exprs_of l ;; chain RAdd es).
Proof. reflexivity. Qed.
Lemma expr_SProduct l : expr (SProduct l) = (es <- exprs_of l ;; chain RMul es).
Proof. reflexivity. Qed.

Section Ind.
  Variable P : SizeExpr -> Prop.
  Hypotheses (Hc : forall c, P (SConst c)) (Hs : forall e, P (SSyn e)) (Hp : forall l, Forall P l -> P (SProduct l))
    (Ha : forall l, Forall P l -> P (SSum l)).
  Fixpoint SizeExpr_rec' (s : SizeExpr) : P s.
  Proof.
    destruct s as [c|e|l|l]; [apply Hc|apply Hs|apply Ha|apply Hp];
      induction l as [|x r IH]; constructor; [apply SizeExpr_rec'|exact IH|apply SizeExpr_rec'|exact IH].
  Defined.
End Ind.

Lemma exprs_ok l : Forall (fun s => two_parts s -> exists e, expr s = Val e /\ forall fo ov, rval fo ov e = sval fo ov s) l ->
  Forall two_parts l ->
  exists es, exprs_of l = Val es /\ length es = length l /\ forall fo ov, map (rval fo ov) es = map (sval fo ov) l.
Proof.
  induction 1 as [|s l Hs _ IH]; intros Ht; [exists []; auto|].
  inversion Ht as [|? ? H1 H2]; subst. destruct (Hs H1) as (e & E & V). destruct (IH H2) as (es & Es & L & Vs).
  exists (e :: es). cbn [exprs_of]. rewrite E, Es. split; [reflexivity|]. split; [cbn; congruence|].
  intros fo ov. cbn [map]. now rewrite V, Vs.
Qed.

Lemma expr_val s : two_parts s -> exists e, expr s = Val e /\ forall fo ov, rval fo ov e = sval fo ov s.
Proof.
  induction s as [c|e|l IH|l IH] using SizeExpr_rec'; intros Ht.
  - exists (RLit c). auto.
  - exists e. auto.
  - destruct Ht as [Hl Ht]. apply two_parts_list in Ht. destruct (exprs_ok IH Ht) as (es & E & L & V).
    rewrite expr_SProduct, E. cbn [bind]. destruct es as [|a [|b r]]; cbn in L; try lia.
    eexists. split; [reflexivity|]. intros fo ov.
    cbn [sval]. rewrite <- V. exact (@chain_mul fo ov (a :: b :: r) _ eq_refl).
  - destruct Ht as [Hl Ht]. apply two_parts_list in Ht. destruct (exprs_ok IH Ht) as (es & E & L & V).
    rewrite expr_SSum, E. cbn [bind]. destruct es as [|a [|b r]]; cbn in L; try lia.
    eexists. split; [reflexivity|]. intros fo ov.
    cbn [sval]. rewrite <- V. exact (@chain_add fo ov (a :: b :: r) _ eq_refl).
Qed.

Lemma const_expr_val s : two_parts s -> exists e, const_expr s = Val e /\ forall fo ov, rval fo ov e = sval fo ov s.
Proof.
  intros Ht. destruct (expr_val Ht) as (e & E & V). destruct s as [c|x|l|l].
  - exists (RLit c). auto.
  - exists (RConst x). auto.
  - exists (RConst e). cbn [const_expr]. rewrite E. auto.
  - exists (RConst e). cbn [const_expr]. rewrite E. auto.
Qed.

Lemma product_ignore_wf l : Forall two_parts l -> two_parts (product_ignore_const l).
Proof.
  destruct l as [|a [|b r]]; intros H; [exact I|now inversion H|].
  cbn [product_ignore_const]. split; [cbn; lia|]. exact (proj2 (two_parts_list _) H).
Qed.
Lemma sum_ignore_wf l : Forall two_parts l -> two_parts (sum_ignore_const l).
Proof.
  destruct l as [|a [|b r]]; intros H; [exact I|now inversion H|].
  cbn [sum_ignore_const]. split; [cbn; lia|]. exact (proj2 (two_parts_list _) H).
Qed.

Lemma product_scan_wf es : Forall two_parts es -> forall p items q items', Forall two_parts items ->
  product_scan es p items = Val (q, items') -> Forall two_parts items'.
Proof.
  induction 1 as [|e es He H IH]; intros p items q items' Hi E; cbn [product_scan] in E; [now injection E as <- <-|].
  destruct e as [c|x|l|l].
  - destruct (_ <=? _); [|discriminate]. eauto.
  - eapply IH; [|exact E]. apply Forall_app. auto.
  - eapply IH; [|exact E]. apply Forall_app. auto.
  - eapply IH; [|exact E]. apply Forall_app. split; [exact Hi|]. now apply two_parts_list, He.
Qed.
Lemma sum_scan_wf es : Forall two_parts es -> forall p items q items', Forall two_parts items ->
  sum_scan es p items = Val (q, items') -> Forall two_parts items'.
Proof.
  induction 1 as [|e es He H IH]; intros p items q items' Hi E; cbn [sum_scan] in E; [now injection E as <- <-|].
  destruct e as [c|x|l|l].
  - destruct (_ <=? _); [|discriminate]. eauto.
  - eapply IH; [|exact E]. apply Forall_app. auto.
  - eapply IH; [|exact E]. apply Forall_app. split; [exact Hi|]. now apply two_parts_list, He.
  - eapply IH; [|exact E]. apply Forall_app. auto.
Qed.

Lemma product_wf es s : Forall two_parts es -> product es = Val s -> two_parts s.
Proof.
  unfold product. intros Hw H. destruct (product_scan es 1 []) as [[p items]| | | |] eqn:E; try discriminate H. cbn [bind] in H.
  pose proof (product_scan_wf Hw (Forall_nil _) E) as Hi.
  destruct (p =? 0); [now injection H as <-|].
  destruct (p =? 1); apply Val_inj in H; subst s; apply product_ignore_wf; [exact Hi|now constructor].
Qed.
Lemma sum_wf es s : Forall two_parts es -> sum es = Val s -> two_parts s.
Proof.
  unfold sum. intros Hw H. destruct (sum_scan es 0 []) as [[p items]| | | |] eqn:E; try discriminate H. cbn [bind] in H.
  pose proof (sum_scan_wf Hw (Forall_nil _) E) as Hi.
  destruct (p =? 0); apply Val_inj in H; subst s; apply sum_ignore_wf; [exact Hi|now constructor].
Qed.

(** When the macro gives up. *)
Lemma product_scan_stops es : forall p items, p <= u64_max ->
  (exists q items', product_scan es p items = Val (q, items')) /\
    (forall k, p * product_of (firstn k (constants es)) <= u64_max) \/
  product_scan es p items = NoCompile /\ (exists k, u64_max < p * product_of (firstn k (constants es))).
Proof.
  induction es as [|e es IH]; intros p items Hp.
  - left. split; [cbn; eauto|]. intros k. cbn [constants]. rewrite firstn_nil. unfold product_of. cbn -[N.mul]. lia.
  - destruct e as [c|x|l|l]; cbn [product_scan constants]; try apply IH; try exact Hp.
    destruct (N.leb_spec (p * c) u64_max) as [H|H].
    + destruct (IH (p * c) items H) as [[E K]|[E [k K]]].
      * left. split; [exact E|]. intros [|k]; [unfold product_of; cbn -[N.mul]; lia|].
        cbn [firstn]. change (product_of (c :: firstn k (constants es))) with (c * product_of (firstn k (constants es))).
        specialize (K k). lia.
      * right. split; [exact E|]. exists (S k). cbn [firstn].
        change (product_of (c :: firstn k (constants es))) with (c * product_of (firstn k (constants es))). lia.
    + right. split; [reflexivity|]. exists 1%nat. cbn [firstn]. unfold product_of. cbn -[N.mul]. lia.
Qed.
Lemma sum_scan_stops es : forall p items, p <= u64_max ->
  (exists q items', sum_scan es p items = Val (q, items')) /\ p + sum_of (constants es) <= u64_max \/
  sum_scan es p items = NoCompile /\ u64_max < p + sum_of (constants es).
Proof.
  induction es as [|e es IH]; intros p items Hp.
  - left. split; [cbn; eauto|]. cbn [constants]. unfold sum_of. cbn -[N.add]. lia.
  - destruct e as [c|x|l|l]; cbn [sum_scan constants]; try apply IH; try exact Hp.
    change (sum_of (c :: constants es)) with (c + sum_of (constants es)).
    destruct (N.leb_spec (p + c) u64_max) as [H|H].
    + destruct (IH (p + c) items H) as [[E K]|[E K]]; [left|right]; (split; [exact E|lia]).
    + right. split; [reflexivity|lia].
Qed.

Lemma product_returns es :
  (exists s, product es = Val s) /\ (forall k, product_of (firstn k (constants es)) <= u64_max) \/
  product es = NoCompile /\ (exists k, u64_max < product_of (firstn k (constants es))).
Proof.
  unfold product. destruct (@product_scan_stops es 1 [] ltac:(unfold u64_max; lia)) as [[(q & i & E) K]|[E [k K]]]; rewrite E; cbn [bind].
  - left. split; [destruct (q =? 0), (q =? 1); eauto|]. intros k. specialize (K k). lia.
  - right. split; [reflexivity|]. exists k. lia.
Qed.
Lemma sum_returns es :
  (exists s, sum es = Val s) /\ sum_of (constants es) <= u64_max \/ sum es = NoCompile /\ u64_max < sum_of (constants es).
Proof.
  unfold sum. destruct (@sum_scan_stops es 0 [] ltac:(unfold u64_max; lia)) as [[(q & i & E) K]|[E K]]; rewrite E; cbn [bind].
  - left. split; [destruct (q =? 0); eauto|]. lia.
  - right. split; [reflexivity|]. lia.
Qed.

(** Checked evaluation computes the value. *)
Lemma pick_val {cfg : Config} (ctx : bool) z v : ctx = true \/ overflow_checks = true ->
  (if ctx then usize_const z else usize_rt z) = Val v -> v = Z.to_N z.
Proof.
  unfold usize_const, usize_rt. intros Hc H. destruct ((0 <=? z)%Z && (z <=? Z.of_N usize_max)%Z).
  - destruct ctx; congruence.
  - destruct ctx; [discriminate|]. destruct Hc as [Hc|Hc]; [discriminate|]. rewrite Hc in H. discriminate.
Qed.
Lemma eval_val {cfg : Config} ctx fo ov e v : ctx = true \/ overflow_checks = true ->
  eval ctx fo ov e = Val v -> v = rval fo ov e.
Proof.
  revert ctx v. induction e as [c|ty|i|a IHa b IHb|a IHa b IHb|a IHa b IHb| |e IH]; intros ctx v Hc H; cbn [eval rval] in *.
  - destruct (c <=? usize_max); congruence.
  - now rewrite H.
  - now rewrite H.
  - destruct (eval ctx fo ov a) as [x| | | |] eqn:Ea; try discriminate H. destruct (eval ctx fo ov b) as [y| | | |] eqn:Eb; try discriminate H.
    rewrite <- (IHa ctx x Hc Ea), <- (IHb ctx y Hc Eb). cbn [bind] in H. unfold cadd, uadd in H.
    rewrite (pick_val Hc H). lia.
  - destruct (eval ctx fo ov a) as [x| | | |] eqn:Ea; try discriminate H. destruct (eval ctx fo ov b) as [y| | | |] eqn:Eb; try discriminate H.
    rewrite <- (IHa ctx x Hc Ea), <- (IHb ctx y Hc Eb). cbn [bind] in H. unfold cmul, umul in H.
    rewrite (pick_val Hc H). lia.
  - destruct (eval ctx fo ov a) as [x| | | |] eqn:Ea; try discriminate H. destruct (eval ctx fo ov b) as [y| | | |] eqn:Eb; try discriminate H.
    rewrite <- (IHa ctx x Hc Ea), <- (IHb ctx y Hc Eb). cbn [bind] in H. unfold csub, usub in H.
    rewrite (pick_val Hc H). lia.
  - congruence.
  - apply (IH true); auto.
Qed.

Lemma product_law es s : product es = Val s -> forall fo ov, sval fo ov s = product_of (map (sval fo ov) es).
Proof. intros H fo ov. now apply product_val. Qed.
Lemma sum_law es s : sum es = Val s -> forall fo ov, sval fo ov s = sum_of (map (sval fo ov) es).
Proof. intros H fo ov. now apply sum_val. Qed.
