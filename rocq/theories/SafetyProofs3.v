(** * SafetyProofs3: printing of iterators, and the impls of the crate, with arbitrary Ordinal impls (C64). *)
From Verif Require Import Base Spec SpecMap SpecSet SpecSafety ModelOrdinal ModelValues ModelArrayBuilder
  ModelIter ModelTotal ModelMap ModelSet ModelDerive ModelAtomic SpecAtomic BaseProofs ArrayProofs IterLib DeriveProofs
  SafetyProofs SafetyProofs2.
From Coq Require Import List Lia. Import ListNotations.
Unset Strict Implicit.

(** ** Debug of the iterators *)
Section Debug.
  Context {cfg : Config} {K V : Type} (O : Ordinal K) (HO : any_impl O).

  Lemma collected {St A} (step : dir -> St -> res (option A * St)) m d s fuel :
    good_step step (fun _ => True) (fun _ : A => True) m -> (m s < fuel)%nat ->
    no_ub ('(l, _) <- collect (step d) fuel s ;; Val l).
  Proof.
    intros H L. apply post_no_ub with (P := fun _ => True).
    apply post_bind with (1 := post_collect H d (s := s) I L). intros [? ?] _. exact I.
  Qed.
  Lemma clone_ilen {A} (f : A -> A) (s : enumerate A) : (ilen (enumerate_clone f s) < S (length (e_items s)))%nat.
  Proof. unfold ilen, enumerate_clone. cbn. rewrite map_length. lia. Qed.

  Lemma titer_debug_good (s : @TIter V) : no_ub (TIter_debug O s).
  Proof. apply collected with (m := @ilen V); [apply titer_good, HO|apply clone_ilen]. Qed.
  Lemma iter_debug_good (s : @Iter V) : no_ub (Iter_debug O s).
  Proof. apply collected with (m := @ilen (option V)); [apply iter_good, HO|apply clone_ilen]. Qed.
  Lemma keys_debug_good (s : @Keys V) : no_ub (Keys_debug O s).
  Proof. apply collected with (m := @ilen (option V)); [apply keys_good, HO|apply clone_ilen]. Qed.
  Lemma values_debug_good (s : @Values V) : no_ub (Values_debug O s).
  Proof. apply collected with (m := @ilen (option V)); [apply mvalues_good, HO|apply clone_ilen]. Qed.

  Lemma titer_mut_iter_good {W} (st : list W) it : items_ok (in_bounds st) it ->
    post (TIterMut_iter st it) (fun _ => True).
  Proof. intros H. apply post_bind with (1 := read_slots_good H). cbn; auto. Qed.

  (** After any number of calls of next and next_back. *)
  Lemma iter_mut_debug_good (m : list (option V)) sched :
    no_ub ('(_, it) <- drive (IterMut_step O m) sched (OrdinalMap_iter_mut m) ;; IterMut_debug O m it).
  Proof.
    assert (B : items_ok (in_bounds m) (OrdinalMap_iter_mut m)) by apply in_bounds_slots.
    apply post_no_ub with (P := fun _ => True).
    apply post_bind with (1 := post_drive (iter_mut_good HO (storage := m)) sched B). intros [got it] (_ & H). cbn [snd] in H.
    apply post_bind with (P := fun _ => True).
    - apply post_bind with (1 := titer_mut_iter_good H). cbn; auto.
    - intros s _. apply no_ub_post, iter_debug_good.
  Qed.
  Lemma values_mut_debug_good (m : list (option V)) sched :
    no_ub ('(_, it) <- drive (ValuesMut_step O m) sched (OrdinalMap_values_mut m) ;; ValuesMut_debug O m it).
  Proof.
    assert (B : items_ok (in_bounds m) (OrdinalMap_values_mut m)) by apply in_bounds_slots.
    apply post_no_ub with (P := fun _ => True).
    apply post_bind with (1 := post_drive (values_mut_good HO (storage := m)) sched B). intros [got it] (_ & H). cbn [snd] in H.
    apply post_bind with (P := fun _ => True).
    - apply post_bind with (P := fun _ => True); [|cbn; auto]. apply post_bind with (1 := titer_mut_iter_good H). cbn; auto.
    - intros s _. apply no_ub_post, values_debug_good.
  Qed.
  Lemma titer_mut_debug_good (m : list V) sched :
    no_ub ('(_, it) <- drive (TIterMut_step O) sched (OrdinalTotalMap_iter_mut m) ;; TIterMut_debug O m it).
  Proof.
    assert (B : items_ok (in_bounds m) (OrdinalTotalMap_iter_mut m)) by apply in_bounds_slots.
    apply post_no_ub with (P := fun _ => True).
    apply post_bind with (1 := post_drive (titer_mut_good HO (st := m)) sched B). intros [got it] (_ & H). cbn [snd] in H.
    apply post_bind with (1 := titer_mut_iter_good H). intros s _. apply no_ub_post, titer_debug_good.
  Qed.
End Debug.

(** ** The impls *)
Ltac nu := match goal with
  | |- no_ub (match ?x with _ => _ end) => destruct x
  | |- no_ub (if ?b then _ else _) => destruct b
  | |- no_ub (Val _) => exact I
  | |- no_ub (Panic _) => exact I
  | |- no_ub NoCompile => exact I
  end.

Section Closure.
  Context {cfg : Config}.

  Lemma post_cadd a b : post (cadd a b) (fun _ => True).
  Proof. unfold cadd, usize_const. destruct (_ && _)%bool; exact I. Qed.
  Lemma post_csub a b : post (csub a b) (fun _ => True).
  Proof. unfold csub, usize_const. destruct (_ && _)%bool; exact I. Qed.
  Lemma post_cmul a b : post (cmul a b) (fun _ => True).
  Proof. unfold cmul, usize_const. destruct (_ && _)%bool; exact I. Qed.
  Lemma post_umul a b : post (umul a b) (fun _ => True).
  Proof. unfold umul, usize_rt. destruct (_ && _)%bool; [exact I|]. destruct overflow_checks; exact I. Qed.

  Lemma any_Box {T} (O : Ordinal T) : any_impl O -> any_impl (Ordinal_Box O).
  Proof.
    intros H. split; [|split]; cbn; [apply H|intros t; apply H|]. intros i. apply post_no_ub with (P := fun _ => True).
    apply post_bind with (1 := post_from H i). intros [?|] _; exact I.
  Qed.
  Lemma any_Option {T} (O : Ordinal T) : any_impl O -> any_impl (Ordinal_Option O).
  Proof.
    intros H. split; [|split]; cbn; intros; apply post_no_ub with (P := fun _ => True).
    - apply post_bind with (1 := post_size H). intros a _. apply post_cadd.
    - destruct t as [t|]; [|exact I]. apply post_bind with (1 := post_ordinal H t). intros i _. now apply post_uadd.
    - destruct (_ =? _); [exact I|]. apply post_bind with (P := fun _ => True); [now apply post_usub|]. intros o _.
      apply post_bind with (1 := post_from H o). cbn; auto.
  Qed.
  Lemma any_Result {A B} (OA : Ordinal A) (OB : Ordinal B) : any_impl OA -> any_impl OB -> any_impl (Ordinal_Result OA OB).
  Proof.
    intros HA HB. split; [|split]; cbn; intros; apply post_no_ub with (P := fun _ => True);
      apply post_bind with (1 := post_size HA); intros a _.
    - apply post_bind with (1 := post_size HB). intros b _. apply post_cadd.
    - destruct t as [t|t]; [apply (post_ordinal HA)|]. apply post_bind with (1 := post_ordinal HB t). intros j _. now apply post_uadd.
    - destruct (_ <? _).
      + apply post_bind with (1 := post_from HA i). intros r _. apply post_bind with (P := fun _ => True); [now apply post_unwrap|]. cbn; auto.
      + apply post_bind with (P := fun _ => True); [now apply post_usub|]. intros o _.
        apply post_bind with (1 := post_from HB o). cbn; auto.
  Qed.
  Lemma any_Either {A B} (OA : Ordinal A) (OB : Ordinal B) : any_impl OA -> any_impl OB -> any_impl (Ordinal_Either OA OB).
  Proof.
    intros HA HB. split; [apply (any_Result HA HB)|split]; cbn; intros; apply post_no_ub with (P := fun _ => True);
      apply post_bind with (1 := post_size HA); intros a _.
    - destruct t as [t|t]; [apply (post_ordinal HA)|]. apply post_bind with (1 := post_ordinal HB t). intros j _. now apply post_uadd.
    - destruct (_ <? _).
      + apply post_bind with (1 := post_from HA i). intros r _. apply post_bind with (P := fun _ => True); [now apply post_unwrap|]. cbn; auto.
      + apply post_bind with (P := fun _ => True); [now apply post_usub|]. intros o _.
        apply post_bind with (1 := post_from HB o). cbn; auto.
  Qed.

  Lemma array_size_loop_good size n : forall s, no_ub (array_size_loop size n s).
  Proof. induction n as [|n IH]; intros s; cbn; [exact I|]. destruct (checked_mul s size); [apply IH|exact I]. Qed.
  Lemma any_array {T} (O : Ordinal T) len : any_impl O -> any_impl (Ordinal_array O len).
  Proof.
    intros H. split; [|split]; cbn; intros.
    - apply post_no_ub with (P := fun _ => True). apply post_bind with (1 := post_size H). intros s _.
      apply no_ub_post, array_size_loop_good.
    - apply post_no_ub with (P := fun _ => True). apply post_bind with (1 := post_size H). intros s _.
      generalize 0. induction (arr_list t) as [|v l IH]; intros r; cbn [array_ordinal_loop]; [exact I|].
      apply post_bind with (P := fun _ => True); [now apply post_unwrap|]. intros r1 _.
      apply post_bind with (1 := post_ordinal H v). intros j _.
      apply post_bind with (P := fun _ => True); [now apply post_uadd|]. intros r2 _. apply IH.
    - unfold array_from_ordinal. destruct (ORDINAL_SIZE O) as [size| | | |]; try exact I.
      rewrite builder_new_of.
      assert (G : forall turns n l, (length l + turns = len)%nat ->
        no_ub (returned (array_from_loop O len size turns n (builder_of len l)))); [|apply G; reflexivity].
      induction turns as [|turns IH]; intros n l Hl; cbn [array_from_loop].
      + destruct (negb (n =? 0)); [rewrite leave_ok; exact I|]. cbv zeta. cbn [returned].
        destruct (@finish_ok T len l) as (a & -> & Ha); [lia|]. cbn [returned bind].
        destruct (@try_arr_ok T len (rev (arr_list a))) as (a' & -> & _); [|exact I].
        rewrite rev_length. apply arr_length.
      + destruct (checked_rem n size) as [j|] eqn:Er; [|rewrite leave_ok; exact I].
        pose proof (proj2 (proj2 H) j) as Hf.
        destruct (from_ordinal O j) as [[v|]| | | |]; try contradiction Hf; cbn [bind unwrap];
          try (rewrite leave_ok; exact I); [|exact I].
        rewrite push_ok by lia.
        assert (U : exists q, udiv n size = Val q).
        { unfold checked_rem in Er. unfold udiv. destruct (size =? 0); [discriminate|]. eauto. }
        destruct U as (q & ->). apply IH. rewrite app_length. cbn. lia.
  Qed.

  (** *** Derived impls *)
  Definition any_field (ty : ftype) : Prop := any_impl (ft_ord ty).

  Fixpoint rok (e : rexpr) : Prop :=
    match e with
    | RSizeOf ty => any_field ty
    | RAdd a b | RMul a b | RSub a b => rok a /\ rok b
    | RConst e => rok e
    | _ => True
    end.
  Fixpoint sok (s : SizeExpr) : Prop :=
    match s with
    | SConst _ => True
    | SSyn e => rok e
    | SSum l | SProduct l => (fix go l := match l with [] => True | x :: r => sok x /\ go r end) l
    end.
  Lemma sok_sum l : sok (SSum l) <-> Forall sok l.
  Proof. induction l as [|x l IH]; cbn; [intuition|]. cbn in IH. rewrite IH, Forall_cons_iff. reflexivity. Qed.
  Lemma sok_product l : sok (SProduct l) <-> Forall sok l.
  Proof. induction l as [|x l IH]; cbn; [intuition|]. cbn in IH. rewrite IH, Forall_cons_iff. reflexivity. Qed.

  Lemma eval_good ctx fo ov e : rok e -> (forall i, no_ub (fo i)) -> no_ub (eval ctx fo ov e).
  Proof.
    intros He Hf. apply post_no_ub with (P := fun _ => True). revert ctx He.
    induction e as [c|ty|i|a IHa b IHb|a IHa b IHb|a IHa b IHb| |e IH]; intros ctx He; cbn [eval rok] in *.
    - destruct (_ <=? _); exact I.
    - apply (post_size He).
    - apply no_ub_post, Hf.
    - destruct He as [Ha Hb]. apply post_bind with (1 := IHa ctx Ha). intros x _. apply post_bind with (1 := IHb ctx Hb). intros y _.
      destruct ctx; [apply post_cadd|now apply post_uadd].
    - destruct He as [Ha Hb]. apply post_bind with (1 := IHa ctx Ha). intros x _. apply post_bind with (1 := IHb ctx Hb). intros y _.
      destruct ctx; [apply post_cmul|apply post_umul].
    - destruct He as [Ha Hb]. apply post_bind with (1 := IHa ctx Ha). intros x _. apply post_bind with (1 := IHb ctx Hb). intros y _.
      destruct ctx; [apply post_csub|now apply post_usub].
    - exact I.
    - apply IH, He.
  Qed.

  Lemma product_scan_good es : forall p items, Forall sok es -> Forall sok items ->
    post (product_scan es p items) (fun r => Forall sok (snd r)).
  Proof.
    induction es as [|s es IH]; intros p items He Hi; cbn [product_scan]; [exact Hi|].
    inversion He as [|? ? H1 H2]; subst. destruct s as [c|e|l|l].
    - destruct (_ <=? _); [now apply IH|exact I].
    - apply IH; [exact H2|]. apply Forall_app. auto.
    - apply IH; [exact H2|]. apply Forall_app. auto.
    - apply IH; [exact H2|]. apply Forall_app. split; [exact Hi|]. now apply sok_product.
  Qed.
  Lemma sum_scan_good es : forall p items, Forall sok es -> Forall sok items ->
    post (sum_scan es p items) (fun r => Forall sok (snd r)).
  Proof.
    induction es as [|s es IH]; intros p items He Hi; cbn [sum_scan]; [exact Hi|].
    inversion He as [|? ? H1 H2]; subst. destruct s as [c|e|l|l].
    - destruct (_ <=? _); [now apply IH|exact I].
    - apply IH; [exact H2|]. apply Forall_app. auto.
    - apply IH; [exact H2|]. apply Forall_app. split; [exact Hi|]. now apply sok_sum.
    - apply IH; [exact H2|]. apply Forall_app. auto.
  Qed.
  Lemma product_ignore_good l : Forall sok l -> sok (product_ignore_const l).
  Proof.
    intros H. destruct l as [|x [|y l]]; cbn [product_ignore_const]; [exact I|now inversion H|].
    apply sok_product, H.
  Qed.
  Lemma sum_ignore_good l : Forall sok l -> sok (sum_ignore_const l).
  Proof.
    intros H. destruct l as [|x [|y l]]; cbn [sum_ignore_const]; [exact I|now inversion H|].
    apply sok_sum, H.
  Qed.
  Lemma product_good es : Forall sok es -> post (product es) sok.
  Proof.
    intros H. apply post_bind with (1 := product_scan_good 1 H (Forall_nil _)). intros [p items] Hi. cbn [snd] in Hi.
    destruct (p =? 0); [exact I|]. destruct (p =? 1); apply product_ignore_good; [exact Hi|]. constructor; [exact I|exact Hi].
  Qed.
  Lemma sum_good es : Forall sok es -> post (sum es) sok.
  Proof.
    intros H. apply post_bind with (1 := sum_scan_good 0 H (Forall_nil _)). intros [p items] Hi. cbn [snd] in Hi.
    destruct (p =? 0); apply sum_ignore_good; [exact Hi|]. constructor; [exact I|exact Hi].
  Qed.
  Lemma fold_good op es : (forall a b, rok a -> rok b -> rok (op a b)) -> forall e0, rok e0 -> Forall rok es -> rok (fold_left op es e0).
  Proof.
    intros Hop. induction es as [|e es IH]; intros e0 H0 H; [exact H0|]. inversion H; subst. cbn. apply IH; auto.
  Qed.
  Lemma chain_good op es : (forall a b, rok a -> rok b -> rok (op a b)) -> Forall rok es -> post (chain op es) rok.
  Proof.
    intros Hop H. destruct es as [|x [|y es]]; [exact I|exact I|]. cbn [chain post]. inversion H; subst.
    apply fold_good; auto.
  Qed.
  Lemma exprs_good l : Forall (fun s => sok s -> post (expr s) rok) l -> Forall sok l -> post (exprs l) (Forall rok).
  Proof.
    induction 1 as [|s l Hs Hl IH]; intros H; cbn [exprs]; [constructor|]. inversion H; subst.
    apply post_bind with (1 := Hs ltac:(assumption)). intros e He. apply post_bind with (1 := IH ltac:(assumption)). intros es Hes.
    constructor; assumption.
  Qed.
  Lemma expr_good s : sok s -> post (expr s) rok.
  Proof.
    induction s as [c|e|l IH|l IH] using SizeExpr_ind'; intros H.
    - exact I.
    - exact H.
    - rewrite expr_sum. apply post_bind with (1 := exprs_good IH (proj1 (sok_sum l) H)). intros es Hes.
      apply chain_good; cbn; auto.
    - rewrite expr_product. apply post_bind with (1 := exprs_good IH (proj1 (sok_product l) H)). intros es Hes.
      apply chain_good; cbn; auto.
  Qed.
  Lemma const_expr_good s : sok s -> post (const_expr s) rok.
  Proof.
    intros H. destruct s; cbn [const_expr]; [exact I| | |];
      (apply post_bind with (1 := expr_good H); intros x Hx; exact Hx).
  Qed.

  Lemma sizes_good tys : Forall any_field tys -> Forall sok (map ordinal_size_expr tys).
  Proof. intros H. apply Forall_map. eapply Forall_impl; [|exact H]. auto. Qed.
  Lemma struct_ordinal_size_good tys : Forall any_field tys -> post (struct_ordinal_size tys) sok.
  Proof. intros H. apply product_good, sizes_good, H. Qed.
  Lemma struct_ordinal_impl_good tys : forall fs, Forall any_field tys -> post (struct_ordinal_impl fs tys) sok.
  Proof.
    induction tys as [|ty tys IH]; intros fs H; cbn [struct_ordinal_impl].
    - destruct fs as [|f [|g fs]]; exact I.
    - inversion H as [|? ? H1 H2]; subst.
      destruct fs as [|f [|g fs]]; [exact I| |].
      + destruct tys; [exact I|]. apply post_bind with (1 := product_good (sizes_good H2)). intros c Hc. exact I.
      + change (post (c <- product (map ordinal_size_expr tys) ;; e <- struct_ordinal_impl (g :: fs) tys ;;
                      tuple_2_ordinal (ordinal_expr f) e c) sok).
        apply post_bind with (1 := product_good (sizes_good H2)). intros c Hc.
        apply post_bind with (1 := IH (g :: fs) H2). intros e He. apply post_bind with (P := sok).
        * apply product_good. repeat constructor; auto.
        * intros p Hp. apply sum_good. repeat constructor; auto.
  Qed.
  Lemma struct_ordinal_good tys : Forall any_field tys -> post (struct_ordinal tys) sok.
  Proof. apply struct_ordinal_impl_good. Qed.

  Definition stok (s : stmt) : Prop :=
    match s with LetMutRem e => rok e | LetField _ _ e => rok e | RemDivAssign e => rok e | IfRemReturnNone => True end.
  Lemma field_stmts_good vars : forall i tys, Forall any_field tys -> post (field_stmts vars i tys) (Forall (Forall stok)).
  Proof.
    induction vars as [|x vars IH]; intros i [|ty tys] H; cbn [field_stmts]; try constructor.
    inversion H as [|? ? H1 H2]; subst. apply post_bind with (P := rok); [apply const_expr_good; exact H1|]. intros sz Hs.
    apply post_bind with (1 := IH (S i) _ H2). intros r Hr. constructor; [|exact Hr]. repeat constructor; exact Hs.
  Qed.
  Lemma struct_from_good e vars tys : rok e -> Forall any_field tys -> post (struct_from_ordinal e vars tys) (Forall stok).
  Proof.
    intros He H. apply post_bind with (1 := field_stmts_good vars 0 H). intros fs Hf. constructor; [exact He|].
    apply Forall_app. split; [|repeat constructor]. apply Forall_concat, Forall_rev, Hf.
  Qed.

  Lemma decode_field_good fs : Forall any_field fs -> forall i o p, no_ub (decode_field fs i o p).
  Proof.
    induction 1 as [|f fs Hf Hfs IH]; intros i o p; [exact I|]. apply post_no_ub with (P := fun _ => True).
    destruct i as [|i]; cbn [decode_field].
    - apply post_bind with (1 := post_from Hf o). intros x _. apply post_bind with (P := fun _ => True); [now apply post_unwrap|]. cbn; auto.
    - apply post_bind with (1 := no_ub_post (IH i o (snd p))). cbn; auto.
  Qed.
  Lemma field_ordinal_good fs : Forall any_field fs -> forall t i, no_ub (field_ordinal fs t i).
  Proof.
    induction 1 as [|f fs Hf Hfs IH]; intros t i; [exact I|]. destruct i as [|i]; cbn [field_ordinal]; [apply Hf|apply IH].
  Qed.
  Lemma no_ordinals_good i : no_ub (no_ordinals i).
  Proof. exact I. Qed.
  Lemma run_stmts_good fs ov stmts : Forall any_field fs -> Forall stok stmts -> forall rem p,
    post (run_stmts fs ov stmts rem p) (fun _ => True).
  Proof.
    intros Hfs. induction 1 as [|s stmts Hs Hst IH]; intros rem p; cbn [run_stmts]; [exact I|].
    destruct s as [e|x i e|e|]; cbn [stok] in Hs.
    - apply post_bind with (1 := no_ub_post (eval_good false ov Hs no_ordinals_good)). intros r _. apply IH.
    - apply post_bind with (1 := no_ub_post (eval_good false ov Hs no_ordinals_good)). intros n _.
      apply post_bind with (P := fun _ => True); [now apply post_urem|]. intros o _.
      apply post_bind with (1 := no_ub_post (decode_field_good Hfs i o p)). intros p' _. apply IH.
    - apply post_bind with (1 := no_ub_post (eval_good false ov Hs no_ordinals_good)). intros n _.
      apply post_bind with (P := fun _ => True); [now apply post_udiv|]. intros o _. apply IH.
    - destruct (negb _); [exact I|apply IH].
  Qed.
  Lemma run_block_good fs ov stmts : Forall any_field fs -> Forall stok stmts -> post (run_block fs ov stmts) (fun _ => True).
  Proof.
    intros Hf Hs. apply post_bind with (1 := run_stmts_good ov Hf Hs 0 (no_fields fs)). intros [[r p]|] _; [|exact I].
    destruct (all_fields fs p); exact I.
  Qed.
  Lemma any_rejected T : any_impl (rejected T).
  Proof. repeat split. Qed.
  Lemma product_impl_good fs size ord block : Forall any_field fs -> rok size -> rok ord -> Forall stok block ->
    any_impl (product_impl fs size ord block).
  Proof.
    intros Hf Hs Ho Hb. split; [|split]; cbn; intros.
    - apply eval_good; [exact Hs|exact no_ordinals_good].
    - apply post_no_ub with (P := fun _ => True).
      apply post_bind with (1 := no_ub_post (eval_good true 0 Hs no_ordinals_good)). intros _ _.
      apply no_ub_post, eval_good; [exact Ho|]. now apply field_ordinal_good.
    - apply post_no_ub with (P := fun _ => True).
      apply post_bind with (1 := no_ub_post (eval_good true 0 Hs no_ordinals_good)). intros n _.
      destruct (n =? 0); [exact I|]. now apply run_block_good.
  Qed.

  Lemma any_struct f : Forall any_field (field_types f) -> any_impl (derive_struct f).
  Proof.
    intros H. unfold derive_struct.
    assert (A : post (struct_size f) rok).
    { apply post_bind with (1 := struct_ordinal_size_good H). apply expr_good. }
    assert (B : post (struct_ord f) rok).
    { apply post_bind with (1 := struct_ordinal_good H). apply expr_good. }
    assert (C : post (struct_block f) (Forall stok)) by (apply struct_from_good; [exact I|exact H]).
    destruct (struct_size f); try apply any_rejected. destruct (struct_ord f); try apply any_rejected.
    destruct (struct_block f); try apply any_rejected. destruct (resolves _ _); [|apply any_rejected].
    now apply product_impl_good.
  Qed.
  Lemma any_tuple tys : Forall any_field tys -> any_impl (impl_ordinal_for_tuple_n tys).
  Proof.
    intros H. unfold impl_ordinal_for_tuple_n. destruct (Nat.ltb _ _); [apply any_rejected|].
    assert (A : post (s <- struct_ordinal_size tys ;; expr s) rok).
    { apply post_bind with (1 := struct_ordinal_size_good H). apply expr_good. }
    assert (B : post (s <- struct_ordinal tys ;; expr s) rok).
    { apply post_bind with (1 := struct_ordinal_good H). apply expr_good. }
    assert (C : post (struct_from_ordinal ROrdinalVar (tuple_vars 0 tys) tys) (Forall stok)) by (apply struct_from_good; [exact I|exact H]).
    destruct (s <- struct_ordinal_size tys ;; expr s); try apply any_rejected.
    destruct (s <- struct_ordinal tys ;; expr s); try apply any_rejected.
    destruct (struct_from_ordinal _ _ _); try apply any_rejected. destruct (resolves _ _); [|apply any_rejected].
    now apply product_impl_good.
  Qed.

  Definition any_variant (v : variant) : Prop := Forall any_field (field_types (v_fields v)).
  Lemma sizes_of_good vs : Forall any_variant vs -> post (sizes_of vs) (Forall sok).
  Proof.
    induction 1 as [|v vs Hv Hvs IH]; cbn [sizes_of]; [constructor|].
    apply post_bind with (1 := struct_ordinal_size_good Hv). intros s Hs. apply post_bind with (1 := IH). intros ss Hss.
    constructor; assumption.
  Qed.
  Lemma first_good vs i : Forall any_variant vs -> post (size_of_first_variants vs i) sok.
  Proof.
    intros H. assert (F : Forall any_variant (firstn i vs)).
    { rewrite Forall_forall in *. intros v Hv. apply H. rewrite <- (firstn_skipn i vs). apply in_or_app. auto. }
    apply post_bind with (1 := sizes_of_good F). intros ss Hss. apply sum_good, Hss.
  Qed.
  Lemma enum_arms_good vs : Forall any_variant vs -> forall rest i, Forall any_variant rest -> post (enum_arms vs i rest) (Forall rok).
  Proof.
    intros H. induction rest as [|v r IH]; intros i Hr; cbn [enum_arms]; [constructor|]. inversion Hr as [|? ? H1 H2]; subst.
    apply post_bind with (1 := first_good i H). intros b Hb. apply post_bind with (1 := struct_ordinal_good H1). intros so Hso.
    apply post_bind with (P := sok); [apply sum_good; repeat constructor; assumption|]. intros s Hs.
    apply post_bind with (1 := expr_good Hs). intros e He. apply post_bind with (1 := IH (S i) H2). intros arms Ha.
    constructor; assumption.
  Qed.
  Lemma enum_branches_good vs : Forall any_variant vs -> forall rest i, Forall any_variant rest ->
    post (enum_branches vs i rest) (Forall (fun b => rok (fst b) /\ Forall stok (snd b))).
  Proof.
    intros H. induction rest as [|v r IH]; intros i Hr; cbn [enum_branches]; [constructor|]. inversion Hr as [|? ? H1 H2]; subst.
    apply post_bind with (1 := first_good i H). intros b Hb. apply post_bind with (1 := const_expr_good Hb). intros be Hbe.
    apply post_bind with (1 := first_good (S i) H). intros c Hc. apply post_bind with (1 := const_expr_good Hc). intros ce Hce.
    apply post_bind with (P := Forall stok); [apply struct_from_good; [split; [exact I|exact Hbe]|exact H1]|]. intros bl Hbl.
    apply post_bind with (1 := IH (S i) H2). intros bs Hbs. constructor; [split; assumption|exact Hbs].
  Qed.
  Lemma run_arms_good vs : Forall (Forall any_field) vs -> forall arms, Forall rok arms -> forall e, no_ub (run_arms vs arms e).
  Proof.
    induction 1 as [|v vs Hv Hvs IH]; intros arms Ha e; [destruct e|]. cbn [run_arms]. destruct Ha as [|a arms H1 H2]; [exact I|].
    destruct e as [t|e]; [|apply IH, H2]. apply eval_good; [exact H1|]. now apply field_ordinal_good.
  Qed.
  Lemma run_branches_good vs : Forall (Forall any_field) vs -> forall bs o,
    Forall (fun b => rok (fst b) /\ Forall stok (snd b)) bs -> post (run_branches vs bs o) (fun _ => True).
  Proof.
    induction 1 as [|v vs Hv Hvs IH]; intros bs o Hb; cbn [run_branches]; [exact I|].
    destruct Hb as [|[e bl] bs [H1 H2] H3]; [exact I|]. cbn [fst snd] in *.
    apply post_bind with (1 := no_ub_post (eval_good false o H1 no_ordinals_good)). intros n _. destruct (o <? n).
    - apply post_bind with (1 := run_block_good o Hv H2). cbn; auto.
    - apply post_bind with (1 := IH bs o H3). cbn; auto.
  Qed.
  Lemma any_enum vs : Forall any_variant vs -> any_impl (derive_enum vs).
  Proof.
    intros H. unfold derive_enum.
    assert (A : post (enum_size vs) rok).
    { apply post_bind with (1 := first_good _ H). apply expr_good. }
    pose proof (enum_arms_good H 0 H) as B. pose proof (enum_branches_good H 0 H) as C.
    destruct (enum_size vs) as [size| | | |]; try apply any_rejected. destruct (enum_arms vs 0 vs) as [arms| | | |]; try apply any_rejected.
    destruct (enum_branches vs 0 vs) as [bs| | | |]; try apply any_rejected. destruct (branches_resolve _ _); [|apply any_rejected].
    cbn [post] in A, B, C.
    assert (F : Forall (Forall any_field) (variant_types vs)) by (apply Forall_map; exact H).
    split; [|split]; cbn; intros.
    - apply eval_good; [exact A|exact no_ordinals_good].
    - apply post_no_ub with (P := fun _ => True).
      apply post_bind with (1 := no_ub_post (eval_good true 0 A no_ordinals_good)). intros _ _.
      apply no_ub_post. now apply run_arms_good.
    - apply post_no_ub with (P := fun _ => True).
      apply post_bind with (1 := no_ub_post (eval_good true 0 A no_ordinals_good)). intros n _.
      destruct (n =? 0); [exact I|]. now apply run_branches_good.
  Qed.
End Closure.
