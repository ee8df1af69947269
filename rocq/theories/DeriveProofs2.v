(** * DeriveProofs2: generated code for products (tuples and structs). *)
From Verif Require Import Base Spec BaseProofs ArrayProofs ModelDerive SpecDerive DeriveProofs.
From Coq Require Import String Ascii List.
Import ListNotations.

Section Common.
  Context {cfg : Config}.

  Lemma lawful_sizes fs ns : fields_lawful fs ns -> has_sizes fs ns.
  Proof.
    induction 1 as [|f n fs ns H HF IH]; constructor; [|exact IH].
    split; [apply (bij_size H)|apply (bij_fits H)].
  Qed.

  Lemma digits_exist fs ns (t : tuple fs) :
    fields_lawful fs ns -> exists ds, tuple_digits fs t ds /\ Forall2 N.lt ds ns.
  Proof.
    intros H. induction H as [|f n fs ns H HF IH].
    - exists []. split; [reflexivity|constructor].
    - destruct t as [x t]. destruct (IH t) as (ds & H1 & H2).
      destruct (bij_to H x) as (i & G1 & G2 & _).
      exists (i :: ds). split; [exists i, ds; auto|]. constructor; assumption.
  Qed.

  Lemma digits_unique fs (t : tuple fs) ds es :
    tuple_digits fs t ds -> tuple_digits fs t es -> ds = es.
  Proof.
    revert t ds es. induction fs as [|f fs IH]; cbn; intros t ds es H1 H2.
    - congruence.
    - destruct H1 as (d & ds' & -> & A1 & A2), H2 as (e & es' & -> & B1 & B2).
      f_equal; [congruence|]. eapply IH; eassumption.
  Qed.

  Lemma digits_lt fs ns (t : tuple fs) ds :
    fields_lawful fs ns -> tuple_digits fs t ds -> Forall2 N.lt ds ns.
  Proof.
    intros H Hd. destruct (digits_exist t H) as (es & H1 & H2).
    rewrite (@digits_unique _ _ _ _ Hd H1). exact H2.
  Qed.

  Lemma digits_inj fs ns (t u : tuple fs) ds :
    fields_lawful fs ns -> tuple_digits fs t ds -> tuple_digits fs u ds -> t = u.
  Proof.
    intros H. revert ds. induction H as [|f n fs ns H HF IH]; intros ds H1 H2.
    - destruct t, u. reflexivity.
    - destruct t as [x t], u as [y u].
      destruct H1 as (d & ds' & -> & A1 & A2), H2 as (e & es' & E & B1 & B2).
      injection E as <- <-. f_equal; [eapply bij_inj; eassumption|]. eapply IH; eassumption.
  Qed.

  Lemma digits_pos ds ns : Forall2 N.lt ds ns -> Forall (fun n => 0 < n) ns.
  Proof. induction 1; constructor; [lia|assumption]. Qed.

  (** *** Form of [struct_ordinal] *)
  Fixpoint ord_items (idx : list nat) (tys : list ftype) : list SizeExpr :=
    match idx, tys with
    | [i], [_] => [SSyn (ROrdinalOf i)]
    | i :: is, _ :: ts =>
        SProduct (SSyn (ROrdinalOf i) :: map ordinal_size_expr ts) :: ord_items is ts
    | _, _ => []
    end.

  Definition nonconst (s : SizeExpr) : Prop :=
    match s with SSyn _ | SProduct _ => True | _ => False end.

  Lemma ord_items_nonconst idx tys : Forall nonconst (ord_items idx tys).
  Proof.
    revert tys. induction idx as [|i idx IH]; intros [|t tys].
    - constructor.
    - constructor.
    - destruct idx; constructor.
    - destruct idx as [|i' idx], tys as [|t' tys]; cbn [ord_items].
      + repeat constructor.
      + constructor; [exact I|constructor].
      + constructor; [exact I|apply (IH [])].
      + constructor; [exact I|]. apply (IH (t' :: tys)).
  Qed.

  Lemma sum_scan_nonconst es items acc :
    Forall nonconst es -> sum_scan es acc items = Val (acc, items ++ es).
  Proof.
    intros H. revert items. induction H as [|e es He H IH]; intros items; cbn [sum_scan].
    - rewrite app_nil_r. reflexivity.
    - destruct e; try contradiction; rewrite IH, <- app_assoc; reflexivity.
  Qed.

  Lemma sum_cons_form p L :
    nonconst p -> Forall nonconst L -> L <> [] ->
    sum [p; sum_ignore_const L] = Val (sum_ignore_const (p :: L)).
  Proof.
    intros Hp HL Hne. unfold sum. destruct L as [|a [|b r]]; [congruence| |].
    - inversion HL; subst. rewrite sum_scan_nonconst by (repeat constructor; assumption). reflexivity.
    - cbn [sum_ignore_const]. destruct p; try contradiction; reflexivity.
  Qed.

  Lemma product_head_form i t tys :
    product [ordinal_expr i; size_form (t :: tys)] =
    Val (SProduct (SSyn (ROrdinalOf i) :: map ordinal_size_expr (t :: tys))).
  Proof.
    unfold product, size_form, ordinal_expr, ordinal_size_expr. destruct tys; reflexivity.
  Qed.

  Lemma struct_ordinal_impl_form idx tys :
    length idx = length tys ->
    struct_ordinal_impl idx tys = Val (sum_ignore_const (ord_items idx tys)).
  Proof.
    revert tys. induction idx as [|i idx IH]; intros [|t tys] H; try discriminate H.
    - reflexivity.
    - destruct idx as [|i' idx], tys as [|t' tys]; try discriminate H; [reflexivity|].
      change (struct_ordinal_impl (i :: i' :: idx) (t :: t' :: tys)) with
        (rem_count <- product (map ordinal_size_expr (t' :: tys)) ;;
         rem_expr <- struct_ordinal_impl (i' :: idx) (t' :: tys) ;;
         tuple_2_ordinal (ordinal_expr i) rem_expr rem_count).
      change (product (map ordinal_size_expr (t' :: tys))) with (struct_ordinal_size (t' :: tys)).
      rewrite struct_ordinal_size_form, IH by (injection H; auto). cbn [bind].
      unfold tuple_2_ordinal. rewrite product_head_form. cbn [bind].
      rewrite sum_cons_form.
      + reflexivity.
      + exact I.
      + apply ord_items_nonconst.
      + destruct idx, tys; discriminate.
  Qed.

  Lemma struct_ordinal_form tys :
    struct_ordinal tys = Val (sum_ignore_const (ord_items (seq 0 (length tys)) tys)).
  Proof. apply struct_ordinal_impl_form, seq_length. Qed.


  Lemma sum_ignore_wf L : Forall s_wf L -> s_wf (sum_ignore_const L).
  Proof.
    intros H. destruct L as [|a [|b r]]; cbn [sum_ignore_const].
    - exact I.
    - inversion H; assumption.
    - split; [cbn; lia|]. induction H; cbn; auto.
  Qed.

  Lemma ord_items_wf idx tys : length idx = length tys -> Forall s_wf (ord_items idx tys).
  Proof.
    revert tys. induction idx as [|i idx IH]; intros [|t tys] H; try discriminate H.
    - constructor.
    - destruct idx as [|i' idx], tys as [|t' tys]; try discriminate H.
      + repeat constructor.
      + constructor; [|apply (IH (t' :: tys)); injection H; auto].
        split; [cbn; lia|]. cbn. split; [exact I|]. split; [exact I|].
        clear. induction tys; cbn; auto.
  Qed.

  (** *** Value of the emitted [ordinal] expression *)
  Lemma ord_items_SV ctx fo ov idx tys ns ds :
    Forall2 (fun i d => fo i = Val d) idx ds -> has_sizes tys ns ->
    Forall2 N.lt ds ns -> product_of ns <= usize_max ->
    exists vs, SVs ctx fo ov (ord_items idx tys) vs /\ sum_of vs = mixed_radix ns ds.
  Proof.
    intros Hfo. revert tys ns. induction Hfo as [|i d idx ds Hi Hfo IH]; intros tys ns Hs Hlt Hm.
    - inversion Hlt; subst. inversion Hs; subst. exists []. split; [constructor|reflexivity].
    - inversion Hlt as [|? n ? ns' Hn Hlt']; subst. inversion Hs as [|t ? tys' ? Ht Hs']; subst.
      pose proof (digits_pos Hlt') as Hpos. pose proof (product_pos Hpos) as Hpp.
      rewrite product_of_cons in Hm.
      assert (Hd : d * product_of ns' <= usize_max) by nia.
      assert (Hm' : product_of ns' <= usize_max) by nia.
      destruct Hfo as [|i' d' idx ds Hi' Hfo].
      + inversion Hlt'; subst. inversion Hs'; subst. exists [d]. split.
        * constructor; [exact Hi|constructor].
        * cbn [sum_of fold_right mixed_radix product_of]. lia.
      + destruct (IH tys' ns' Hs' Hlt' Hm') as (vs & H1 & H2).
        inversion Hs' as [|t' n' tys'' ns'' Ht' Hs'']; subst; [inversion Hlt'|].
        exists (d * product_of (n' :: ns'') :: vs). split.
        * constructor; [|exact H1]. apply SV_product. split; [cbn; lia|].
          exists (d :: n' :: ns''). split.
          { constructor; [exact Hi|]. apply sizes_SVs. exact Hs'. }
          split; [reflexivity|]. apply prefix_ok_pos; [exact Hpos|exact Hd].
        * rewrite sum_of_cons, H2. reflexivity.
  Qed.

  Lemma struct_ordinal_SV ctx fo ov tys ns ds s :
    struct_ordinal tys = Val s ->
    Forall2 (fun i d => fo i = Val d) (seq 0 (length tys)) ds -> has_sizes tys ns ->
    Forall2 N.lt ds ns -> product_of ns <= usize_max ->
    SV ctx fo ov s (mixed_radix ns ds).
  Proof.
    intros H Hfo Hs Hlt Hm. rewrite struct_ordinal_form in H. injection H as <-.
    destruct (@ord_items_SV ctx fo ov _ _ _ _ Hfo Hs Hlt Hm) as (vs & H1 & H2).
    rewrite <- H2. apply SV_sum_ignore; [exact H1|]. rewrite H2.
    pose proof (mixed_radix_lt Hlt). lia.
  Qed.

  Lemma field_ordinal_digits fs (t : tuple fs) ds :
    tuple_digits fs t ds ->
    Forall2 (fun i d => field_ordinal fs t i = Val d) (seq 0 (length fs)) ds.
  Proof.
    assert (G : forall fs (t : tuple fs) ds, tuple_digits fs t ds ->
      length ds = length fs /\ forall i d, nth_error ds i = Some d -> field_ordinal fs t i = Val d).
    { clear. induction fs as [|f fs IH]; intros t ds H.
      - cbn in H. subst. split; [reflexivity|]. intros [|i] d; discriminate.
      - destruct H as (d & ds' & -> & H1 & H2). destruct (IH _ _ H2) as [G1 G2].
        split; [cbn; congruence|]. intros [|i] e He; cbn in *; [congruence|auto]. }
    intros H. destruct (G _ _ _ H) as [Hl Hn]. rewrite <- Hl. clear G H Hl.
    revert Hn. generalize (field_ordinal fs t) as fo. intros fo.
    assert (A : forall k, (forall i d, nth_error ds i = Some d -> fo (k + i)%nat = Val d) ->
      Forall2 (fun i d => fo i = Val d) (seq k (length ds)) ds).
    { induction ds as [|d ds IH]; intros k Hk; [constructor|].
      cbn [length seq]. constructor.
      - rewrite <- (Nat.add_0_r k). apply Hk. reflexivity.
      - apply IH. intros i e He. replace (S k + i)%nat with (k + S i)%nat by lia. apply Hk. exact He. }
    intros Hn. apply A. exact Hn.
  Qed.

  (** *** The decoding block *)
  Definition shift_stmt (s : stmt) : stmt :=
    match s with LetField x i sz => LetField x (S i) sz | s => s end.

  Lemma run_stmts_app fs ov a b rem p :
    run_stmts fs ov (a ++ b) rem p =
    (r <- run_stmts fs ov a rem p ;;
     match r with None => Val None | Some (rem', p') => run_stmts fs ov b rem' p' end).
  Proof.
    revert rem p. induction a as [|s a IH]; intros rem p; [reflexivity|].
    destruct s; cbn [app run_stmts].
    - destruct (eval false no_ordinals ov e); cbn [bind]; try reflexivity. apply IH.
    - destruct (eval false no_ordinals ov sz); cbn [bind]; try reflexivity.
      destruct (urem rem a0); cbn [bind]; try reflexivity.
      destruct (decode_field fs field a1 p); cbn [bind]; try reflexivity. apply IH.
    - destruct (eval false no_ordinals ov sz); cbn [bind]; try reflexivity.
      destruct (udiv rem a0); cbn [bind]; try reflexivity. apply IH.
    - destruct (negb (rem =? 0)); [reflexivity|]. apply IH.
  Qed.

  Lemma run_stmts_shift f fs ov ss rem (p : partial_tuple (f :: fs)) :
    run_stmts (f :: fs) ov (map shift_stmt ss) rem p =
    (r <- run_stmts fs ov ss rem (snd p) ;;
     match r with None => Val None | Some (rem', p') => Val (Some (rem', (fst p, p'))) end).
  Proof.
    revert rem p. induction ss as [|s ss IH]; intros rem p.
    - cbn. destruct p; reflexivity.
    - destruct s; cbn [map shift_stmt run_stmts].
      + destruct (eval false no_ordinals ov e); cbn [bind]; try reflexivity. apply IH.
      + destruct (eval false no_ordinals ov sz); cbn [bind]; try reflexivity.
        destruct (urem rem a); cbn [bind]; try reflexivity.
        cbn [decode_field].
        destruct (decode_field fs field a0 (snd p)) as [q| | | |]; cbn [bind]; try reflexivity.
        rewrite (IH rem (fst p, q)). reflexivity.
      + destruct (eval false no_ordinals ov sz); cbn [bind]; try reflexivity.
        destruct (udiv rem a); cbn [bind]; try reflexivity. apply IH.
      + destruct (negb (rem =? 0)); [reflexivity|]. apply IH.
  Qed.

  Fixpoint field_form (vars : list string) (i : nat) (tys : list ftype) : list (list stmt) :=
    match vars, tys with
    | x :: vars', ty :: tys' =>
        [LetField x i (RConst (RSizeOf ty)); RemDivAssign (RConst (RSizeOf ty))]
          :: field_form vars' (S i) tys'
    | _, _ => []
    end.

  Lemma field_stmts_form vars i tys : field_stmts vars i tys = Val (field_form vars i tys).
  Proof.
    revert i tys. induction vars as [|x vars IH]; intros i [|t tys]; cbn; try reflexivity.
    rewrite IH. reflexivity.
  Qed.

  Lemma field_form_shift vars i tys :
    field_form vars (S i) tys = map (map shift_stmt) (field_form vars i tys).
  Proof.
    revert i tys. induction vars as [|x vars IH]; intros i [|t tys]; cbn; try reflexivity.
    rewrite IH. reflexivity.
  Qed.

  Lemma run_fields vars fs ns ov m (p : partial_tuple fs) :
    fields_lawful fs ns -> length vars = length fs -> Forall (fun n => 0 < n) ns ->
    exists p' t ds,
      run_stmts fs ov (List.concat (rev (field_form vars 0 fs))) m p =
        Val (Some (m / product_of ns, p')) /\
      all_fields fs p' = Some t /\ tuple_digits fs t ds /\
      mixed_radix ns ds = m mod product_of ns.
  Proof.
    intros H. revert vars p. induction H as [|f n fs ns H HF IH]; intros vars p Hl Hpos.
    - destruct vars; [|discriminate Hl]. exists p, tt, []. cbn [product_of fold_right].
      rewrite N.div_1_r, N.mod_1_r. cbn. auto.
    - destruct vars as [|x vars]; [discriminate Hl|]. injection Hl as Hl.
      inversion Hpos as [|? ? Hn Hpos']; subst. pose proof (product_pos Hpos') as Hpp.
      destruct (IH vars (snd p) Hl Hpos') as (p' & t & ds & R1 & R2 & R3 & R4).
      destruct (@bij_from _ _ _ _ H (m / product_of ns mod n)) as (v & V1 & V2).
      { apply N.mod_lt. lia. }
      exists (Some v, p'), (v, t), (m / product_of ns mod n :: ds).
      split; [|split; [|split]].
      + cbn [field_form rev]. rewrite concat_app, field_form_shift.
        rewrite <- map_rev, <- concat_map, run_stmts_app, run_stmts_shift, R1.
        cbn [bind List.concat app run_stmts eval].
        rewrite (bij_size H). cbn [bind]. rewrite urem_ok by lia. cbn [bind decode_field].
        rewrite V1. cbn [bind unwrap snd]. rewrite udiv_ok by lia. cbn [bind].
        rewrite product_of_cons, (N.mul_comm n), N.div_div by lia. reflexivity.
      + cbn [all_fields fst snd]. rewrite R2. reflexivity.
      + exists (m / product_of ns mod n), ds. auto.
      + cbn [mixed_radix]. rewrite R4, product_of_cons.
        rewrite (N.mul_comm n), N.mod_mul_r by lia. lia.
  Qed.

  Lemma run_block_ok vars fs ns e ov m block :
    fields_lawful fs ns -> length vars = length fs -> Forall (fun n => 0 < n) ns ->
    struct_from_ordinal e vars fs = Val block ->
    eval false no_ordinals ov e = Val m ->
    exists t ds, tuple_digits fs t ds /\ mixed_radix ns ds = m mod product_of ns /\
      run_block fs ov block = Val (if m <? product_of ns then Some t else None).
  Proof.
    intros H Hl Hpos Hb He. unfold struct_from_ordinal in Hb. rewrite field_stmts_form in Hb.
    cbn [bind] in Hb. injection Hb as <-.
    destruct (@run_fields vars fs ns ov m (no_fields fs) H Hl Hpos) as (p' & t & ds & R1 & R2 & R3 & R4).
    exists t, ds. split; [exact R3|]. split; [exact R4|].
    unfold run_block. cbn [run_stmts]. rewrite He. cbn [bind].
    rewrite run_stmts_app, R1. cbn [bind run_stmts].
    pose proof (product_pos Hpos) as Hpp.
    destruct (N.ltb_spec m (product_of ns)) as [Hlt|Hge].
    - rewrite N.div_small by exact Hlt. cbn. rewrite R2. reflexivity.
    - destruct (N.eqb_spec (m / product_of ns) 0) as [E|E].
      + apply N.div_small_iff in E; lia.
      + reflexivity.
  Qed.

  (** *** Product impls *)
  Record product_pieces (vars : list string) (fs : list ftype) (size ord : rexpr)
      (block : list stmt) : Prop := {
    pp_size : expr (size_form fs) = Val size;
    pp_ord : exists s, struct_ordinal fs = Val s /\ expr s = Val ord;
    pp_block : struct_from_ordinal ROrdinalVar vars fs = Val block;
    pp_vars : length vars = length fs
  }.

  Lemma run_size_inv fs ns size n :
    has_sizes fs ns -> expr (size_form fs) = Val size -> run_size size = Val n ->
    n = product_of ns /\ prefix_ok 1 ns /\ n <= usize_max.
  Proof.
    intros Hs Hf Hn. unfold run_size in Hn. pose proof (SV_inv _ _ _ Hf Hn) as HSV.
    destruct (@size_form_inv _ _ _ _ _ _ _ Hs HSV) as [-> Hp]. split; [reflexivity|]. split; [exact Hp|].
    pose proof (@usize_max_ge cfg).
    pose proof (@prefix_ok_total _ ns 1 ltac:(lia) Hp). lia.
  Qed.

  Lemma run_size_ok fs ns size :
    has_sizes fs ns -> expr (size_form fs) = Val size -> prefix_ok 1 ns ->
    run_size size = Val (product_of ns).
  Proof.
    intros Hs Hf Hp. destruct (@SV_eval _ _ _ _ _ _ (@size_form_ok _ true no_ordinals 0 _ _ Hs Hp)) as (e & H1 & H2).
    assert (e = size) as -> by congruence. exact H2.
  Qed.

  Lemma run_size_bad fs ns size :
    has_sizes fs ns -> expr (size_form fs) = Val size -> ~ prefix_ok 1 ns ->
    run_size size = NoCompile.
  Proof.
    intros Hs Hf Hp. unfold run_size.
    destruct (@size_only_eval _ size) with (fo := no_ordinals) (ov := 0) as [[v Hv]|Hv].
    - eapply s_size_only_expr; [eapply size_form_only; exact Hs|exact Hf].
    - exfalso. destruct (run_size_inv Hs Hf Hv) as (_ & H & _). contradiction.
    - exact Hv.
  Qed.

  Lemma product_impl_number vars fs ns size ord block (t : tuple fs) ds n :
    product_pieces vars fs size ord block -> fields_lawful fs ns ->
    run_size size = Val n -> tuple_digits fs t ds ->
    ordinal (product_impl fs size ord block) t = Val (mixed_radix ns ds).
  Proof.
    intros [P1 (s & P2 & P3) P4 P5] H Hn Hd. pose proof (lawful_sizes H) as Hs.
    destruct (run_size_inv Hs P1 Hn) as (-> & Hp & Hm).
    cbn [ordinal product_impl]. rewrite Hn. cbn [bind].
    pose proof (@digits_lt _ _ _ _ H Hd) as Hlt.
    pose proof (@struct_ordinal_SV false (field_ordinal fs t) 0 fs ns ds s P2
      (@field_ordinal_digits _ _ _ Hd) Hs Hlt Hm) as HSV.
    destruct (@SV_eval _ _ _ _ _ _ HSV) as (e & E1 & E2). assert (e = ord) as -> by congruence. exact E2.
  Qed.

  Lemma product_impl_lawful vars fs ns size ord block n :
    product_pieces vars fs size ord block -> fields_lawful fs ns ->
    run_size size = Val n ->
    n = product_of ns /\ lawful (product_impl fs size ord block) n.
  Proof.
    intros HP H Hn. pose proof (lawful_sizes H) as Hs. pose proof HP as [P1 _ P4 P5].
    destruct (run_size_inv Hs P1 Hn) as (-> & Hp & Hm). split; [reflexivity|].
    assert (Hfrom : forall i, 0 < product_of ns ->
      exists t ds, tuple_digits fs t ds /\ mixed_radix ns ds = i mod product_of ns /\
      from_ordinal (product_impl fs size ord block) i =
        Val (if i <? product_of ns then Some t else None)).
    { intros i Hpos.
      destruct (@run_block_ok vars fs ns ROrdinalVar i i block H P5 (product_pos_inv _ Hpos) P4)
        as (t & ds & R1 & R2 & R3); [reflexivity|].
      exists t, ds. split; [exact R1|]. split; [exact R2|].
      cbn [from_ordinal product_impl]. rewrite Hn. cbn [bind].
      destruct (N.eqb_spec (product_of ns) 0); [lia|]. exact R3. }
    split; [split|].
    - exact Hn.
    - exact Hm.
    - intros t. destruct (digits_exist t H) as (ds & Hd & Hlt).
      exists (mixed_radix ns ds). split; [eapply product_impl_number; eassumption|].
      pose proof (mixed_radix_lt Hlt) as L. split; [exact L|].
      destruct (Hfrom (mixed_radix ns ds)) as (u & es & U1 & U2 & U3); [lia|].
      rewrite U3. destruct (N.ltb_spec (mixed_radix ns ds) (product_of ns)); [|lia].
      rewrite N.mod_small in U2 by exact L.
      do 2 f_equal. eapply digits_inj; [exact H|exact U1|].
      rewrite (mixed_radix_inj (@digits_lt _ _ _ _ H U1) Hlt U2). exact Hd.
    - intros i Hi. destruct (Hfrom i) as (u & es & U1 & U2 & U3); [lia|].
      exists u. rewrite U3. destruct (N.ltb_spec i (product_of ns)); [|lia].
      split; [reflexivity|]. rewrite N.mod_small in U2 by exact Hi. rewrite <- U2.
      eapply product_impl_number; eassumption.
    - intros i H1 H2. destruct (N.eq_dec (product_of ns) 0) as [E|E].
      + cbn [from_ordinal product_impl]. rewrite Hn, E. reflexivity.
      + destruct (Hfrom i) as (u & es & U1 & U2 & U3); [lia|]. rewrite U3.
        destruct (N.ltb_spec i (product_of ns)); [lia|]. reflexivity.
  Qed.

  Lemma pieces_exist vars fs : length vars = length fs ->
    exists size ord block, product_pieces vars fs size ord block.
  Proof.
    intros Hl. destruct (@s_wf_expr _ (size_form_wf fs)) as (size & Hsize).
    assert (Hw : s_wf (sum_ignore_const (ord_items (seq 0 (length fs)) fs))).
    { apply sum_ignore_wf, ord_items_wf, seq_length. }
    destruct (@s_wf_expr _ Hw) as (ord & Hord).
    exists size, ord. eexists. split; [exact Hsize| | |exact Hl].
    - eexists. split; [apply struct_ordinal_form|exact Hord].
    - unfold struct_from_ordinal. rewrite field_stmts_form. reflexivity.
  Qed.
End Common.
