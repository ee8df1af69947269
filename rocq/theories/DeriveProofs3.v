(** * DeriveProofs3: name resolution, derived structs, tuples and enums. *)
From Verif Require Import Base Spec BaseProofs ArrayProofs ModelDerive SpecDerive DeriveProofs DeriveProofs2.
From Coq Require Import String Ascii List.
Import ListNotations.

(** ** Names *)
Section Names.
  Fixpoint parse (acc : nat) (s : string) : nat :=
    match s with
    | EmptyString => acc
    | String c r => parse (10 * acc + (nat_of_ascii c - 48)) r
    end.

  Lemma parse_app a b acc : parse acc (a ++ b)%string = parse (parse acc a) b.
  Proof. revert acc. induction a as [|c a IH]; intros acc; [reflexivity|]. apply IH. Qed.

  Lemma parse_digit acc d : (d < 10)%nat -> parse acc (digit d) = (10 * acc + d)%nat.
  Proof.
    intros H. unfold digit. cbn [parse]. rewrite nat_ascii_embedding by lia. lia.
  Qed.

  Lemma parse_dec_fuel fuel : forall n, (n < fuel)%nat -> parse 0 (dec_fuel fuel n) = n.
  Proof.
    induction fuel as [|fuel IH]; intros n H; [lia|]. cbn [dec_fuel].
    destruct (Nat.ltb_spec n 10) as [L|L].
    - rewrite parse_digit by exact L. lia.
    - pose proof (Nat.div_mod n 10 ltac:(lia)) as E.
      pose proof (Nat.mod_upper_bound n 10 ltac:(lia)) as M.
      rewrite parse_app, IH, parse_digit by lia. lia.
  Qed.

  Lemma dec_inj a b : dec a = dec b -> a = b.
  Proof.
    intros E. rewrite <- (@parse_dec_fuel (S a) a), <- (@parse_dec_fuel (S b) b) by lia.
    unfold dec in E. rewrite E. reflexivity.
  Qed.

  Lemma numbered_In i tys x : In x (numbered_names "f" i tys) ->
    exists k, (i <= k)%nat /\ x = ("f" ++ dec k)%string.
  Proof.
    revert i. induction tys as [|t tys IH]; intros i H; [contradiction|].
    destruct H as [<-|H].
    - exists i. auto.
    - destruct (IH _ H) as (k & Hk & ->). exists k. split; [lia|reflexivity].
  Qed.

  Lemma numbered_NoDup i tys : NoDup (numbered_names "f" i tys).
  Proof.
    revert i. induction tys as [|t tys IH]; intros i; cbn; constructor; [|apply IH].
    intros H. destruct (numbered_In _ _ _ H) as (k & Hk & E).
    injection E as E. apply dec_inj in E. lia.
  Qed.

  Definition not_reserved (vars : list string) : Prop := forall x, In x reserved_names -> ~ In x vars.
  Lemma not_reserved_rem vars : not_reserved vars -> ~ In "rem"%string vars.
  Proof. intros H. apply H. left. reflexivity. Qed.
  Lemma not_reserved_tl x vars : not_reserved (x :: vars) -> not_reserved vars.
  Proof. intros H y Hy G. apply (H y Hy). right. exact G. Qed.
  Lemma reserved_split x : In x reserved_names <-> x = "rem"%string \/ bindable x = false.
  Proof.
    unfold bindable. rewrite Bool.negb_false_iff, existsb_exists. unfold reserved_names, prelude_values. split.
    - intros [<-|H]; [auto|]. right. exists x. split; [exact H|apply String.eqb_refl].
    - intros [->|(y & H & E)]; [left; reflexivity|]. apply String.eqb_eq in E. subst. right. exact H.
  Qed.

  Lemma numbered_not_rem i tys : not_reserved (numbered_names "f" i tys).
  Proof.
    intros x Hx H. destruct (numbered_In _ _ _ H) as (k & _ & ->).
    cbn in Hx. repeat (destruct Hx as [Hx|Hx]; [discriminate Hx|]). exact Hx.
  Qed.

  Lemma numbered_length p i tys : length (numbered_names p i tys) = length tys.
  Proof. revert i. induction tys; intros i; cbn; auto. Qed.

  Lemma field_vars_length f : length (field_vars f) = length (field_types f).
  Proof. destruct f; cbn; [reflexivity|apply numbered_length|rewrite !map_length; reflexivity]. Qed.

  Lemma tuple_vars_length i tys : length (tuple_vars i tys) = length tys.
  Proof. revert i. induction tys; intros i; cbn; auto. Qed.

  Lemma tuple_vars_In i tys x : In x (tuple_vars i tys) ->
    exists k, (i <= k < i + length tys)%nat /\ x = String (ascii_of_nat (97 + k)) EmptyString.
  Proof.
    revert i. induction tys as [|t tys IH]; intros i H; [contradiction|].
    destruct H as [<-|H].
    - exists i. cbn. split; [lia|reflexivity].
    - destruct (IH _ H) as (k & Hk & ->). exists k. cbn. split; [lia|reflexivity].
  Qed.

  Lemma tuple_vars_NoDup i tys : (i + length tys <= 26)%nat -> NoDup (tuple_vars i tys).
  Proof.
    revert i. induction tys as [|t tys IH]; intros i H; cbn [tuple_vars]; constructor.
    - intros G. destruct (tuple_vars_In _ _ _ G) as (k & Hk & E). cbn [length] in H.
      assert (E' : ascii_of_nat (97 + i) = ascii_of_nat (97 + k)) by congruence.
      apply (f_equal nat_of_ascii) in E'. rewrite !nat_ascii_embedding in E' by lia. lia.
    - apply IH. cbn in H. lia.
  Qed.

  Lemma tuple_vars_not_rem i tys : not_reserved (tuple_vars i tys).
  Proof.
    intros x Hx H. destruct (tuple_vars_In _ _ _ H) as (k & _ & ->).
    cbn in Hx. repeat (destruct Hx as [Hx|Hx]; [discriminate Hx|]). exact Hx.
  Qed.

  (** Names bound by a block: fields are pushed on the environment last first. *)
  Lemma resolve_fields vars fs i env tail args :
    length vars = length fs -> not_reserved vars -> rem_ok env = true ->
    block_resolves env (List.concat (rev (field_form vars i fs)) ++ tail) args =
    block_resolves (map (fun p => (fst p, BField (snd p))) (combine vars (seq i (length vars))) ++ env)
      tail args.
  Proof.
    revert vars i env tail. induction fs as [|f fs IH]; intros [|x vars] i env tail Hl Hr He;
      try discriminate Hl; [reflexivity|].
    injection Hl as Hl. cbn [field_form rev length seq combine map].
    rewrite concat_app, <- app_assoc. cbn [List.concat app].
    rewrite IH; [|exact Hl|apply not_reserved_tl in Hr; exact Hr|exact He].
    cbn [block_resolves fst snd app].
    assert (Hb : bindable x = true).
    { destruct (bindable x) eqn:B; [reflexivity|]. exfalso. apply (Hr x); [apply reserved_split; auto|left; reflexivity]. }
    apply not_reserved_rem in Hr. rewrite Hb. cbn [andb].
    assert (Hok : rem_ok (map (fun p => (fst p, BField (snd p)))
        (combine vars (seq (S i) (length vars))) ++ env) = true).
    { assert (Hr' : ~ In "rem"%string vars) by (intros G; apply Hr; right; exact G).
      clear -Hr' He. revert Hr'. generalize (seq (S i) (length vars)).
      induction vars as [|y vars IHv]; intros l Hr'; cbn; [exact He|].
      destruct l as [|k l]; cbn; [exact He|]. unfold rem_ok. cbn [lookup].
      destruct (String.eqb_spec "rem" y) as [E|E]; [exfalso; apply Hr'; left; auto|].
      apply IHv. intros G. apply Hr'. right. exact G. }
    rewrite Hok. cbn [andb]. unfold rem_ok at 1. cbn [lookup].
    destruct (String.eqb_spec "rem" x) as [E|E]; [exfalso; apply Hr; left; auto|].
    unfold rem_ok in Hok. destruct (lookup "rem" _) as [[| |]|]; try discriminate. reflexivity.
  Qed.

  Lemma lookup_combine vars i env k x :
    NoDup vars -> nth_error vars k = Some x ->
    lookup x (map (fun p => (fst p, BField (snd p))) (combine vars (seq i (length vars))) ++ env) =
    Some (BField (i + k)).
  Proof.
    intros Hn. revert i k. induction Hn as [|y vars Hy Hn IH]; intros i k Hk.
    - destruct k; discriminate.
    - cbn [length seq combine map app lookup fst snd]. destruct k as [|k]; cbn in Hk.
      + injection Hk as ->. rewrite String.eqb_refl, Nat.add_0_r. reflexivity.
      + destruct (String.eqb_spec x y) as [->|E].
        * exfalso. apply Hy. eapply nth_error_In. exact Hk.
        * rewrite (IH (S i) k Hk). do 2 f_equal. lia.
  Qed.

  Lemma ctor_ok vars env i :
    (forall k x, nth_error vars k = Some x -> lookup x env = Some (BField (i + k))) ->
    ctor_args_ok env vars i = true.
  Proof.
    revert i. induction vars as [|x vars IH]; intros i H; cbn [ctor_args_ok]; [reflexivity|].
    rewrite (H O x eq_refl), Nat.add_0_r, Nat.eqb_refl. cbn [andb]. apply IH.
    intros k y Hk. rewrite (H (S k) y Hk). do 2 f_equal. lia.
  Qed.

  Lemma resolves_ok vars fs e block :
    length vars = length fs -> NoDup vars -> not_reserved vars ->
    struct_from_ordinal e vars fs = Val block -> resolves block vars = true.
  Proof.
    intros Hl Hn Hr Hb. unfold struct_from_ordinal in Hb. rewrite field_stmts_form in Hb.
    cbn [bind] in Hb. injection Hb as <-. unfold resolves. cbn [block_resolves].
    rewrite resolve_fields; [|exact Hl|exact Hr|reflexivity].
    cbn [block_resolves]. apply not_reserved_rem in Hr.
    assert (Hok : rem_ok (map (fun p => (fst p, BField (snd p))) (combine vars (seq 0 (length vars)))
        ++ [("rem"%string, BMutUsize); ("ordinal"%string, BUsize)]) = true).
    { clear -Hr. revert Hr. generalize (seq 0 (length vars)).
      induction vars as [|y vars IHv]; intros l Hr'; cbn; [reflexivity|].
      destruct l as [|k l]; cbn; [reflexivity|]. unfold rem_ok. cbn [lookup].
      destruct (String.eqb_spec "rem" y) as [E|E]; [exfalso; apply Hr'; left; auto|].
      apply IHv. intros G. apply Hr'. right. exact G. }
    rewrite Hok. cbn [andb]. apply ctor_ok. intros k x Hk.
    apply lookup_combine; assumption.
  Qed.

  (** A field with a reserved name never resolves. *)
  Lemma resolves_rem_field vars fs i env tail args :
    length vars = length fs ->
    block_resolves env (List.concat (rev (field_form vars i fs)) ++ tail) args = true -> not_reserved vars.
  Proof.
    revert vars i env tail. induction fs as [|f fs IH]; intros [|x vars] i env tail Hl H;
      try discriminate Hl; [intros y _ []|].
    injection Hl as Hl. cbn [field_form rev] in H. rewrite concat_app, <- app_assoc in H.
    pose proof (IH _ _ _ _ Hl H) as Hv.
    destruct (rem_ok env) eqn:He.
    - rewrite resolve_fields in H by assumption. cbn [List.concat app block_resolves] in H.
      apply andb_true_iff in H. destruct H as [H1 H2]. apply andb_true_iff in H1, H2.
      destruct H1 as [H1 _], H2 as [H2 _].
      intros y Hy [<-|G]; [|exact (Hv y Hy G)]. apply reserved_split in Hy. destruct Hy as [->|Hy]; [discriminate H2|congruence].
    - exfalso. clear IH. (* nothing can use rem *)
      assert (G : forall ss env, rem_ok env = false ->
        Forall (fun s => match s with LetField y _ _ => True | RemDivAssign _ => True | _ => False end) ss ->
        forall tl, ss <> [] -> block_resolves env (ss ++ tl) args = false).
      { clear. intros [|s ss] env He Hss tl Hne; [congruence|].
        inversion Hss as [|? ? H1 H2]; subst.
        destruct s; try contradiction; cbn [app block_resolves]; rewrite He; [rewrite andb_false_r|]; reflexivity. }
      rewrite app_assoc in H. rewrite G in H; [discriminate H|exact He| |].
      + apply Forall_app. split; [|repeat constructor].
        clear. apply Forall_concat, Forall_rev. generalize (S i).
        revert vars. induction fs as [|g fs IHf]; intros [|y vars] k; cbn; repeat constructor. apply IHf.
      + cbn. destruct (List.concat _); discriminate.
  Qed.

  Lemma resolves_rem vars fs e block x :
    length vars = length fs -> In x reserved_names -> In x vars ->
    struct_from_ordinal e vars fs = Val block -> resolves block vars = false.
  Proof.
    intros Hl Hx Hr Hb. unfold struct_from_ordinal in Hb. rewrite field_stmts_form in Hb.
    cbn [bind] in Hb. injection Hb as <-. unfold resolves. cbn [block_resolves].
    match goal with |- ?b = false => destruct b eqn:E; [|reflexivity] end.
    apply resolves_rem_field in E; [|exact Hl]. exfalso. exact (E x Hx Hr).
  Qed.
End Names.

(** ** Structs and tuples *)
Section Products.
  Context {cfg : Config}.

  Lemma derive_struct_form f : names_ok (field_vars f) ->
    exists size ord block,
      product_pieces (field_vars f) (field_types f) size ord block /\
      derive_struct f = product_impl (field_types f) size ord block.
  Proof.
    intros [Hn Hr]. pose proof (field_vars_length f) as Hl.
    destruct (pieces_exist (field_vars f) (field_types f) Hl) as (size & ord & block & P).
    exists size, ord, block. split; [exact P|]. destruct P as [P1 (s & P2 & P3) P4 P5].
    unfold derive_struct, struct_size, struct_ord, struct_block.
    rewrite struct_ordinal_size_form, P2. cbn [bind]. rewrite P1, P3, P4.
    rewrite (resolves_ok _ _ Hl Hn Hr P4). reflexivity.
  Qed.

  Lemma derive_struct_rem f x : In x reserved_names -> In x (field_vars f) ->
    derive_struct f = rejected _.
  Proof.
    intros Hx Hr. pose proof (field_vars_length f) as Hl.
    destruct (pieces_exist (field_vars f) (field_types f) Hl) as (size & ord & block & P).
    destruct P as [P1 (s & P2 & P3) P4 P5].
    unfold derive_struct, struct_size, struct_ord, struct_block.
    rewrite struct_ordinal_size_form, P2. cbn [bind]. rewrite P1, P3, P4.
    rewrite (resolves_rem _ _ _ Hl Hx Hr P4). reflexivity.
  Qed.

  Lemma tuple_form tys : (length tys <= 26)%nat ->
    exists size ord block,
      product_pieces (tuple_vars 0 tys) tys size ord block /\
      impl_ordinal_for_tuple_n tys = product_impl tys size ord block.
  Proof.
    intros H26. pose proof (tuple_vars_length 0 tys) as Hl.
    destruct (pieces_exist (tuple_vars 0 tys) tys Hl) as (size & ord & block & P).
    exists size, ord, block. split; [exact P|]. destruct P as [P1 (s & P2 & P3) P4 P5].
    unfold impl_ordinal_for_tuple_n.
    rewrite (proj2 (Nat.ltb_ge 26 (length tys)) H26), struct_ordinal_size_form, P2. cbn [bind]. rewrite P1, P3, P4.
    assert (Hnd : NoDup (tuple_vars 0 tys)) by (apply tuple_vars_NoDup; lia).
    rewrite (resolves_ok _ _ Hl Hnd (tuple_vars_not_rem _ _) P4). reflexivity.
  Qed.

  (** From 27 elements on there is no impl. *)
  Lemma tuple_too_long tys : (26 < length tys)%nat -> impl_ordinal_for_tuple_n tys = rejected _.
  Proof. intros H. unfold impl_ordinal_for_tuple_n. rewrite (proj2 (Nat.ltb_lt 26 (length tys)) H). reflexivity. Qed.

  (** If a tuple impl compiles at all, it is the product impl. *)
  Lemma tuple_inv tys n :
    ORDINAL_SIZE (impl_ordinal_for_tuple_n tys) = Val n ->
    exists size ord block,
      product_pieces (tuple_vars 0 tys) tys size ord block /\
      impl_ordinal_for_tuple_n tys = product_impl tys size ord block.
  Proof.
    intros H. destruct (Nat.le_gt_cases (length tys) 26) as [L|L]; [exact (tuple_form _ L)|].
    rewrite (tuple_too_long _ L) in H. discriminate H.
  Qed.

  (** If a derived struct compiles at all, it is the product impl. *)
  Lemma derive_struct_inv f n :
    ORDINAL_SIZE (derive_struct f) = Val n ->
    exists size ord block,
      product_pieces (field_vars f) (field_types f) size ord block /\
      derive_struct f = product_impl (field_types f) size ord block.
  Proof.
    pose proof (field_vars_length f) as Hl.
    destruct (pieces_exist (field_vars f) (field_types f) Hl) as (size & ord & block & P).
    intros H. exists size, ord, block. split; [exact P|]. destruct P as [P1 (s & P2 & P3) P4 P5].
    unfold derive_struct, struct_size, struct_ord, struct_block in *.
    rewrite struct_ordinal_size_form, P2 in *. cbn [bind] in *. rewrite P1, P3, P4 in *.
    destruct (resolves block (field_vars f)); [reflexivity|discriminate H].
  Qed.

  Lemma derive_struct_lawful f ns n :
    fields_lawful (field_types f) ns -> ORDINAL_SIZE (derive_struct f) = Val n ->
    n = product_of ns /\ lawful (derive_struct f) n.
  Proof.
    intros H Hn. destruct (derive_struct_inv _ Hn) as (size & ord & block & P & E).
    rewrite E in *. eapply product_impl_lawful; eassumption.
  Qed.

  Lemma derive_struct_number f ns n t ds :
    fields_lawful (field_types f) ns -> ORDINAL_SIZE (derive_struct f) = Val n ->
    tuple_digits (field_types f) t ds ->
    ordinal (derive_struct f) t = Val (mixed_radix ns ds).
  Proof.
    intros H Hn Hd. destruct (derive_struct_inv _ Hn) as (size & ord & block & P & E).
    rewrite E in *. eapply product_impl_number; eassumption.
  Qed.

  Lemma derive_struct_size f ns :
    names_ok (field_vars f) -> fields_lawful (field_types f) ns ->
    (prefix_ok 1 ns -> ORDINAL_SIZE (derive_struct f) = Val (product_of ns)) /\
    (~ prefix_ok 1 ns -> ORDINAL_SIZE (derive_struct f) = NoCompile).
  Proof.
    intros Hn H. destruct (derive_struct_form _ Hn) as (size & ord & block & P & E).
    rewrite E. cbn [ORDINAL_SIZE product_impl]. destruct P as [P1 _ _ _]. split; intros Hp.
    - apply run_size_ok with (fs := field_types f); [apply lawful_sizes, H|exact P1|exact Hp].
    - apply run_size_bad with (fs := field_types f) (ns := ns); [apply lawful_sizes, H|exact P1|exact Hp].
  Qed.

  Lemma tuple_lawful tys ns n :
    fields_lawful tys ns -> ORDINAL_SIZE (impl_ordinal_for_tuple_n tys) = Val n ->
    n = product_of ns /\ lawful (impl_ordinal_for_tuple_n tys) n.
  Proof.
    intros H Hn. destruct (tuple_inv _ Hn) as (size & ord & block & P & E).
    rewrite E in *. eapply product_impl_lawful; eassumption.
  Qed.

  Lemma tuple_number tys ns n t ds :
    fields_lawful tys ns -> ORDINAL_SIZE (impl_ordinal_for_tuple_n tys) = Val n ->
    tuple_digits tys t ds ->
    ordinal (impl_ordinal_for_tuple_n tys) t = Val (mixed_radix ns ds).
  Proof.
    intros H Hn Hd. destruct (tuple_inv _ Hn) as (size & ord & block & P & E).
    rewrite E in *. eapply product_impl_number; eassumption.
  Qed.

  Lemma tuple_size tys ns : (length tys <= 26)%nat -> fields_lawful tys ns ->
    (prefix_ok 1 ns -> ORDINAL_SIZE (impl_ordinal_for_tuple_n tys) = Val (product_of ns)) /\
    (~ prefix_ok 1 ns -> ORDINAL_SIZE (impl_ordinal_for_tuple_n tys) = NoCompile).
  Proof.
    intros H26 H. destruct (tuple_form _ H26) as (size & ord & block & P & E).
    rewrite E. cbn [ORDINAL_SIZE product_impl]. destruct P as [P1 _ _ _]. split; intros Hp.
    - apply run_size_ok with (fs := tys); [apply lawful_sizes, H|exact P1|exact Hp].
    - apply run_size_bad with (fs := tys) (ns := ns); [apply lawful_sizes, H|exact P1|exact Hp].
  Qed.
End Products.

(** ** Enums *)
Section Enums.
  Context {cfg : Config}.

  Definition vform (v : variant) : SizeExpr := size_form (field_types (v_fields v)).

  Lemma sizes_of_form vs : sizes_of vs = Val (map vform vs).
  Proof.
    induction vs as [|v vs IH]; [reflexivity|].
    cbn [sizes_of map]. rewrite struct_ordinal_size_form, IH. reflexivity.
  Qed.

  Lemma first_variants_form vs i : size_of_first_variants vs i = sum (map vform (firstn i vs)).
  Proof. unfold size_of_first_variants. rewrite sizes_of_form. reflexivity. Qed.

  Lemma vform_no_sum vs : Forall no_sum (map vform vs).
  Proof.
    induction vs as [|v vs IH]; cbn; constructor; [|exact IH].
    unfold vform, size_form. destruct (field_types (v_fields v)) as [|a [|b r]]; exact I.
  Qed.

  Lemma vform_wf vs : Forall s_wf (map vform vs).
  Proof. induction vs as [|v vs IH]; cbn; constructor; [apply size_form_wf|exact IH]. Qed.

  Lemma sum_scan_pred (P : SizeExpr -> Prop) es :
    (forall l, P (SSum l) -> Forall P l) ->
    forall acc items acc' items', Forall P es -> Forall P items ->
    sum_scan es acc items = Val (acc', items') -> Forall P items'.
  Proof.
    intros HP. induction es as [|e es IH]; intros acc items acc' items' He Hi H.
    - injection H as <- <-. exact Hi.
    - inversion He as [|? ? H1 H2]; subst. destruct e; cbn [sum_scan] in H.
      + destruct (acc + c <=? u64_max); [|discriminate]. eapply IH; [exact H2|exact Hi|exact H].
      + eapply IH; [exact H2| |exact H]. apply Forall_app. auto.
      + eapply IH; [exact H2| |exact H]. apply Forall_app. auto.
      + eapply IH; [exact H2| |exact H]. apply Forall_app. auto.
  Qed.

  Lemma fold_and_Forall (P : SizeExpr -> Prop) l : fold_right (fun x Q => P x /\ Q) True l <-> Forall P l.
  Proof.
    split.
    - induction l as [|a l IH]; cbn; intros H; constructor; [apply H|apply IH, H].
    - induction 1; cbn; auto.
  Qed.

  Lemma sum_wf es s : Forall s_wf es -> sum es = Val s -> s_wf s.
  Proof.
    intros H Hs. unfold sum in Hs. bind_inv Hs. destruct a as [c items].
    assert (Hi : Forall s_wf items).
    { eapply sum_scan_pred; [|exact H|constructor|exact Ha].
      intros l [_ Hl]. apply fold_and_Forall, Hl. }
    assert (s_wf (sum_ignore_const items) /\ s_wf (sum_ignore_const (SConst c :: items))) as [G1 G2].
    { split; apply sum_ignore_wf; [exact Hi|]. constructor; [exact I|exact Hi]. }
    destruct (c =? 0); [injection Hs as <-; exact G1|].
    assert (s = sum_ignore_const (SConst c :: items)) as -> by congruence. exact G2.
  Qed.

  Lemma sum_size_only es s : Forall s_size_only es -> sum es = Val s -> s_size_only s.
  Proof.
    intros H Hs. unfold sum in Hs. bind_inv Hs. destruct a as [c items].
    assert (Hi : Forall s_size_only items).
    { eapply sum_scan_pred; [|exact H|constructor|exact Ha].
      intros l Hl. apply fold_and_Forall, Hl. }
    assert (G : forall L, Forall s_size_only L -> s_size_only (sum_ignore_const L)).
    { intros L HL. destruct L as [|a [|b r]]; cbn [sum_ignore_const].
      - exact I.
      - inversion HL; assumption.
      - apply (proj2 (fold_and_Forall _ _) HL). }
    destruct (c =? 0).
    - injection Hs as <-. apply G, Hi.
    - assert (s = sum_ignore_const (SConst c :: items)) as -> by congruence.
      apply G. constructor; [exact I|exact Hi].
  Qed.

  (** Good sizes of a list of variants. *)
  Definition variants_fit (nss : list (list N)) : Prop :=
    Forall (prefix_ok 1) nss /\ sum_of (map product_of nss) <= usize_max.

  Lemma variant_SVs ctx fo ov vs nss :
    Forall2 (fun v ns => has_sizes (field_types (v_fields v)) ns) vs nss ->
    Forall (prefix_ok 1) nss -> SVs ctx fo ov (map vform vs) (map product_of nss).
  Proof.
    intros H. induction H as [|v ns vs nss Hv H IH]; intros Hp; cbn; constructor.
    - inversion Hp; subst. apply size_form_ok; assumption.
    - apply IH. inversion Hp; assumption.
  Qed.

  Lemma variant_SVs_inv ctx fo ov vs nss ws :
    Forall2 (fun v ns => has_sizes (field_types (v_fields v)) ns) vs nss ->
    SVs ctx fo ov (map vform vs) ws ->
    Forall (prefix_ok 1) nss /\ ws = map product_of nss.
  Proof.
    intros H. revert ws. induction H as [|v ns vs nss Hv H IH]; intros ws Hw.
    - inversion Hw; subst. split; [constructor|reflexivity].
    - cbn in Hw. inversion Hw as [|? w ? ws' W1 W2]; subst.
      destruct (@size_form_inv _ _ _ _ _ _ _ Hv W1) as [-> Hp].
      destruct (IH _ W2) as [Hps ->]. split; [constructor; assumption|reflexivity].
  Qed.

  Lemma variants_fit_app a b : variants_fit (a ++ b) -> variants_fit a.
  Proof.
    intros [H1 H2]. apply Forall_app in H1. rewrite map_app, sum_of_app in H2.
    split; [apply H1|lia].
  Qed.

  Definition vsizes (vs : list variant) (nss : list (list N)) : Prop :=
    Forall2 (fun v ns => has_sizes (field_types (v_fields v)) ns) vs nss.

  Lemma first_variants_SV ctx fo ov pre rest nss :
    vsizes pre nss -> variants_fit nss ->
    exists s, size_of_first_variants (pre ++ rest) (length pre) = Val s /\
      SV ctx fo ov s (sum_of (map product_of nss)) /\ s_wf s.
  Proof.
    intros Hs [Hp Hm]. rewrite first_variants_form, firstn_app, Nat.sub_diag, firstn_all.
    cbn [firstn]. rewrite app_nil_r.
    destruct (@sum_ok _ ctx fo ov (map vform pre) (map product_of nss)) as (s & H1 & H2).
    - apply variant_SVs; assumption.
    - exact Hm.
    - exists s. split; [exact H1|]. split; [exact H2|]. eapply sum_wf; [apply vform_wf|exact H1].
  Qed.

  Lemma const_expr_SV fo ov s v : SV true fo ov s v ->
    exists e, const_expr s = Val e /\ forall ctx, eval ctx fo ov e = Val v.
  Proof.
    intros H. destruct (@SV_eval _ _ _ _ _ _ H) as (e & E1 & E2).
    destruct s; cbn [const_expr].
    - injection E1 as <-. eexists. split; [reflexivity|]. intros ctx. exact E2.
    - rewrite E1. cbn [bind]. eexists. split; [reflexivity|]. intros ctx. exact E2.
    - rewrite E1. cbn [bind]. eexists. split; [reflexivity|]. intros ctx. exact E2.
    - rewrite E1. cbn [bind]. eexists. split; [reflexivity|]. intros ctx. exact E2.
  Qed.

  Lemma enum_digits_exist vs nss (e : enum_val vs) :
    variants_lawful vs nss -> exists ds, enum_digits vs e ds /\
      Forall2 N.lt ds (nth (variant_index vs e) nss []).
  Proof.
    intros H. induction H as [|v ns vs nss Hv H IH]; [destruct e|].
    destruct e as [t|e].
    - apply digits_exist, Hv.
    - apply IH.
  Qed.

  Lemma position_lt nss k ds :
    Forall2 N.lt ds (nth k nss []) -> (k < length nss)%nat ->
    enum_position nss k ds < sum_of (map product_of nss).
  Proof.
    unfold enum_position. intros H Hk. revert k H Hk.
    induction nss as [|ns nss IH]; intros k H Hk; [cbn in Hk; lia|].
    destruct k as [|k]; cbn [firstn map nth] in *.
    - rewrite sum_of_cons. cbn [sum_of fold_right]. pose proof (mixed_radix_lt H). lia.
    - rewrite !sum_of_cons. specialize (IH k H). cbn in Hk. lia.
  Qed.

  Lemma variant_index_lt vs (e : enum_val vs) : (variant_index vs e < length vs)%nat.
  Proof. induction vs as [|v vs IH]; [destruct e|]. destruct e as [t|e]; cbn; [lia|]. specialize (IH e). lia. Qed.

  Lemma enum_position_S ns nss k ds :
    enum_position (ns :: nss) (S k) ds = product_of ns + enum_position nss k ds.
  Proof. unfold enum_position. cbn [firstn map nth]. rewrite sum_of_cons. lia. Qed.

  Lemma enum_position_0 ns nss ds : enum_position (ns :: nss) 0 ds = mixed_radix ns ds.
  Proof. reflexivity. Qed.

  Lemma enum_position_inj vs nss (e e' : enum_val vs) ds ds' :
    variants_lawful vs nss -> enum_digits vs e ds -> enum_digits vs e' ds' ->
    enum_position nss (variant_index vs e) ds = enum_position nss (variant_index vs e') ds' ->
    e = e'.
  Proof.
    intros H. induction H as [|v ns vs nss Hv H IH]; [destruct e|]. intros He He' E.
    destruct e as [t|e], e' as [t'|e']; cbn [variant_index enum_digits] in *;
      rewrite ?enum_position_S, ?enum_position_0 in E.
    - pose proof (@digits_lt _ _ _ _ _ Hv He) as L. pose proof (@digits_lt _ _ _ _ _ Hv He') as L'.
      f_equal. eapply digits_inj; [exact Hv|exact He|].
      rewrite (mixed_radix_inj L L' E). exact He'.
    - pose proof (@digits_lt _ _ _ _ _ Hv He) as L. pose proof (mixed_radix_lt L). lia.
    - pose proof (@digits_lt _ _ _ _ _ Hv He') as L. pose proof (mixed_radix_lt L). lia.
    - f_equal. apply IH; try assumption. lia.
  Qed.

  Lemma lawful_vsizes vs nss : variants_lawful (variant_types vs) nss -> vsizes vs nss.
  Proof.
    revert nss. induction vs as [|v vs IH]; intros nss H; inversion H; subst; constructor.
    - apply lawful_sizes. assumption.
    - apply IH. assumption.
  Qed.

  Lemma enum_arms_run rest : forall pre nss0 nss arms,
    variants_lawful (variant_types rest) nss -> vsizes pre nss0 -> variants_fit (nss0 ++ nss) ->
    enum_arms (pre ++ rest) (length pre) rest = Val arms ->
    forall (e : enum_val (variant_types rest)) ds, enum_digits _ e ds ->
    run_arms (variant_types rest) arms e =
      Val (sum_of (map product_of nss0) + enum_position nss (variant_index _ e) ds).
  Proof.
    induction rest as [|v rest IH]; intros pre nss0 nss arms Hl Hpre Hfit Ha e ds He; [destruct e|].
    cbn [variant_types map] in Hl. inversion Hl as [|? ns ? nss' Hv Hl']; subst.
    cbn [enum_arms] in Ha.
    destruct e as [t|e]; cbn [enum_digits] in He.
    - pose proof (@digits_lt _ _ _ _ _ Hv He) as Hlt.
      destruct (@first_variants_SV false (field_ordinal _ t) 0 pre (v :: rest) nss0 Hpre
        (variants_fit_app _ _ Hfit)) as (s0 & S1 & S2 & _).
      rewrite S1 in Ha. cbn [bind] in Ha. bind_inv Ha. bind_inv Ha. bind_inv Ha. bind_inv Ha.
      injection Ha as <-. cbn [run_arms variant_types map variant_index].
      destruct Hfit as [Hp Hm]. apply Forall_app in Hp. destruct Hp as [_ Hp].
      inversion Hp as [|? ? Hp1 Hp2]; subst.
      rewrite map_app, sum_of_app in Hm. cbn [map] in Hm. rewrite sum_of_cons in Hm.
      pose proof (@struct_ordinal_SV _ false (field_ordinal _ t) 0 _ ns ds a Ha0
        (@field_ordinal_digits _ _ _ He) (lawful_sizes Hv) Hlt ltac:(lia)) as HSV.
      pose proof (mixed_radix_lt Hlt) as L.
      destruct (@sum_ok _ false (field_ordinal _ t) 0 [s0; a]
        [sum_of (map product_of nss0); mixed_radix ns ds]) as (s & G1 & G2).
      { constructor; [exact S2|]. constructor; [exact HSV|constructor]. }
      { cbn [sum_of fold_right] in *. unfold sum_of in *. lia. }
      assert (a0 = s) as -> by congruence.
      destruct (@SV_eval _ _ _ _ _ _ G2) as (e' & E1 & E2).
      assert (a1 = e') as -> by congruence. rewrite E2.
      f_equal. rewrite enum_position_0, !sum_of_cons. cbn [sum_of fold_right]. unfold sum_of. lia.
    - bind_inv Ha. bind_inv Ha. bind_inv Ha. bind_inv Ha. bind_inv Ha. injection Ha as <-.
      cbn [run_arms variant_types map variant_index].
      rewrite enum_position_S.
      assert (Hpre' : vsizes (pre ++ [v]) (nss0 ++ [ns])).
      { apply Forall2_app; [exact Hpre|]. constructor; [|constructor]. apply lawful_sizes, Hv. }
      specialize (IH (pre ++ [v]) (nss0 ++ [ns]) nss' a3 Hl' Hpre').
      rewrite <- !app_assoc in IH. cbn [app] in IH. rewrite app_length in IH.
      cbn [length] in IH. rewrite Nat.add_1_r in IH.
      specialize (IH Hfit Ha4 e ds He). fold (variant_types rest). rewrite IH.
      f_equal. rewrite map_app, sum_of_app. cbn [map]. rewrite sum_of_cons. cbn [sum_of fold_right].
      unfold sum_of. lia.
  Qed.

  Lemma enum_branches_run rest : forall pre nss0 nss bs o,
    variants_lawful (variant_types rest) nss -> vsizes pre nss0 -> variants_fit (nss0 ++ nss) ->
    enum_branches (pre ++ rest) (length pre) rest = Val bs ->
    sum_of (map product_of nss0) <= o ->
    if o <? sum_of (map product_of (nss0 ++ nss))
    then exists e ds, enum_digits (variant_types rest) e ds /\
      sum_of (map product_of nss0) + enum_position nss (variant_index _ e) ds = o /\
      run_branches (variant_types rest) bs o = Val (Some e)
    else run_branches (variant_types rest) bs o = Val None.
  Proof.
    induction rest as [|v rest IH]; intros pre nss0 nss bs o Hl Hpre Hfit Hb Ho.
    - inversion Hl; subst. rewrite app_nil_r. destruct (N.ltb_spec o (sum_of (map product_of nss0))).
      + lia.
      + reflexivity.
    - cbn [variant_types map] in Hl. inversion Hl as [|? ns ? nss' Hv Hl']; subst.
      assert (Hpre' : vsizes (pre ++ [v]) (nss0 ++ [ns])).
      { apply Forall2_app; [exact Hpre|]. constructor; [|constructor]. apply lawful_sizes, Hv. }
      assert (Hfit' : variants_fit ((nss0 ++ [ns]) ++ nss')) by (rewrite <- app_assoc; exact Hfit).
      cbn [enum_branches] in Hb.
      destruct (@first_variants_SV true no_ordinals o pre (v :: rest) nss0 Hpre
        (variants_fit_app _ _ Hfit)) as (s0 & S1 & S2 & _).
      destruct (@first_variants_SV true no_ordinals o (pre ++ [v]) rest _ Hpre'
        (variants_fit_app _ _ Hfit')) as (s1 & T1 & T2 & _).
      rewrite <- app_assoc in T1. cbn [app] in T1. rewrite app_length in T1. cbn [length] in T1.
      rewrite Nat.add_1_r in T1.
      rewrite S1, T1 in Hb. cbn [bind] in Hb.
      destruct (const_expr_SV _ _ _ _ S2) as (e0 & E0 & E0'). destruct (const_expr_SV _ _ _ _ T2) as (e1 & E1 & E1').
      rewrite E0, E1 in Hb. cbn [bind] in Hb. bind_inv Hb. bind_inv Hb. injection Hb as <-.
      cbn [variant_types map run_branches]. rewrite E1'. cbn [bind].
      assert (Hsum : sum_of (map product_of (nss0 ++ [ns])) =
        sum_of (map product_of nss0) + product_of ns).
      { rewrite map_app, sum_of_app. cbn [map]. rewrite sum_of_cons. cbn [sum_of fold_right]. unfold sum_of. lia. }
      assert (Htot : sum_of (map product_of (nss0 ++ ns :: nss')) =
        sum_of (map product_of nss0) + product_of ns + sum_of (map product_of nss')).
      { rewrite map_app, sum_of_app. cbn [map]. rewrite sum_of_cons. lia. }
      rewrite Hsum. destruct Hfit as [Hp Hm].
      destruct (N.ltb_spec o (sum_of (map product_of nss0) + product_of ns)) as [Hlt|Hge].
      + destruct (N.ltb_spec o (sum_of (map product_of (nss0 ++ ns :: nss')))); [|lia].
        destruct (@run_block_ok _ (field_vars (v_fields v)) (field_types (v_fields v)) ns
          (RSub ROrdinalVar e0) o (o - sum_of (map product_of nss0)) a Hv
          (field_vars_length _)) as (t & ds & R1 & R2 & R3).
        { apply product_pos_inv. lia. }
        { exact Ha. }
        { cbn [eval]. rewrite E0'. cbn [bind]. apply usub_ok; [exact Ho|lia]. }
        exists (inl t), ds. split; [exact R1|]. split.
        * cbn [variant_index]. rewrite enum_position_0, R2, N.mod_small by lia. lia.
        * rewrite R3. destruct (N.ltb_spec (o - sum_of (map product_of nss0)) (product_of ns)); [|lia].
          reflexivity.
      + specialize (IH (pre ++ [v]) (nss0 ++ [ns]) nss' a0 o Hl' Hpre' Hfit').
        rewrite <- app_assoc in IH. cbn [app] in IH. rewrite app_length in IH.
        cbn [length] in IH. rewrite Nat.add_1_r in IH.
        specialize (IH Ha0 ltac:(rewrite Hsum; exact Hge)).
        rewrite <- (app_assoc nss0 [ns] nss') in IH. cbn [app] in IH.
        destruct (N.ltb_spec o (sum_of (map product_of (nss0 ++ ns :: nss')))).
        * destruct IH as (e & ds & I1 & I2 & I3). exists (inr e), ds. split; [exact I1|].
          split; [cbn [variant_index]; fold (variant_types rest); rewrite enum_position_S; rewrite Hsum in I2; lia|].
          fold (variant_types rest). rewrite I3. reflexivity.
        * fold (variant_types rest). rewrite IH. reflexivity.
  Qed.

  Lemma derive_enum_inv vs n :
    ORDINAL_SIZE (derive_enum vs) = Val n ->
    exists s size arms bs,
      sum (map vform vs) = Val s /\ expr s = Val size /\ run_size size = Val n /\
      enum_arms vs 0 vs = Val arms /\ enum_branches vs 0 vs = Val bs /\
      derive_enum vs = {|
        ORDINAL_SIZE := run_size size;
        ordinal := fun self => run_size size ;;; run_arms (variant_types vs) arms self;
        from_ordinal := fun o =>
          n <- run_size size ;;
          if n =? 0 then Val None else run_branches (variant_types vs) bs o |}.
  Proof.
    intros H. unfold derive_enum, enum_size in *. rewrite first_variants_form, firstn_all in *.
    destruct (sum (map vform vs)) as [s| | | |] eqn:E1; cbn [bind] in *; try discriminate H.
    destruct (expr s) as [size| | | |] eqn:E2; try discriminate H.
    destruct (enum_arms vs 0 vs) as [arms| | | |] eqn:E3; try discriminate H.
    destruct (enum_branches vs 0 vs) as [bs| | | |] eqn:E4; try discriminate H.
    destruct (branches_resolve vs bs); try discriminate H.
    exists s, size, arms, bs. repeat (split; [reflexivity||assumption|]). reflexivity.
  Qed.

  Lemma enum_total_inv vs nss s size n :
    vsizes vs nss -> sum (map vform vs) = Val s -> expr s = Val size -> run_size size = Val n ->
    n = sum_of (map product_of nss) /\ variants_fit nss.
  Proof.
    intros Hs H1 H2 H3. pose proof (SV_inv _ _ _ H2 H3) as HSV.
    destruct (@sum_inv _ _ _ _ _ _ _ (vform_no_sum vs) H1 HSV) as (ws & W1 & W2).
    destruct (@variant_SVs_inv _ _ _ _ _ _ Hs W1) as [Hp ->].
    split; [congruence|]. split; [exact Hp|]. rewrite W2.
    eapply size_only_le; [|exact H3]. eapply s_size_only_expr; [|exact H2].
    eapply sum_size_only; [|exact H1].
    clear -Hs. induction Hs as [|v ns vs nss Hv H IH]; cbn; constructor; [|exact IH].
    eapply size_form_only. exact Hv.
  Qed.

  Lemma derive_enum_number vs nss n e ds :
    variants_lawful (variant_types vs) nss -> ORDINAL_SIZE (derive_enum vs) = Val n ->
    enum_digits (variant_types vs) e ds ->
    ordinal (derive_enum vs) e = Val (enum_position nss (variant_index _ e) ds).
  Proof.
    intros Hl Hn He. destruct (derive_enum_inv _ Hn) as (s & size & arms & bs & H1 & H2 & H3 & H4 & H5 & E).
    pose proof (lawful_vsizes _ Hl) as Hs.
    destruct (enum_total_inv Hs H1 H2 H3) as [Hn' Hfit].
    rewrite E. cbn [ordinal]. rewrite H3. cbn [bind].
    rewrite (@enum_arms_run vs [] [] nss arms Hl (Forall2_nil _) Hfit H4 e ds He).
    reflexivity.
  Qed.

  Lemma derive_enum_lawful vs nss n :
    variants_lawful (variant_types vs) nss -> ORDINAL_SIZE (derive_enum vs) = Val n ->
    n = sum_of (map product_of nss) /\ lawful (derive_enum vs) n.
  Proof.
    intros Hl Hn. pose proof (lawful_vsizes _ Hl) as Hs.
    destruct (derive_enum_inv _ Hn) as (s & size & arms & bs & H1 & H2 & H3 & H4 & H5 & E).
    destruct (enum_total_inv Hs H1 H2 H3) as [Hn' Hfit]. split; [exact Hn'|].
    assert (Hf : forall o, from_ordinal (derive_enum vs) o =
      if n =? 0 then Val None else run_branches (variant_types vs) bs o).
    { intros o. rewrite E. cbn [from_ordinal]. rewrite H3. reflexivity. }
    assert (Hlen : length (variant_types vs) = length nss) by (eapply Forall2_length; exact Hl).
    split; [split|].
    - exact Hn.
    - rewrite Hn'. apply Hfit.
    - intros e. destruct (enum_digits_exist e Hl) as (ds & Hd & Hlt).
      pose proof (position_lt _ Hlt ltac:(rewrite <- Hlen; apply variant_index_lt)) as L.
      exists (enum_position nss (variant_index _ e) ds).
      split; [eapply derive_enum_number; eassumption|]. split; [rewrite Hn'; exact L|].
      rewrite Hf. destruct (N.eqb_spec n 0); [lia|].
      pose proof (@enum_branches_run vs [] [] nss bs (enum_position nss (variant_index _ e) ds)
        Hl (Forall2_nil _) Hfit H5) as R. cbn [app map sum_of fold_right] in R.
      specialize (R ltac:(lia)). fold (sum_of (map product_of nss)) in R.
      destruct (N.ltb_spec (enum_position nss (variant_index _ e) ds) (sum_of (map product_of nss))); [|lia].
      destruct R as (e' & ds' & R1 & R2 & R3). rewrite R3. do 2 f_equal.
      eapply enum_position_inj; [exact Hl|exact R1|exact Hd|]. lia.
    - intros i Hi. pose proof (@enum_branches_run vs [] [] nss bs i Hl (Forall2_nil _) Hfit H5) as R.
      cbn [app map sum_of fold_right] in R. specialize (R ltac:(lia)).
      fold (sum_of (map product_of nss)) in R.
      destruct (N.ltb_spec i (sum_of (map product_of nss))); [|lia].
      destruct R as (e & ds & R1 & R2 & R3). exists e. rewrite Hf, R3.
      destruct (N.eqb_spec n 0); [lia|]. split; [reflexivity|].
      rewrite (derive_enum_number _ _ _ Hl Hn R1). f_equal. lia.
    - intros i H6 H7. rewrite Hf. destruct (N.eqb_spec n 0); [reflexivity|].
      pose proof (@enum_branches_run vs [] [] nss bs i Hl (Forall2_nil _) Hfit H5) as R.
      cbn [app map sum_of fold_right] in R. specialize (R ltac:(lia)).
      fold (sum_of (map product_of nss)) in R.
      destruct (N.ltb_spec i (sum_of (map product_of nss))); [lia|]. exact R.
  Qed.

  (** *** When a derived enum compiles *)
  Lemma sum2_static a b :
    match a with SConst c => c <= usize_max | _ => True end ->
    match b with SConst c => c = 0 | _ => True end ->
    exists s, sum [a; b] = Val s.
  Proof.
    intros Ha Hb. unfold sum. pose proof (@usize_le_u64 cfg).
    assert (G : exists c items, sum_scan [a; b] 0 [] = Val (c, items)).
    { destruct a as [c|x|l|l], b as [d|y|m|m]; cbn [sum_scan]; subst; rewrite ?N.add_0_r, ?N.add_0_l;
      repeat match goal with |- context[if ?x <=? ?y then _ else _] =>
        destruct (N.leb_spec x y); [|lia] end; eauto. }
    destruct G as (c & items & ->). cbn [bind]. destruct (c =? 0); eauto.
  Qed.

  Lemma SV_const_le ctx fo ov s v : SV ctx fo ov s v ->
    match s with SConst c => c <= usize_max | _ => True end.
  Proof. destruct s; cbn; auto. intros [-> H]. exact H. Qed.

  Lemma enum_arms_exist rest : forall pre nss0 nss,
    vsizes rest nss -> vsizes pre nss0 -> variants_fit (nss0 ++ nss) ->
    exists arms, enum_arms (pre ++ rest) (length pre) rest = Val arms.
  Proof.
    induction rest as [|v rest IH]; intros pre nss0 nss Hl Hpre Hfit; [eexists; reflexivity|].
    inversion Hl as [|? ns ? nss' Hv Hl']; subst.
    destruct (@first_variants_SV true no_ordinals 0 pre (v :: rest) nss0 Hpre
        (variants_fit_app _ _ Hfit)) as (s0 & S1 & S2 & S3).
    cbn [enum_arms]. rewrite S1. cbn [bind]. rewrite struct_ordinal_form. cbn [bind].
    destruct (@sum2_static s0 (sum_ignore_const
      (ord_items (seq 0 (length (field_types (v_fields v)))) (field_types (v_fields v)))))
      as (s & Hs).
    { eapply SV_const_le. exact S2. }
    { pose proof (ord_items_nonconst (seq 0 (length (field_types (v_fields v)))) (field_types (v_fields v))) as Hn.
      destruct (ord_items _ _) as [|a [|b r]]; cbn; auto.
      inversion Hn as [|? ? Hna _]; subst. destruct a; try contradiction; exact I. }
    rewrite Hs. cbn [bind].
    destruct (@s_wf_expr s) as (x & Hx).
    { eapply sum_wf; [|exact Hs]. constructor; [exact S3|]. constructor; [|constructor].
      apply sum_ignore_wf, ord_items_wf, seq_length. }
    rewrite Hx. cbn [bind].
    assert (Hpre' : vsizes (pre ++ [v]) (nss0 ++ [ns])).
    { apply Forall2_app; [exact Hpre|]. constructor; [exact Hv|constructor]. }
    destruct (IH (pre ++ [v]) (nss0 ++ [ns]) nss' Hl' Hpre') as (arms & Harms).
    { rewrite <- app_assoc. exact Hfit. }
    rewrite <- app_assoc in Harms. cbn [app] in Harms. rewrite app_length in Harms.
    cbn [length] in Harms. rewrite Nat.add_1_r in Harms. rewrite Harms. eexists; reflexivity.
  Qed.

  Lemma enum_branches_exist rest : forall pre nss0 nss,
    vsizes rest nss -> vsizes pre nss0 -> variants_fit (nss0 ++ nss) ->
    Forall (fun v => names_ok (field_vars (v_fields v))) rest ->
    exists bs, enum_branches (pre ++ rest) (length pre) rest = Val bs /\
      branches_resolve rest bs = true.
  Proof.
    induction rest as [|v rest IH]; intros pre nss0 nss Hl Hpre Hfit Hnm; [eexists; split; reflexivity|].
    inversion Hl as [|? ns ? nss' Hv Hl']; subst.
    inversion Hnm as [|? ? [Hn1 Hn2] Hnm']; subst.
    assert (Hpre' : vsizes (pre ++ [v]) (nss0 ++ [ns])).
    { apply Forall2_app; [exact Hpre|]. constructor; [exact Hv|constructor]. }
    assert (Hfit' : variants_fit ((nss0 ++ [ns]) ++ nss')) by (rewrite <- app_assoc; exact Hfit).
    destruct (@first_variants_SV true no_ordinals 0 pre (v :: rest) nss0 Hpre
        (variants_fit_app _ _ Hfit)) as (s0 & S1 & S2 & S3).
    destruct (@first_variants_SV true no_ordinals 0 (pre ++ [v]) rest _ Hpre'
        (variants_fit_app _ _ Hfit')) as (s1 & T1 & T2 & _).
    destruct (const_expr_SV _ _ _ _ S2) as (e0 & E0 & _). destruct (const_expr_SV _ _ _ _ T2) as (e1 & E1 & _).
    destruct (IH (pre ++ [v]) (nss0 ++ [ns]) nss' Hl' Hpre' Hfit' Hnm') as (bs & Hbs & Hres).
    rewrite <- app_assoc in Hbs, T1. cbn [app] in Hbs, T1. rewrite app_length in Hbs, T1.
    cbn [length] in Hbs, T1. rewrite Nat.add_1_r in Hbs, T1.
    cbn [enum_branches]. rewrite S1, T1. cbn [bind]. rewrite E0, E1. cbn [bind].
    destruct (struct_from_ordinal (RSub ROrdinalVar e0) (field_vars (v_fields v))
      (field_types (v_fields v))) as [block| | | |] eqn:Hb;
      try (unfold struct_from_ordinal in Hb; rewrite field_stmts_form in Hb; discriminate Hb).
    cbn [bind]. rewrite Hbs. cbn [bind]. eexists. split; [reflexivity|].
    cbn [branches_resolve]. rewrite Hres, andb_true_r.
    eapply resolves_ok; [apply field_vars_length|exact Hn1|exact Hn2|exact Hb].
  Qed.

  Lemma derive_enum_compiles vs nss :
    Forall (fun v => names_ok (field_vars (v_fields v))) vs ->
    vsizes vs nss -> variants_fit nss ->
    ORDINAL_SIZE (derive_enum vs) = Val (sum_of (map product_of nss)).
  Proof.
    intros Hnm Hs Hfit. pose proof Hfit as [Hp Hm].
    destruct (@enum_arms_exist vs [] [] nss Hs (Forall2_nil _) Hfit) as (arms & Ha).
    destruct (@enum_branches_exist vs [] [] nss Hs (Forall2_nil _) Hfit Hnm) as (bs & Hb & Hr).
    cbn [app length] in Ha, Hb.
    destruct (@sum_ok _ true no_ordinals 0 (map vform vs) (map product_of nss)) as (s & H1 & H2).
    { apply variant_SVs; assumption. } { exact Hm. }
    destruct (@SV_eval _ _ _ _ _ _ H2) as (size & E1 & E2).
    unfold derive_enum, enum_size. rewrite first_variants_form, firstn_all, H1. cbn [bind].
    rewrite E1, Ha, Hb, Hr. exact E2.
  Qed.

  Lemma derive_enum_size_cases vs nss : vsizes vs nss ->
    (exists n, ORDINAL_SIZE (derive_enum vs) = Val n) \/ ORDINAL_SIZE (derive_enum vs) = NoCompile.
  Proof.
    intros Hs. unfold derive_enum, enum_size. rewrite first_variants_form, firstn_all.
    destruct (sum (map vform vs)) as [s| | | |] eqn:H1; cbn [bind]; try (right; reflexivity).
    destruct (expr s) as [size| | | |] eqn:H2; try (right; reflexivity).
    destruct (enum_arms vs 0 vs) as [arms| | | |]; try (right; reflexivity).
    destruct (enum_branches vs 0 vs) as [bs| | | |]; try (right; reflexivity).
    destruct (branches_resolve vs bs); try (right; reflexivity).
    cbn [ORDINAL_SIZE]. unfold run_size. apply size_only_eval.
    eapply s_size_only_expr; [|exact H2]. eapply sum_size_only; [|exact H1].
    clear -Hs. induction Hs as [|v ns vs nss Hv H IH]; cbn; constructor; [|exact IH].
    eapply size_form_only. exact Hv.
  Qed.

  Lemma derive_enum_bad vs nss : vsizes vs nss -> ~ variants_fit nss ->
    ORDINAL_SIZE (derive_enum vs) = NoCompile.
  Proof.
    intros Hs Hbad. destruct (derive_enum_size_cases Hs) as [[n Hn]|H]; [|exact H].
    exfalso. destruct (derive_enum_inv _ Hn) as (s & size & arms & bs & H1 & H2 & H3 & _).
    destruct (enum_total_inv Hs H1 H2 H3) as [_ Hfit]. contradiction.
  Qed.
End Enums.

(** ** Statements for the property files *)
Section Final.
  Context {cfg : Config}.

  Lemma tuple_law tys ns n :
    fields_lawful tys ns ->
    ORDINAL_SIZE (impl_ordinal_for_tuple_n tys) = Val n ->
    lawful (impl_ordinal_for_tuple_n tys) n.
  Proof. intros H1 H2. eapply tuple_lawful; eassumption. Qed.

  Lemma struct_law f ns n :
    fields_lawful (field_types f) ns -> ORDINAL_SIZE (derive_struct f) = Val n ->
    lawful (derive_struct f) n.
  Proof. intros H1 H2. eapply derive_struct_lawful; eassumption. Qed.

  Lemma enum_law vs nss n :
    variants_lawful (variant_types vs) nss -> ORDINAL_SIZE (derive_enum vs) = Val n ->
    lawful (derive_enum vs) n.
  Proof. intros H1 H2. eapply derive_enum_lawful; eassumption. Qed.

  (** Inhabited fields: it is enough that the number of values fits. *)
  Lemma struct_compiles f ns :
    names_ok (field_vars f) -> fields_lawful (field_types f) ns ->
    Forall (fun n => 0 < n) ns -> product_of ns <= usize_max ->
    ORDINAL_SIZE (derive_struct f) = Val (product_of ns).
  Proof.
    intros Hn H Hp Hm. apply derive_struct_size; [exact Hn|exact H|].
    apply prefix_ok_pos; [exact Hp|lia].
  Qed.

  Lemma enum_compiles vs nss :
    Forall (fun v => names_ok (field_vars (v_fields v))) vs ->
    variants_lawful (variant_types vs) nss ->
    Forall (Forall (fun n => 0 < n)) nss -> sum_of (map product_of nss) <= usize_max ->
    ORDINAL_SIZE (derive_enum vs) = Val (sum_of (map product_of nss)).
  Proof.
    intros Hn H Hp Hm. apply derive_enum_compiles; [exact Hn|apply lawful_vsizes, H|].
    split; [|exact Hm]. clear -Hp Hm. induction Hp as [|ns nss Hns Hp IH]; constructor.
    - apply prefix_ok_pos; [exact Hns|]. cbn [map] in Hm. rewrite sum_of_cons in Hm. lia.
    - apply IH. cbn [map] in Hm. rewrite sum_of_cons in Hm. lia.
  Qed.

  Lemma struct_rem_rejected f x : In x reserved_names ->
    In x (field_vars f) -> ORDINAL_SIZE (derive_struct f) = NoCompile.
  Proof. intros Hx H. rewrite (@derive_struct_rem _ _ x Hx H). reflexivity. Qed.

  (** A declaration whose field has a reserved name is rejected although its only field is a
      bool; renamed, it is accepted. *)
  Lemma rem_refuted (f : ftype) x : ordinal_bijection (ft_ord f) 2 -> In x reserved_names ->
    exists d : fields, field_types d = [f] /\ field_vars d = [x] /\
      NoDup (field_vars d) /\ ORDINAL_SIZE (derive_struct d) = NoCompile.
  Proof.
    intros H Hx. exists (FNamed [(x, f)]). split; [reflexivity|]. split; [reflexivity|].
    split; [repeat constructor; cbn; tauto|]. apply (@struct_rem_rejected (FNamed [(x, f)]) x Hx). cbn. auto.
  Qed.
End Final.
