(** * SiteProofs: lemmas for PropSite.v. *)
From Verif Require Import Base Spec ModelOrdinal ModelDerive ModelSite SpecDerive SpecSite
  BaseProofs OrdinalProofs DeriveProofs DeriveProofs2 DeriveProofs3.
From Coq Require Import String List. Import ListNotations.
Set Implicit Arguments. Unset Strict Implicit.

Lemma mem_In x l : mem x l = true <-> In x l.
Proof.
  unfold mem. rewrite existsb_exists. split.
  - intros (y & H & E). apply String.eqb_eq in E. subst. exact H.
  - intros H. exists x. split; [exact H|apply String.eqb_refl].
Qed.
Lemma mem_not x l : negb (mem x l) = true <-> ~ In x l.
Proof. rewrite Bool.negb_true_iff, <- Bool.not_true_iff_false, mem_In. reflexivity. Qed.

Lemma accepts_clear s bound : site_accepts s bound = true <-> clear_of s bound.
Proof.
  unfold site_accepts, clear_of. rewrite !Bool.andb_true_iff, !mem_not, forallb_forall. split.
  - intros [[[H1 H2] H3] H4]. split; intros x Hx; (split; [intros E; rewrite E in Hx; contradiction|]).
    + intros G. specialize (H2 x G). apply mem_not in H2. contradiction.
    + intros E. rewrite E in Hx. contradiction.
  - intros [H1 H2]. split; [split; [split|]|].
    + intros G. destruct (H1 _ G) as [K _]. apply K. reflexivity.
    + intros x Hx. apply mem_not. intros G. destruct (H1 _ G) as [_ K]. apply K, Hx.
    + intros G. destruct (H2 _ G) as [K _]. apply K. reflexivity.
    + intros G. destruct (H2 _ G) as [_ K]. apply K. reflexivity.
Qed.

Lemma clear_ext s a b : (forall x, In x a <-> In x b) -> clear_of s a <-> clear_of s b.
Proof.
  intros H. unfold clear_of. split; intros [H1 H2]; (split; [|exact H2]); intros x Hx;
    destruct (H1 x Hx) as [G1 G2]; (split; [exact G1|]); intros G; apply G2, H, G.
Qed.

Lemma enum_bound_In vs x : In x (enum_bound vs) <-> In x (enum_locals vs ++ all_field_vars vs).
Proof.
  unfold enum_bound, all_field_vars. rewrite !in_app_iff.
  assert (H : In x (flat_map (fun v => "rem"%string :: field_vars (v_fields v)) vs) <->
              (vs <> [] /\ x = "rem"%string) \/ In x (flat_map (fun v => field_vars (v_fields v)) vs)).
  { induction vs as [|v vs IH]; cbn [flat_map].
    - cbn. tauto.
    - cbn [app]. cbn [In]. rewrite !in_app_iff, IH. split.
      + intros [G|[G|[[_ G]|G]]]; try (left; split; [discriminate|congruence]); auto.
      + intros [[_ G]|[G|G]]; auto. }
  rewrite H. destruct vs as [|v vs]; cbn [enum_locals In].
  - intuition congruence.
  - assert (E : v :: vs <> []) by discriminate. intuition.
Qed.

Section Site.
  Context {cfg : Config}.

  Lemma struct_at_same s f : s_inherent s = None -> clear_of s (struct_locals ++ field_vars f) ->
    derive_struct_at s f = derive_struct f.
  Proof.
    intros Hi Hc. apply accepts_clear in Hc. change (struct_locals ++ field_vars f) with (struct_bound f) in Hc.
    unfold derive_struct_at, derive_struct, self_size. rewrite Hi, Hc.
    destruct (struct_size f), (struct_ord f), (struct_block f); try reflexivity.
    rewrite Bool.andb_true_r. reflexivity.
  Qed.

  Lemma struct_at_rejected s f : ~ clear_of s (struct_locals ++ field_vars f) ->
    derive_struct_at s f = rejected _.
  Proof.
    intros Hc. unfold derive_struct_at.
    replace (site_accepts s (struct_bound f)) with false.
    - destruct (struct_size f), (struct_ord f), (struct_block f); try reflexivity.
      rewrite Bool.andb_false_r. reflexivity.
    - symmetry. apply Bool.not_true_iff_false. rewrite accepts_clear. exact Hc.
  Qed.

  Lemma enum_at_same s names vs : s_inherent s = None -> clear_of s (enum_locals vs ++ all_field_vars vs) ->
    ~ In "ORDINAL_SIZE"%string names ->
    derive_enum_at s names vs = derive_enum vs.
  Proof.
    intros Hi Hc Hv. rewrite <- (clear_ext s (enum_bound_In vs)) in Hc. apply accepts_clear in Hc. apply mem_not in Hv.
    unfold derive_enum_at, derive_enum, self_size. rewrite Hi, Hc, Hv.
    destruct (enum_size vs), (enum_arms vs 0 vs), (enum_branches vs 0 vs); try reflexivity.
    rewrite !Bool.andb_true_r. reflexivity.
  Qed.

  Lemma enum_at_rejected s names vs :
    ~ clear_of s (enum_locals vs ++ all_field_vars vs) \/ In "ORDINAL_SIZE"%string names ->
    derive_enum_at s names vs = rejected _.
  Proof.
    intros H. unfold derive_enum_at.
    assert (E : forall b, (b && site_accepts s (enum_bound vs) && negb (mem "ORDINAL_SIZE" names))%bool = false).
    { intros b. apply Bool.not_true_iff_false. rewrite !Bool.andb_true_iff, accepts_clear, mem_not.
      rewrite (clear_ext s (enum_bound_In vs)). tauto. }
    destruct (enum_size vs), (enum_arms vs 0 vs), (enum_branches vs 0 vs); try reflexivity.
    rewrite E. reflexivity.
  Qed.

  (** *** An inherent constant *)
  Lemma run_fields_zero vars fs ns ov m (p : partial_tuple fs) :
    fields_lawful fs ns -> List.length vars = List.length fs -> In 0 ns ->
    run_stmts fs ov (List.concat (rev (field_form vars 0 fs))) m p = Panic PDivZero.
  Proof.
    intros H. revert vars p. induction H as [|f n fs ns H HF IH]; intros vars p Hl Hz; [contradiction|].
    destruct vars as [|x vars]; [discriminate Hl|]. injection Hl as Hl.
    cbn [field_form rev]. rewrite concat_app, field_form_shift.
    rewrite <- map_rev, <- concat_map, run_stmts_app, run_stmts_shift.
    destruct (in_dec N.eq_dec 0 ns) as [Ht|Ht].
    - rewrite (IH vars (snd p) Hl Ht). reflexivity.
    - destruct Hz as [->|Hz]; [|contradiction].
      assert (Hpos : Forall (fun n => 0 < n) ns).
      { apply Forall_forall. intros y Hy. destruct (N.eq_dec y 0) as [->|E]; [contradiction|lia]. }
      destruct (@run_fields _ vars fs ns ov m (snd p) HF Hl Hpos) as (p' & t & ds & R1 & _).
      rewrite R1. cbn [bind List.concat app run_stmts eval]. rewrite (bij_size H). reflexivity.
  Qed.

  Lemma product_zero ns : product_of ns = 0 -> In 0 ns.
  Proof.
    induction ns as [|n ns IH]; [discriminate|]. rewrite product_of_cons. intros H.
    apply N.eq_mul_0 in H. destruct H as [->|H]; [left; reflexivity|right; apply IH, H].
  Qed.

  Lemma struct_at_behaves s f ns n :
    fields_lawful (field_types f) ns -> ORDINAL_SIZE (derive_struct f) = Val n ->
    clear_of s (struct_locals ++ field_vars f) ->
    ORDINAL_SIZE (derive_struct_at s f) = Val n /\
    (forall t, ordinal (derive_struct_at s f) t = ordinal (derive_struct f) t) /\
    forall i, from_ordinal (derive_struct_at s f) i =
      match s_inherent s with
      | None => from_ordinal (derive_struct f) i
      | Some m => if m =? 0 then Val None else if n =? 0 then Panic PDivZero else from_ordinal (derive_struct f) i
      end.
  Proof.
    intros Hl Hn Hc. destruct (s_inherent s) as [m|] eqn:Hi.
    2: { rewrite (struct_at_same Hi Hc). auto. }
    apply accepts_clear in Hc. change (struct_locals ++ field_vars f) with (struct_bound f) in Hc.
    pose proof (field_vars_length f) as Hlen.
    destruct (pieces_exist _ _ Hlen) as (size & ord & block & P). destruct P as [P1 (so & P2 & P3) P4 P5].
    unfold derive_struct_at, derive_struct, struct_size, struct_ord, struct_block, self_size in *.
    rewrite struct_ordinal_size_form, P2 in *. cbn [bind] in *. rewrite P1, P3, P4 in *. rewrite Hi, Hc.
    destruct (resolves block (field_vars f)); [|discriminate Hn]. cbn [andb].
    cbn [ORDINAL_SIZE product_impl] in Hn. cbn [ORDINAL_SIZE ordinal from_ordinal product_impl]. rewrite Hn.
    split; [reflexivity|]. split; [reflexivity|]. intros i. cbn [bind].
    destruct (N.eqb_spec m 0); [reflexivity|]. destruct (N.eqb_spec n 0) as [->|E]; [|reflexivity].
    destruct (run_size_inv (lawful_sizes Hl) P1 Hn) as (E & _).
    unfold struct_from_ordinal in P4. rewrite field_stmts_form in P4. cbn [bind] in P4.
    assert (P6 : forall a b : list stmt, Val a = Val b -> b = a) by (intros a b K; congruence).
    apply P6 in P4. subst block. unfold run_block. cbn [run_stmts eval bind].
    rewrite run_stmts_app, (run_fields_zero i i (no_fields (field_types f)) Hl P5 (product_zero (eq_sym E))). reflexivity.
  Qed.

  Lemma struct_at_exact s f ns n :
    fields_lawful (field_types f) ns -> ORDINAL_SIZE (derive_struct f) = Val n ->
    lawful (derive_struct_at s f) n <->
    clear_of s (struct_locals ++ field_vars f) /\ forall m, s_inherent s = Some m -> (m = 0 <-> n = 0).
  Proof.
    intros Hl Hn. destruct (derive_struct_lawful _ Hl Hn) as [_ Law]. split.
    - intros [B R].
      assert (Hc : clear_of s (struct_locals ++ field_vars f)).
      { destruct (site_accepts s (struct_locals ++ field_vars f)) eqn:E; [apply accepts_clear, E|].
        exfalso. apply Bool.not_true_iff_false in E. rewrite accepts_clear in E.
        rewrite (struct_at_rejected E) in B. destruct B as [B _ _ _]. discriminate B. }
      split; [exact Hc|]. intros m Hm. destruct (struct_at_behaves Hl Hn Hc) as (_ & _ & F). rewrite Hm in F.
      destruct (N.eq_dec n 0) as [->|Hn0].
      + split; [auto|]. intros _. specialize (R 0 (N.le_refl 0) (N.le_0_l _)). rewrite F in R.
        destruct (N.eqb_spec m 0) as [E|E]; [exact E|discriminate R].
      + split; [|contradiction]. intros ->. destruct B as [_ _ _ B].
        destruct (B 0 ltac:(lia)) as (v & B1 & _). rewrite F in B1. discriminate B1.
    - intros [Hc Hm]. destruct (struct_at_behaves Hl Hn Hc) as (S & O & F).
      destruct Law as [[L1 L2 L3 L4] L5].
      assert (G : forall i, from_ordinal (derive_struct_at s f) i = from_ordinal (derive_struct f) i \/
        (n = 0 /\ from_ordinal (derive_struct_at s f) i = Val None)).
      { intros i. rewrite F. destruct (s_inherent s) as [m|]; [|auto]. specialize (Hm m eq_refl).
        destruct (N.eqb_spec m 0) as [E|E]; [right; split; [apply Hm, E|reflexivity]|].
        destruct (N.eqb_spec n 0) as [E'|E']; [exfalso; apply E, Hm, E'|auto]. }
      split; [split|].
      + exact S.
      + exact L2.
      + intros t. destruct (L3 t) as (i & I1 & I2 & I3). exists i. rewrite O. split; [exact I1|]. split; [exact I2|].
        destruct (G i) as [->|[E _]]; [exact I3|lia].
      + intros i Hi. destruct (G i) as [->|[E _]]; [|lia]. destruct (L4 i Hi) as (v & V1 & V2).
        exists v. rewrite O. auto.
      + intros i H1 H2. destruct (G i) as [->|[_ E]]; [apply L5; assumption|exact E].
  Qed.

  Lemma enum_at_behaves s names vs nss n :
    variants_lawful (variant_types vs) nss -> ORDINAL_SIZE (derive_enum vs) = Val n ->
    clear_of s (enum_locals vs ++ all_field_vars vs) -> ~ In "ORDINAL_SIZE"%string names ->
    ORDINAL_SIZE (derive_enum_at s names vs) = Val n /\
    (forall t, ordinal (derive_enum_at s names vs) t = ordinal (derive_enum vs) t) /\
    forall i, i <= usize_max -> from_ordinal (derive_enum_at s names vs) i =
      match s_inherent s with
      | Some 0 => Val None
      | _ => from_ordinal (derive_enum vs) i
      end.
  Proof.
    intros Hl Hn Hc Hv. destruct (s_inherent s) as [m|] eqn:Hi.
    2: { rewrite (enum_at_same Hi Hc Hv). auto. }
    pose proof Hn as Hn0. pose proof (derive_enum_lawful _ Hl Hn) as [_ Law].
    destruct (derive_enum_inv _ Hn) as (s0 & size & arms & bs & H1 & H2 & H3 & H4 & H5 & E).
    destruct (enum_total_inv (lawful_vsizes _ Hl) H1 H2 H3) as [En Fit].
    rewrite <- (clear_ext s (enum_bound_In vs)) in Hc. apply accepts_clear in Hc. apply mem_not in Hv.
    assert (A : derive_enum_at s names vs = {|
        ORDINAL_SIZE := run_size size;
        ordinal := fun self => run_arms (variant_types vs) arms self;
        from_ordinal := fun o => if m =? 0 then Val None else run_branches (variant_types vs) bs o |}).
    { unfold derive_enum_at, derive_enum, enum_size, self_size in *. rewrite first_variants_form, firstn_all in *.
      rewrite H1 in *. cbn [bind] in *. rewrite H2, H4, H5 in *. rewrite Hi, Hc, Hv.
      destruct (branches_resolve vs bs); [reflexivity|discriminate Hn]. }
    rewrite A, E. cbn [ORDINAL_SIZE ordinal from_ordinal]. rewrite H3. split; [reflexivity|]. split; [reflexivity|].
    intros i Hi'. cbn [bind]. destruct m as [|m]; [reflexivity|]. cbn [N.eqb].
    destruct (N.eqb_spec n 0) as [->|En0]; [|reflexivity].
    pose proof (@enum_branches_run _ vs [] [] nss bs i Hl (Forall2_nil _) Fit H5) as R.
    cbn [app map sum_of fold_right] in R. specialize (R ltac:(lia)). fold (sum_of (map product_of nss)) in R.
    rewrite <- En in R. destruct (N.ltb_spec i 0); [lia|]. exact R.
  Qed.

  Lemma enum_at_exact s names vs nss n :
    variants_lawful (variant_types vs) nss -> ORDINAL_SIZE (derive_enum vs) = Val n ->
    lawful (derive_enum_at s names vs) n <->
    clear_of s (enum_locals vs ++ all_field_vars vs) /\ ~ In "ORDINAL_SIZE"%string names /\
    (s_inherent s = Some 0 -> n = 0).
  Proof.
    intros Hl Hn. destruct (derive_enum_lawful _ Hl Hn) as [_ Law]. split.
    - intros [B R].
      assert (Hc : clear_of s (enum_locals vs ++ all_field_vars vs) /\ ~ In "ORDINAL_SIZE"%string names).
      { destruct (site_accepts s (enum_locals vs ++ all_field_vars vs)) eqn:E.
        - apply accepts_clear in E. split; [exact E|]. intros G.
          rewrite (@enum_at_rejected s names vs (or_intror G)) in B. destruct B as [B _ _ _]. discriminate B.
        - exfalso. apply Bool.not_true_iff_false in E. rewrite accepts_clear in E.
          rewrite (@enum_at_rejected s names vs (or_introl E)) in B. destruct B as [B _ _ _]. discriminate B. }
      destruct Hc as [Hc Hv]. split; [exact Hc|]. split; [exact Hv|]. intros Hm.
      destruct (enum_at_behaves Hl Hn Hc Hv) as (_ & _ & F). rewrite Hm in F.
      destruct (N.eq_dec n 0) as [->|Hn0]; [reflexivity|]. exfalso. destruct B as [_ _ _ B].
      destruct (B 0 ltac:(lia)) as (v & B1 & _). rewrite F in B1 by lia. discriminate B1.
    - intros (Hc & Hv & Hm). destruct (enum_at_behaves Hl Hn Hc Hv) as (S & O & F).
      destruct Law as [[L1 L2 L3 L4] L5].
      assert (G : forall i, i <= usize_max -> from_ordinal (derive_enum_at s names vs) i = from_ordinal (derive_enum vs) i \/
        (n = 0 /\ from_ordinal (derive_enum_at s names vs) i = Val None)).
      { intros i Hi. rewrite F by exact Hi. destruct (s_inherent s) as [[|m]|]; auto. }
      split; [split|].
      + exact S.
      + exact L2.
      + intros t. destruct (L3 t) as (i & I1 & I2 & I3). exists i. rewrite O. split; [exact I1|]. split; [exact I2|].
        destruct (G i ltac:(lia)) as [->|[E _]]; [exact I3|lia].
      + intros i Hi. destruct (G i ltac:(lia)) as [->|[E _]]; [|lia]. destruct (L4 i Hi) as (v & V1 & V2).
        exists v. rewrite O. auto.
      + intros i H1 H2. destruct (G i H2) as [->|[_ E]]; [apply L5; assumption|exact E].
  Qed.
End Site.

Section Final.
  Context {cfg : Config}.

  Lemma empty_clear l : clear_of empty_site l.
  Proof. split; intros x []. Qed.

  Lemma variant_names_exact (names : list string) (vs : list variant) nss n :
    variants_lawful (variant_types vs) nss -> ORDINAL_SIZE (derive_enum vs) = Val n ->
    (lawful (derive_enum_at empty_site names vs) n <-> ~ In "ORDINAL_SIZE"%string names) /\
    (~ In "ORDINAL_SIZE"%string names -> derive_enum_at empty_site names vs = derive_enum vs).
  Proof.
    intros Hl Hn. split.
    - rewrite (enum_at_exact empty_site names Hl Hn). split.
      + intros (_ & H & _). exact H.
      + intros H. split; [apply empty_clear|]. split; [exact H|discriminate].
    - intros H. apply enum_at_same; [reflexivity|apply empty_clear|exact H].
  Qed.

  Lemma struct_clash s f : ~ clear_of s (struct_locals ++ field_vars f) ->
    ORDINAL_SIZE (derive_struct_at s f) = NoCompile /\ (forall t, ordinal (derive_struct_at s f) t = NoCompile) /\
    forall i, from_ordinal (derive_struct_at s f) i = NoCompile.
  Proof. intros H. rewrite (struct_at_rejected H). repeat split. Qed.

  Lemma enum_clash s names vs :
    ~ clear_of s (enum_locals vs ++ all_field_vars vs) \/ In "ORDINAL_SIZE"%string names ->
    ORDINAL_SIZE (derive_enum_at s names vs) = NoCompile /\ (forall t, ordinal (derive_enum_at s names vs) t = NoCompile) /\
    forall i, from_ordinal (derive_enum_at s names vs) i = NoCompile.
  Proof. intros H. rewrite (enum_at_rejected H). repeat split. Qed.

  (** The declarations of the refutations: [ty] is bool. *)
  Lemma variant_names_bad_at (ty : ftype) : lawful (ft_ord ty) 2 ->
    let vs := [{| v_discriminant := None; v_fields := FUnit |};
               {| v_discriminant := None; v_fields := FNamed [("flag"%string, ty)] |}] in
    exists names, NoDup names /\ List.length names = List.length vs /\
      lawful (derive_enum_at empty_site ["Low"; "High"]%string vs) 3 /\
      ORDINAL_SIZE (derive_enum_at empty_site names vs) = NoCompile.
  Proof.
    intros [Hb _] vs. exists ["ORDINAL_SIZE"; "High"]%string.
    split; [repeat constructor; cbn; intuition discriminate|]. split; [reflexivity|].
    assert (Hl : variants_lawful (variant_types vs) [[]; [2]]).
    { constructor; [constructor|constructor; [constructor; [exact Hb|constructor]|constructor]]. }
    assert (Hs : ORDINAL_SIZE (derive_enum vs) = Val 3).
    { rewrite (@enum_compiles _ vs [[]; [2]]); [reflexivity| |exact Hl| |].
      - repeat constructor; cbn; try tauto; intros x Hx; cbn in Hx; intuition (subst; discriminate).
      - repeat constructor; lia.
      - pose proof (@usize_max_ge cfg). cbn. lia. }
    split.
    - apply (proj1 (variant_names_exact _ Hl Hs)). cbn. intuition discriminate.
    - apply enum_clash. right. left. reflexivity.
  Qed.

  Lemma inherent_bad_at (ty : ftype) : lawful (ft_ord ty) 2 -> forall t, ordinal (ft_ord ty) t = Val 1 ->
    exists (s : site), s_values s = [] /\ s_modules s = [] /\
      lawful (derive_struct_at empty_site (FNamed [("flag"%string, ty)])) 2 /\
      ORDINAL_SIZE (derive_struct_at s (FNamed [("flag"%string, ty)])) = Val 2 /\
      ordinal (derive_struct_at s (FNamed [("flag"%string, ty)])) (t, tt) = Val 1 /\
      from_ordinal (derive_struct_at s (FNamed [("flag"%string, ty)])) 1 = Val None.
  Proof.
    intros [Hb _] t Ht. set (f := FNamed [("flag"%string, ty)]).
    exists {| s_values := []; s_modules := []; s_inherent := Some 0 |}. split; [reflexivity|]. split; [reflexivity|].
    assert (Hl : fields_lawful (field_types f) [2]) by (constructor; [exact Hb|constructor]).
    assert (Hs : ORDINAL_SIZE (derive_struct f) = Val 2).
    { rewrite (@struct_compiles _ f [2]); [reflexivity| |exact Hl| |].
      - repeat constructor; cbn; try tauto; intros x Hx; cbn in Hx; intuition (subst; discriminate).
      - repeat constructor; lia.
      - pose proof (@usize_max_ge cfg). cbn. lia. }
    split; [apply (struct_at_exact _ Hl Hs); split; [apply empty_clear|discriminate]|].
    assert (Hc : clear_of {| s_values := []; s_modules := []; s_inherent := Some 0 |} (struct_locals ++ field_vars f)).
    { split; intros x []. }
    destruct (struct_at_behaves Hl Hs Hc) as (S & O & F). split; [exact S|]. split; [|exact (F 1)].
    rewrite O, (@derive_struct_number _ f [2] 2 (t, tt) [1] Hl Hs); [reflexivity|].
    cbn. exists 1, []. auto.
  Qed.

  Definition ty_bool : ftype := {| ft_T := bool; ft_ord := Ordinal_bool; ft_lt := Bool.lt |}.

  Lemma variant_names_bad :
    let vs := [{| v_discriminant := None; v_fields := FUnit |};
               {| v_discriminant := None; v_fields := FNamed [("flag"%string, ty_bool)] |}] in
    exists names, NoDup names /\ List.length names = List.length vs /\
      lawful (derive_enum_at empty_site ["Low"; "High"]%string vs) 3 /\
      ORDINAL_SIZE (derive_enum_at empty_site names vs) = NoCompile.
  Proof. apply variant_names_bad_at, bool_lawful. Qed.

  Lemma inherent_bad : let f := FNamed [("flag"%string, ty_bool)] in
    exists s : site, s_values s = [] /\ s_modules s = [] /\
      lawful (derive_struct_at empty_site f) 2 /\
      ORDINAL_SIZE (derive_struct_at s f) = Val 2 /\
      ordinal (derive_struct_at s f) (true, tt) = Val 1 /\
      from_ordinal (derive_struct_at s f) 1 = Val None.
  Proof. apply (@inherent_bad_at ty_bool (@bool_lawful cfg) true eq_refl). Qed.

  Lemma scope_bad : let f := FNamed [("flag"%string, ty_bool)] in
    exists s : site, s_modules s = [] /\ s_inherent s = None /\ s_values s = ["None"%string] /\
      lawful (derive_struct_at empty_site f) 2 /\
      ORDINAL_SIZE (derive_struct_at s f) = NoCompile.
  Proof.
    intros f. exists {| s_values := ["None"%string]; s_modules := []; s_inherent := None |}.
    do 3 (split; [reflexivity|]). split.
    - destruct (@inherent_bad_at ty_bool (@bool_lawful cfg) true eq_refl) as (s & _ & _ & H & _). exact H.
    - apply struct_clash. intros [H _]. destruct (H _ (or_introl eq_refl)) as [H1 H2]. apply H1. reflexivity.
  Qed.
End Final.

(** ** The check against overflow and an inherent constant *)

(** Five u16: more values than usize has. *)
Definition ty_u16 {cfg : Config} : ftype := {| ft_T := u16; ft_ord := Ordinal_u16; ft_lt := fun _ _ => False |}.
Definition five {cfg : Config} : fields := FUnnamed [ty_u16; ty_u16; ty_u16; ty_u16; ty_u16].
Definition five_variant {cfg : Config} : list variant := [{| v_discriminant := None; v_fields := five |}].
Definition first_of {cfg : Config} (x y : u16) : tuple (field_types five) := (x, (y, (y, (y, (y, tt))))).
Definition five_site : site := {| s_values := []; s_modules := []; s_inherent := Some 1 |}.
Definition zero_u16 : u16 := @mk_int 0 65535 0 eq_refl.
Definition one_u16 : u16 := @mk_int 0 65535 1 eq_refl.

Lemma five_size (cfg : Config) : match struct_size five with Val size => run_size size | _ => NoCompile end = NoCompile.
Proof. destruct cfg as [[] [] []]; vm_compute; reflexivity. Qed.
Lemma five_enum_size (cfg : Config) : match enum_size five_variant with Val size => run_size size | _ => NoCompile end = NoCompile.
Proof. destruct cfg as [[] [] []]; vm_compute; reflexivity. Qed.

Lemma five_no (cfg : Config) t : ordinal (derive_struct_at empty_site five) t = NoCompile.
Proof.
  pose proof (five_size cfg) as E. unfold derive_struct_at.
  destruct (struct_size five) as [size| | | |]; try reflexivity.
  destruct (struct_ord five) as [ord| | | |]; try reflexivity.
  destruct (struct_block five) as [bl| | | |]; try reflexivity.
  destruct (resolves bl (field_vars five) && site_accepts empty_site (struct_bound five))%bool; [|reflexivity].
  cbn [ordinal]. unfold self_size. cbn [s_inherent empty_site]. rewrite E. reflexivity.
Qed.
Lemma five_enum_no (cfg : Config) names t : ordinal (derive_enum_at empty_site names five_variant) t = NoCompile.
Proof.
  pose proof (five_enum_size cfg) as E. unfold derive_enum_at.
  destruct (enum_size five_variant) as [size| | | |]; try reflexivity.
  destruct (enum_arms five_variant 0 five_variant) as [ord| | | |]; try reflexivity.
  destruct (enum_branches five_variant 0 five_variant) as [bl| | | |]; try reflexivity.
  destruct (branches_resolve five_variant bl && site_accepts empty_site (enum_bound five_variant) && negb (mem "ORDINAL_SIZE" names))%bool; [|reflexivity].
  cbn [ordinal]. unfold self_size. cbn [s_inherent empty_site]. rewrite E. reflexivity.
Qed.

Lemma five_yes (cfg : Config) : ordinal (derive_struct_at five_site five) (first_of zero_u16 zero_u16) = Val 0.
Proof. destruct cfg as [[] [] []]; vm_compute; reflexivity. Qed.
Lemma five_wraps (cfg : Config) : ordinal (derive_struct_at five_site five) (first_of one_u16 zero_u16) =
  if overflow_checks then Panic POverflow else Val 0.
Proof. destruct cfg as [[] [] []]; vm_compute; reflexivity. Qed.
Lemma five_enum_yes (cfg : Config) : ordinal (derive_enum_at five_site ["A"%string] five_variant) (inl (first_of zero_u16 zero_u16)) = Val 0.
Proof. destruct cfg as [[] [] []]; vm_compute; reflexivity. Qed.
Lemma five_enum_wraps (cfg : Config) : ordinal (derive_enum_at five_site ["A"%string] five_variant) (inl (first_of one_u16 zero_u16)) =
  if overflow_checks then Panic POverflow else Val 0.
Proof. destruct cfg as [[] [] []]; vm_compute; reflexivity. Qed.

Lemma check_bypassed (cfg : Config) : exists (s : site) (f : fields) (t u : tuple (field_types f)),
  s_values s = [] /\ s_modules s = [] /\ s_inherent s = Some 1 /\ t <> u /\
  (forall v, ordinal (derive_struct_at empty_site f) v = NoCompile) /\
  ORDINAL_SIZE (derive_struct_at s f) = NoCompile /\
  ordinal (derive_struct_at s f) t = Val 0 /\
  ordinal (derive_struct_at s f) u = if overflow_checks then Panic POverflow else Val 0.
Proof.
  exists five_site, five, (first_of zero_u16 zero_u16), (first_of one_u16 zero_u16).
  do 3 (split; [reflexivity|]). split; [discriminate|]. split; [exact (@five_no cfg)|]. split; [|split; [apply five_yes|apply five_wraps]].
  destruct cfg as [[] [] []]; vm_compute; reflexivity.
Qed.

Lemma enum_check_bypassed (cfg : Config) : exists (s : site) (vs : list variant) (t u : enum_val (variant_types vs)),
  s_values s = [] /\ s_modules s = [] /\ s_inherent s = Some 1 /\ t <> u /\
  (forall v, ordinal (derive_enum_at empty_site ["A"%string] vs) v = NoCompile) /\
  ORDINAL_SIZE (derive_enum_at s ["A"%string] vs) = NoCompile /\
  ordinal (derive_enum_at s ["A"%string] vs) t = Val 0 /\
  ordinal (derive_enum_at s ["A"%string] vs) u = if overflow_checks then Panic POverflow else Val 0.
Proof.
  exists five_site, five_variant, (inl (first_of zero_u16 zero_u16)), (inl (first_of one_u16 zero_u16)).
  do 3 (split; [reflexivity|]). split; [discriminate|]. split; [exact (@five_enum_no cfg _)|].
  split; [|split; [apply five_enum_yes|apply five_enum_wraps]].
  destruct cfg as [[] [] []]; vm_compute; reflexivity.
Qed.
