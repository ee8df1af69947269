(** * TargetProofs2: the same value has the same ordinal on every target, by induction on the type. *)
From Coq Require Import String List.
From Verif Require Import Base Spec SpecDerive SpecUniverse ModelOrdinal ModelArrayBuilder
  ModelDerive ModelUniverse SpecTarget BaseProofs OrdinalProofs ArrayProofs DeriveProofs DeriveProofs2
  DeriveProofs3 OrdinalProofs2 UniverseProofs UniverseProofs2 UniverseProofs3 UniverseProofs4
  UniverseProofs5 UniverseProofs6 TargetProofs.
Import ListNotations.
Set Implicit Arguments.
Unset Strict Implicit.

Definition same_here (c d : Config) (t : ty) : Prop :=
  @usize_width c = @usize_width d \/ portable t.

(** Every value of [t] in [c] can be written in [d]. *)
Definition reaches (c d : Config) (t : ty) : Prop := not_wider c d \/ portable t.

(** ** The types with an impl of their own *)
Lemma nonzero_embed {lo hi lo' hi'} (v : nonzero lo hi) : (lo' <= lo)%Z -> (hi <= hi')%Z ->
  exists w : nonzero lo' hi', same_nonzero v w.
Proof.
  intros H1 H2. destruct v as [[z Hz] H0].
  assert (Hz' : ((lo' <=? z) && (z <=? hi') = true)%Z).
  { destruct (andb_prop _ _ Hz) as [A B]. apply Z.leb_le in A, B.
    apply andb_true_intro. split; apply Z.leb_le; lia. }
  exists (mk_nonzero (mk_int lo' hi' z Hz') H0). reflexivity.
Qed.

Lemma one_number (c d : Config) {T} (O P : Ordinal T) lt n m v :
  @ordinal_bijection c T O n -> @ordinal_bijection d T P m ->
  ordinal_monotone O lt -> ordinal_monotone P lt ->
  exists i, ordinal O v = Val i /\ ordinal P v = Val i.
Proof.
  intros HO HP MO MP. destruct (bij_to HO v) as (i & Hi & _). exists i. split; [exact Hi|].
  rewrite <- (unique_number HO HP MO MP). exact Hi.
Qed.

Section Prim.
  Context (c d : Config).

  Lemma prim_num p : same_here c d (TPrim p) ->
    (exists n, ORDINAL_SIZE (ft_ord (@denote_prim c p)) = Val n) ->
    (exists n, ORDINAL_SIZE (ft_ord (@denote_prim d p)) = Val n) ->
    forall v w, same_prim c d p v w ->
    exists i, ordinal (ft_ord (@denote_prim c p)) v = Val i /\ ordinal (ft_ord (@denote_prim d p)) w = Val i.
  Proof.
    intros G [n Hn] [m Hm] v w S.
    destruct (@prim_law c p) as [(B1 & _ & M1)|(_ & E & _)]; [|congruence].
    destruct (@prim_law d p) as [(B2 & _ & M2)|(_ & E & _)]; [|congruence].
    destruct p; cbn in v, w, S;
      first
      [ (apply int_ext in S; subst w) | (apply nz_ext in S; subst w) | (apply char_ext in S; subst w)
      | (destruct G as [G|[]]; destruct c as [w1 o1 g1], d as [w2 o2 g2]; cbn in G; subst w2;
         apply nz_ext in S; subst w)
      | destruct S ];
      exact (one_number _ B1 B2 M1 M2).
  Qed.

  Lemma prim_partner p : reaches c d (TPrim p) -> forall v, exists w, same_prim c d p v w.
  Proof.
    intros G v. destruct p; cbn in v |- *; first [ (exists v; reflexivity) | idtac ].
    - destruct G as [G|[]]. apply nonzero_embed; [lia|]. unfold not_wider in G. lia.
    - destruct G as [G|[]]. unfold not_wider in G.
      apply nonzero_embed; destruct c as [[] ? ?], d as [[] ? ?]; vm_compute in G |- *; congruence.
    - destruct v.
  Qed.

  Lemma prim_one p v w w' : same_prim c d p v w -> same_prim c d p v w' -> w = w'.
  Proof.
    destruct p; cbn in v, w, w' |- *; intros S S'; try congruence;
      first [ (apply int_ext; unfold same_number in *; congruence)
            | (apply nz_ext; unfold same_nonzero, same_number in *; congruence)
            | (apply char_ext; congruence)
            | destruct v ].
  Qed.

  Lemma prim_sym p v w : same_prim c d p v w -> same_prim d c p w v.
  Proof.
    destruct p; cbn in v, w |- *; unfold same_nonzero, same_number; intros S; try (now symmetry). destruct v.
  Qed.

  Lemma prim_same_card p : same_here c d (TPrim p) -> @prim_card c p = @prim_card d p.
  Proof.
    intros G. destruct p; try reflexivity;
      (destruct G as [G|[]]; destruct c as [w1 o1 g1], d as [w2 o2 g2]; cbn in G; subst w2; reflexivity).
  Qed.
End Prim.

(** ** Parts *)
Section Parts.
  Context (c d : Config).

  Lemma here_result a b : same_here c d (TResult a b) -> same_here c d a /\ same_here c d b.
  Proof. intros [H|[H1 H2]]; unfold same_here; auto. Qed.
  Lemma here_either a b : same_here c d (TEither a b) -> same_here c d a /\ same_here c d b.
  Proof. intros [H|[H1 H2]]; unfold same_here; auto. Qed.

  Lemma here_all l : @usize_width c = @usize_width d \/ Forall portable l -> Forall (same_here c d) l.
  Proof.
    intros [H|H]; [apply Forall_forall; intros; left; exact H|]. eapply Forall_impl; [|exact H].
    intros t Ht. right. exact Ht.
  Qed.
  Lemma here_tuple ts : same_here c d (TTuple ts) -> Forall (same_here c d) ts.
  Proof. intros [H|H]; apply here_all; [left; exact H|right; apply all_map; exact H]. Qed.
  Lemma here_struct s : same_here c d (TStruct s) -> Forall (same_here c d) (decl_tys s).
  Proof. intros [H|H]; apply here_all; [left; exact H|right; apply all_decl; exact H]. Qed.
  Lemma here_enum vs : same_here c d (TEnum vs) ->
    Forall (fun v => Forall (same_here c d) (decl_tys (vd_fields v))) vs.
  Proof.
    intros [H|H]; [apply Forall_forall; intros v _; apply here_all; left; exact H|].
    cbn [portable] in H. apply all_map in H. eapply Forall_impl; [|exact H].
    intros [z s] Hs. apply here_all. right. apply all_decl. exact Hs.
  Qed.

  Lemma reaches_result a b : reaches c d (TResult a b) -> reaches c d a /\ reaches c d b.
  Proof. intros [H|[H1 H2]]; unfold reaches; auto. Qed.
  Lemma reaches_either a b : reaches c d (TEither a b) -> reaches c d a /\ reaches c d b.
  Proof. intros [H|[H1 H2]]; unfold reaches; auto. Qed.

  Lemma reaches_all l : not_wider c d \/ Forall portable l -> Forall (reaches c d) l.
  Proof.
    intros [H|H]; [apply Forall_forall; intros; left; exact H|]. eapply Forall_impl; [|exact H].
    intros t Ht. right. exact Ht.
  Qed.
  Lemma reaches_tuple ts : reaches c d (TTuple ts) -> Forall (reaches c d) ts.
  Proof. intros [H|H]; apply reaches_all; [left; exact H|right; apply all_map; exact H]. Qed.
  Lemma reaches_struct s : reaches c d (TStruct s) -> Forall (reaches c d) (decl_tys s).
  Proof. intros [H|H]; apply reaches_all; [left; exact H|right; apply all_decl; exact H]. Qed.
  Lemma reaches_enum vs : reaches c d (TEnum vs) ->
    Forall (fun v => Forall (reaches c d) (decl_tys (vd_fields v))) vs.
  Proof.
    intros [H|H]; [apply Forall_forall; intros v _; apply reaches_all; left; exact H|].
    cbn [portable] in H. apply all_map in H. eapply Forall_impl; [|exact H].
    intros [z s] Hs. apply reaches_all. right. apply all_decl. exact Hs.
  Qed.

  Lemma forall_apply {A} (P Q : A -> Prop) l : Forall (fun a => P a -> Q a) l -> Forall P l -> Forall Q l.
  Proof. rewrite !Forall_forall. auto. Qed.

  Lemma cards_map l : Forall (fun t => @card c t = @card d t) l -> map (@card c) l = map (@card d) l.
  Proof. induction 1 as [|t l H _ IH]; cbn; [reflexivity|]. rewrite H, IH. reflexivity. Qed.

  Lemma same_card t : same_here c d t -> @card c t = @card d t.
  Proof.
    induction t as [p|t IH|t IH|a b IHa IHb|a b IHa IHb|t len IH|ts IH|s IH|vs IH] using ty_ind'; intros G.
    - exact (prim_same_card G).
    - exact (IH G).
    - cbn. rewrite (IH G). reflexivity.
    - destruct (here_result G) as [Ga Gb]. cbn. rewrite (IHa Ga), (IHb Gb). reflexivity.
    - destruct (here_either G) as [Ga Gb]. cbn. rewrite (IHa Ga), (IHb Gb). reflexivity.
    - cbn. rewrite (IH G). reflexivity.
    - cbn. rewrite (cards_map (forall_apply IH (here_tuple G))). reflexivity.
    - cbn. rewrite !decl_list_map, (cards_map (forall_apply IH (here_struct G))). reflexivity.
    - cbn. f_equal. pose proof (here_enum G) as Gs. clear G.
      induction vs as [|[z s] vs IHvs]; [reflexivity|].
      inversion IH as [|? ? H1 H2]; inversion Gs as [|? ? G1 G2]; subst. cbn in H1, G1.
      cbn. rewrite !decl_list_map, (cards_map (forall_apply H1 G1)), (IHvs H2 G2). reflexivity.
  Qed.
End Parts.

(** ** Relating the values *)
Section Values.
  Context (c d : Config).

  Lemma same_total t : reaches c d t -> forall v, exists w, same c d t v w.
  Proof.
    induction t as [p|t IH|t IH|a b IHa IHb|a b IHa IHb|t len IH|ts IH|s IH|vs IH] using ty_ind'; intros G v.
    - exact (prim_partner G v).
    - destruct (IH G (unbox v)) as (w & Hw). exists (Box w). exact Hw.
    - destruct v as [v|]; [|exists None; exact I]. destruct (IH G v) as (w & Hw). exists (Some w). exact Hw.
    - destruct (reaches_result G) as [Ga Gb]. destruct v as [v|v].
      + destruct (IHa Ga v) as (w & Hw). exists (ResOk w). exact Hw.
      + destruct (IHb Gb v) as (w & Hw). exists (ResErr w). exact Hw.
    - destruct (reaches_either G) as [Ga Gb]. destruct v as [v|v].
      + destruct (IHa Ga v) as (w & Hw). exists (Left w). exact Hw.
      + destruct (IHb Gb v) as (w & Hw). exists (Right w). exact Hw.
    - assert (E : forall l, exists l', Forall2 (same c d t) l l').
      { induction l as [|x l [l' IHl]]; [eauto|]. destruct (IH G x) as (y & Hy). exists (y :: l'). constructor; assumption. }
      destruct (E (arr_list v)) as (l' & Hl). pose proof (Forall2_length Hl) as Hlen.
      destruct (@try_arr_ok _ len l') as (w & _ & Ew); [rewrite <- Hlen; apply arr_length|].
      exists w. change (Forall2 (same c d t) (arr_list v) (arr_list w)). rewrite Ew. exact Hl.
    - exact (same_fields_total (forall_apply IH (reaches_tuple G)) v).
    - exact (same_decl_total (forall_apply IH (reaches_struct G)) v).
    - refine (same_variant_total _ v). pose proof (reaches_enum G) as Gs. rewrite Forall_forall in *.
      intros x Hx. exact (forall_apply (IH x Hx) (Gs x Hx)).
  Qed.

  Lemma same_one t : forall v w w', same c d t v w -> same c d t v w' -> w = w'.
  Proof.
    induction t as [p|t IH|t IH|a b IHa IHb|a b IHa IHb|t len IH|ts IH|s IH|vs IH] using ty_ind'; intros v w w' S S'.
    - exact (prim_one S S').
    - destruct w as [w], w' as [w']. f_equal. exact (IH _ _ _ S S').
    - destruct v as [v|], w as [w|], w' as [w'|]; try destruct S; try destruct S'; [|reflexivity].
      f_equal. exact (IH _ _ _ S S').
    - destruct v as [v|v], w as [w|w], w' as [w'|w']; try (destruct S; fail); try (destruct S'; fail); f_equal.
      + exact (IHa _ _ _ S S').
      + exact (IHb _ _ _ S S').
    - destruct v as [v|v], w as [w|w], w' as [w'|w']; try (destruct S; fail); try (destruct S'; fail); f_equal.
      + exact (IHa _ _ _ S S').
      + exact (IHb _ _ _ S S').
    - apply arr_ext. change (Forall2 (same c d t) (arr_list v) (arr_list w)) in S.
      change (Forall2 (same c d t) (arr_list v) (arr_list w')) in S'.
      revert S'. generalize (arr_list w'). induction S as [|x y l l' H _ IHl]; intros k S'; inversion S'; subst; [reflexivity|].
      f_equal; [exact (IH _ _ _ H ltac:(eassumption))|]. apply IHl. assumption.
    - exact (same_fields_one IH S S').
    - exact (same_decl_one IH S S').
    - exact (same_variant_one IH S S').
  Qed.
End Values.

Lemma same_sym (c d : Config) t : forall v w, same c d t v w -> same d c t w v.
Proof.
  induction t as [p|t IH|t IH|a b IHa IHb|a b IHa IHb|t len IH|ts IH|s IH|vs IH] using ty_ind'; intros v w S.
  - exact (prim_sym S).
  - exact (IH _ _ S).
  - destruct v, w; try destruct S; [exact (IH _ _ S)|exact I].
  - destruct v, w; try (destruct S; fail); [exact (IHa _ _ S)|exact (IHb _ _ S)].
  - destruct v, w; try (destruct S; fail); [exact (IHa _ _ S)|exact (IHb _ _ S)].
  - change (Forall2 (same c d t) (arr_list v) (arr_list w)) in S.
    change (Forall2 (same d c t) (arr_list w) (arr_list v)).
    induction S as [|x y l l' H _ IHl]; constructor; [exact (IH _ _ H)|exact IHl].
  - exact (same_fields_sym IH S).
  - exact (same_decl_sym IH S).
  - exact (same_variant_sym IH S).
Qed.

(** ** The ordinals *)
Section Number.
  Context (c d : Config).

  Definition sized (e : Config) (t : ty) : Prop := exists n, ORDINAL_SIZE (@impl_of e t) = Val n.
  Definition num (t : ty) : Prop := forall v w, same c d t v w ->
    exists i, ordinal (@impl_of c t) v = Val i /\ ordinal (@impl_of d t) w = Val i.

  Lemma sized_option e t : sized e (TOption t) -> sized e t /\ @card e t + 1 <= @usize_max e.
  Proof.
    intros [n H]. change ((' a <- ORDINAL_SIZE (@impl_of e t);; @cadd e a 1) = Val n) in H.
    destruct (ORDINAL_SIZE (@impl_of e t)) as [a| | | |] eqn:E; try discriminate H. cbn [bind] in H.
    apply cadd_inv in H. split; [exists a; exact E|].
    rewrite <- (law_card (@universe_law e t) E). lia.
  Qed.

  Lemma sized_sum e a b : (exists n, (' x <- ORDINAL_SIZE (@impl_of e a);; ' y <- ORDINAL_SIZE (@impl_of e b);; @cadd e x y) = Val n) ->
    sized e a /\ sized e b /\ ORDINAL_SIZE (@impl_of e a) = Val (@card e a) /\
    @card e a + @card e b <= @usize_max e.
  Proof.
    intros [n H]. destruct (sum_size H) as (x & y & Hx & Hy & _ & F).
    rewrite <- (law_card (@universe_law e a) Hx), <- (law_card (@universe_law e b) Hy).
    split; [exists x; exact Hx|]. split; [exists y; exact Hy|]. split; assumption.
  Qed.

  Lemma sized_fields e ts n : ORDINAL_SIZE (@impl_of e (TTuple ts)) = Val n ->
    Forall (sized e) ts /\ @fields_lawful e (map (@denote e) ts) (map (@card e) ts) /\
    ORDINAL_SIZE (@impl_ordinal_for_tuple_n e (map (@denote e) ts)) = Val n /\
    @impl_of e (TTuple ts) = @impl_ordinal_for_tuple_n e (map (@denote e) ts).
  Proof.
    intros Hn. change (@impl_of e (TTuple ts)) with (@tuple_impl e (map (@denote e) ts)) in *.
    unfold tuple_impl in *. destruct (Nat.leb_spec (length (map (@denote e) ts)) 16) as [G|G]; [|discriminate Hn].
    pose proof (tuple_parts Hn) as C. split; [rewrite Forall_map in C; exact C|].
    split; [apply laws_fields; [apply Forall_forall; intros; apply universe_law|exact C]|]. auto.
  Qed.

  Lemma sized_decl e s n : ORDINAL_SIZE (@impl_of e (TStruct s)) = Val n ->
    Forall (sized e) (decl_tys s) /\
    @fields_lawful e (field_types (denote_decl (@denote e) s)) (map (@card e) (decl_tys s)).
  Proof.
    intros Hn. pose proof (struct_parts Hn) as C. rewrite field_types_denote in C.
    split; [rewrite Forall_map in C; exact C|]. rewrite field_types_denote.
    apply laws_fields; [apply Forall_forall; intros; apply universe_law|exact C].
  Qed.

  Lemma sized_variants e vs n : ORDINAL_SIZE (@impl_of e (TEnum vs)) = Val n ->
    Forall (fun v => Forall (sized e) (decl_tys (vd_fields v))) vs /\
    @variants_lawful e (variant_types (map (denote_variant (@denote e)) vs))
      (map (fun v => map (@card e) (decl_tys (vd_fields v))) vs).
  Proof.
    intros Hn. pose proof (enum_parts Hn) as C. rewrite variant_types_denote, Forall_map in C. split.
    - eapply Forall_impl; [|exact C]. intros v Hv. rewrite Forall_map in Hv. exact Hv.
    - rewrite variant_types_denote. apply F2_map. rewrite Forall_forall in *. intros v Hv.
      apply laws_fields; [apply Forall_forall; intros; apply universe_law|exact (C v Hv)].
  Qed.


End Number.

(** ** A type that compiles also compiles for wider pointers *)
Section Up.
  Context (c d : Config) (W : not_wider c d).

  Lemma fits_up t : same_here c d t -> @fits c t -> @fits d t.
  Proof.
    revert t. assert (P : forall l, @products_fit c l -> @products_fit d l).
    { intros l H k. specialize (H k). unfold not_wider in W. lia. }
    assert (C : forall t, same_here c d t -> @card c t <= @usize_max c -> @card d t <= @usize_max d).
    { intros t G H. rewrite <- (same_card G). unfold not_wider in W. lia. }
    assert (M : forall l, Forall (same_here c d) l -> map (@card c) l = map (@card d) l).
    { intros l H. apply cards_map. eapply Forall_impl; [|exact H]. intros x Hx. exact (same_card Hx). }
    assert (F : forall l, Forall (fun t => same_here c d t -> @fits c t -> @fits d t) l ->
      Forall (same_here c d) l -> Forall (@fits c) l -> Forall (@fits d) l).
    { intros l H1 H2 H3. exact (forall_apply (forall_apply H1 H2) H3). }
    intros t. induction t as [p|t IH|t IH|a b IHa IHb|a b IHa IHb|t len IH|ts IH|s IH|vs IH] using ty_ind';
      intros G [H1 H2];
      (split; [exact (C _ G H1)|]).
    - exact I.
    - exact (IH G H2).
    - exact (IH G H2).
    - destruct (here_result G) as [Ga Gb], H2 as [Ha Hb]. split; auto.
    - destruct (here_either G) as [Ga Gb], H2 as [Ha Hb]. split; auto.
    - exact (IH G H2).
    - destruct H2 as [H2 H3]. pose proof (here_tuple G) as Gs. rewrite all_map in *. split; [auto|].
      rewrite <- (M _ Gs). auto.
    - destruct H2 as [H2 H3]. pose proof (here_struct G) as Gs. rewrite all_decl, decl_list_map in *. split; [auto|].
      rewrite <- (M _ Gs). auto.
    - pose proof (here_enum G) as Gs. rewrite all_map in *. rewrite Forall_forall in *. intros [z s] Hx.
      specialize (H2 _ Hx). specialize (Gs _ Hx). specialize (IH _ Hx). cbn in H2, Gs, IH. destruct H2 as [H2 H3].
      rewrite all_decl, decl_list_map in *. split; [auto|]. rewrite <- (M _ Gs). auto.
  Qed.

  Lemma compiles_up t n : accepted t -> same_here c d t ->
    ORDINAL_SIZE (@impl_of c t) = Val n -> ORDINAL_SIZE (@impl_of d t) = Val n.
  Proof.
    intros A G Hn. pose proof (fits_up G (law_fits (@universe_law c t) Hn)) as F.
    rewrite (law_size (@universe_law d t) A F). f_equal. rewrite <- (same_card G).
    symmetry. exact (law_card (@universe_law c t) Hn).
  Qed.
End Up.

(** ** The rank of a value *)
Section Rank.
  Context {cfg : Config}.

  Lemma first_values {T} (O : Ordinal T) n j : ordinal_bijection O n -> N.of_nat j <= n ->
    exists l, NoDup l /\ length l = j /\ forall u, In u l <-> exists k, ordinal O u = Val k /\ k < N.of_nat j.
  Proof.
    intros B. induction j as [|j IH]; intros Hj.
    - exists []. split; [constructor|]. split; [reflexivity|]. intros u. split; [intros []|intros (k & _ & H); lia].
    - destruct IH as (l & N1 & L1 & I1); [lia|].
      assert (Hlt : N.of_nat j < n) by lia. destruct (bij_from B Hlt) as (t & _ & Et).
      exists (t :: l). split; [constructor; [|exact N1]|].
      { intros Hin. apply I1 in Hin. destruct Hin as (k & Ek & Hk). assert (k = N.of_nat j) by congruence. lia. }
      split; [cbn; lia|]. intros u. split.
      + intros [<-|Hin]; [exists (N.of_nat j); split; [exact Et|lia]|]. apply I1 in Hin.
        destruct Hin as (k & Ek & Hk). exists k. split; [exact Ek|lia].
      + intros (k & Ek & Hk). destruct (N.eq_dec k (N.of_nat j)) as [->|Hne].
        * left. exact (bij_inj _ _ B Et Ek).
        * right. apply I1. exists k. split; [exact Ek|lia].
  Qed.

  Lemma rank_of t n v : no_discriminants t -> ORDINAL_SIZE (impl_of t) = Val n ->
    exists l, NoDup l /\ (forall u, In u l <-> lt_of t u v) /\ ordinal (impl_of t) v = Val (N.of_nat (length l)).
  Proof.
    intros D Hn. pose proof (law_bij (universe_law t) Hn) as B. pose proof (law_mono (universe_law t) Hn D) as M.
    destruct (bij_to B v) as (i & Ei & Li & _).
    destruct (@first_values _ (impl_of t) n (N.to_nat i) B) as (l & L1 & L2 & L3); [lia|].
    exists l. split; [exact L1|]. split.
    - intros u. rewrite L3, N2Nat.id. destruct (bij_to B u) as (k & Ek & _). rewrite (M _ _ _ _ Ek Ei). split.
      + intros (k' & E & H). congruence.
      + intros H. exists k. auto.
    - rewrite L2, N2Nat.id. exact Ei.
  Qed.
End Rank.

Lemma only_numbering (c d : Config) t n (P : Ordinal (@type_of c t)) m : no_discriminants t ->
  ORDINAL_SIZE (@impl_of c t) = Val n ->
  @ordinal_bijection d _ P m -> ordinal_monotone P (@lt_of c t) ->
  m = n /\ (forall v, ordinal P v = ordinal (@impl_of c t) v) /\
  (forall i, i < n -> from_ordinal P i = from_ordinal (@impl_of c t) i).
Proof.
  intros D Hn B M. pose proof (law_bij (@universe_law c t) Hn) as B0.
  pose proof (law_mono (@universe_law c t) Hn D) as M0.
  split; [symmetry; exact (unique_size B0 B M0 M)|]. split.
  - intros v. symmetry. exact (unique_number B0 B M0 M v).
  - intros i Hi. symmetry. exact (unique_decode B0 B M0 M Hi).
Qed.
