(** * MonoProofs: which types have an [ordinal] and a [from_ordinal] to call. *)
From Verif Require Import Base Spec SpecDerive SpecUniverse ModelOrdinal ModelArrayBuilder
  ModelDerive ModelUniverse BaseProofs OrdinalProofs ArrayProofs DeriveProofs DeriveProofs2
  DeriveProofs3 OrdinalProofs2 UniverseProofs UniverseProofs2 UniverseProofs3 UniverseProofs4
  UniverseProofs5 UniverseProofs6 UniverseProofs7 SpecMem FoldProofs ModelMono SpecMono.
From Coq Require Import List Lia.
Import ListNotations.
Set Implicit Arguments.
Unset Strict Implicit.

Section Mono.
  Context {cfg : Config}.

  Definition sized (t : ty) : Prop := exists n, ORDINAL_SIZE (impl_of t) = Val n.

  Definition settled (r : res unit) : Prop := r = Val tt \/ r = NoCompile.

  Lemma settled_seq r s : settled r -> settled s -> settled (r ;;; s).
  Proof. intros [->| ->] H; cbn; [exact H|right; reflexivity]. Qed.

  Lemma seq_val r s : (r ;;; s) = Val tt <-> r = Val tt /\ s = Val tt.
  Proof.
    destruct r as [[]| | | |]; cbn; split; intros H; try discriminate H; try tauto;
      destruct H as [H _]; discriminate H.
  Qed.

  Lemma mentions_val t : mentions_size t = Val tt <-> sized t.
  Proof.
    unfold mentions_size, sized. destruct (ORDINAL_SIZE (impl_of t)) as [n| | | |] eqn:E; cbn;
      split; intros H; eauto; try discriminate H; destruct H as [k H]; discriminate H.
  Qed.

  Lemma mentions_settled t : settled (mentions_size t).
  Proof.
    unfold mentions_size. destruct (size_dichotomy t) as [[n ->]| ->]; [left|right]; reflexivity.
  Qed.

  Lemma inst_all_val l : inst_all l = Val tt <-> Forall (fun r => r = Val tt) l.
  Proof.
    induction l as [|r l IH]; cbn [inst_all fold_right].
    - split; [constructor|reflexivity].
    - rewrite seq_val. fold (inst_all l). rewrite IH, Forall_cons_iff. tauto.
  Qed.

  Lemma inst_all_settled l : Forall settled l -> settled (inst_all l).
  Proof.
    induction 1 as [|r l H _ IH]; [left; reflexivity|]. exact (settled_seq H IH).
  Qed.

  Lemma enum_inst_map (f : ty -> res unit) vs :
    map (fun '(VDecl _ d) => inst_all (decl_list f d)) vs =
    map (fun v => inst_all (map f (decl_tys (vd_fields v)))) vs.
  Proof. apply map_ext. intros [z d]. cbn [vd_fields]. rewrite decl_list_map. reflexivity. Qed.

  (** *** What the size of a type says about the sizes of its parts *)
  Lemma sized_accepted_iff t : accepted t -> (sized t <-> fits t).
  Proof. intros A. symmetry. exact (accepted_sizes A). Qed.

  Lemma sized_result a b : sized (TResult a b) -> sized a /\ sized b.
  Proof.
    intros [n H]. destruct (@sum_size _ _ _ (impl_of a) (impl_of b) n H) as (x & y & Hx & Hy & _).
    split; [exists x; exact Hx|exists y; exact Hy].
  Qed.

  Lemma sized_either a b : sized (TEither a b) -> sized a /\ sized b.
  Proof. exact (@sized_result a b). Qed.

  Lemma sized_option t : sized (TOption t) -> sized t.
  Proof.
    intros [n Hn]. change ((' a <- ORDINAL_SIZE (impl_of t);; cadd a 1) = Val n) in Hn.
    unfold sized. destruct (ORDINAL_SIZE (impl_of t)) as [m| | | |]; try discriminate Hn. eauto.
  Qed.

  Lemma sized_array t len : sized (TArray t len) -> sized t.
  Proof. intros [n Hn]. destruct (array_parts Hn) as (m & Hm & _). exists m. exact Hm. Qed.

  Lemma sized_tuple ts : sized (TTuple ts) -> Forall sized ts.
  Proof.
    intros [n Hn]. change (impl_of (TTuple ts)) with (tuple_impl (map denote ts)) in *.
    unfold tuple_impl in *. destruct (Nat.leb_spec (length (map denote ts)) 16) as [G|G]; [|discriminate Hn].
    pose proof (tuple_parts Hn) as C. rewrite Forall_map in C. exact C.
  Qed.

  Lemma sized_struct d : sized (TStruct d) -> Forall sized (decl_tys d).
  Proof.
    intros [n Hn]. pose proof (struct_parts Hn) as C. 
    rewrite field_types_denote in C. rewrite Forall_map in C. exact C.
  Qed.

  Lemma sized_enum vs : sized (TEnum vs) -> Forall (fun v => Forall sized (decl_tys (vd_fields v))) vs.
  Proof.
    intros [n Hn]. pose proof (enum_parts Hn) as C.
    rewrite variant_types_denote in C. rewrite Forall_map in C.
    eapply Forall_impl; [|exact C]. intros v H. rewrite Forall_map in H. exact H.
  Qed.

  (** *** A type with a size has both functions *)
  Lemma zip_forall {A} (P Q : A -> Prop) l : Forall (fun x => P x -> Q x) l -> Forall P l -> Forall Q l.
  Proof.
    induction l as [|x l IH]; intros H HP; constructor; inversion H; inversion HP; subst; auto.
  Qed.

  Section Both.
    Variable prim_inst : prim -> res unit.
    Variable inst : ty -> res unit.
    Hypothesis on_prim : forall p, inst (TPrim p) = prim_inst p.
    Hypothesis on_box : forall t, inst (TBox t) = inst t.
    Hypothesis on_option : forall t, inst (TOption t) = inst t.
    Hypothesis on_result : forall a b, inst (TResult a b) = Val tt <-> sized a /\ inst a = Val tt /\ inst b = Val tt.
    Hypothesis on_either : forall a b, inst (TEither a b) = Val tt <-> sized a /\ inst a = Val tt /\ inst b = Val tt.
    Hypothesis on_array : forall t len, inst (TArray t len) = Val tt <-> sized t /\ inst t = Val tt.
    Hypothesis on_tuple : forall ts, inst (TTuple ts) = Val tt <->
      sized (TTuple ts) /\ Forall (fun t => inst t = Val tt) ts.
    Hypothesis on_struct : forall d, inst (TStruct d) = Val tt <->
      sized (TStruct d) /\ Forall (fun t => inst t = Val tt) (decl_tys d).
    Hypothesis on_enum : forall vs, inst (TEnum vs) = Val tt <->
      sized (TEnum vs) /\ Forall (fun v => Forall (fun t => inst t = Val tt) (decl_tys (vd_fields v))) vs.
    Hypothesis prim_sized : forall p, sized (TPrim p) -> prim_inst p = Val tt.

    Lemma sized_inst t : sized t -> inst t = Val tt.
    Proof.
      induction t as [p|t IH|t IH|a b IHa IHb|a b IHa IHb|t len IH|ts IH|d IH|vs IH] using ty_ind'; intros H.
      - rewrite on_prim. exact (prim_sized H).
      - rewrite on_box. exact (IH H).
      - rewrite on_option. exact (IH (sized_option H)).
      - apply on_result. destruct (sized_result H) as [Ha Hb]. auto.
      - apply on_either. destruct (sized_either H) as [Ha Hb]. auto.
      - apply on_array. pose proof (sized_array H) as Ht. auto.
      - apply on_tuple. split; [exact H|]. exact (zip_forall IH (sized_tuple H)).
      - apply on_struct. split; [exact H|]. exact (zip_forall IH (sized_struct H)).
      - apply on_enum. split; [exact H|].
        eapply zip_forall; [|exact (sized_enum H)]. eapply Forall_impl; [|exact IH].
        intros v Hv Hs. exact (zip_forall Hv Hs).
    Qed.

    Variable available : ty -> Prop.
    Hypothesis avail_prim : forall p, available (TPrim p) <-> prim_inst p = Val tt.
    Hypothesis avail_rest : forall t, available t <->
      match t with
      | TPrim p => available (TPrim p)
      | TBox t | TOption t => available t
      | TResult a b | TEither a b => fits a /\ available b
      | TArray t _ => fits t
      | TTuple _ | TStruct _ | TEnum _ => fits t
      end.

    Lemma inst_available t : accepted t -> (inst t = Val tt <-> available t).
    Proof.
      induction t as [p|t IH|t IH|a b IHa IHb|a b IHa IHb|t len IH|ts IH|d IH|vs IH] using ty_ind'; intros A.
      - rewrite on_prim, avail_prim. tauto.
      - rewrite on_box, avail_rest. exact (IH A).
      - rewrite on_option, avail_rest. exact (IH A).
      - destruct A as [A1 A2]. rewrite on_result, avail_rest, (IHb A2), <- (sized_accepted_iff A1).
        split; [tauto|]. intros [H1 H2]. split; [exact H1|]. split; [exact (sized_inst H1)|exact H2].
      - destruct A as [A1 A2]. rewrite on_either, avail_rest, (IHb A2), <- (sized_accepted_iff A1).
        split; [tauto|]. intros [H1 H2]. split; [exact H1|]. split; [exact (sized_inst H1)|exact H2].
      - rewrite on_array, avail_rest. pose proof (@sized_accepted_iff t A) as E. rewrite <- E.
        split; [tauto|]. intros H. split; [exact H|exact (sized_inst H)].
      - rewrite avail_rest, <- (sized_accepted_iff A). split.
        + intros H. apply on_tuple in H. tauto.
        + intros H. exact (sized_inst H).
      - rewrite avail_rest, <- (sized_accepted_iff A). split.
        + intros H. apply on_struct in H. tauto.
        + intros H. exact (sized_inst H).
      - rewrite avail_rest, <- (sized_accepted_iff A). split.
        + intros H. apply on_enum in H. tauto.
        + intros H. exact (sized_inst H).
    Qed.
  End Both.

  (** *** The two functions *)
  Lemma prim_settled p : settled (inst_ordinal_prim p).
  Proof. destruct p; try (left; reflexivity); apply mentions_settled. Qed.
  Lemma from_prim_settled p : settled (inst_from_prim p).
  Proof. destruct p; try (left; reflexivity); apply mentions_settled. Qed.

  Lemma inst_settled t : settled (inst_ordinal t).
  Proof.
    induction t as [p|t IH|t IH|a b IHa IHb|a b IHa IHb|t len IH|ts IH|d IH|vs IH] using ty_ind'; cbn [inst_ordinal].
    - apply prim_settled.
    - exact IH.
    - exact IH.
    - repeat apply settled_seq; auto using mentions_settled.
    - repeat apply settled_seq; auto using mentions_settled.
    - repeat apply settled_seq; auto using mentions_settled.
    - apply settled_seq; [apply mentions_settled|]. apply inst_all_settled. rewrite Forall_map. exact IH.
    - apply settled_seq; [apply mentions_settled|]. rewrite decl_list_map.
      apply inst_all_settled. rewrite Forall_map. exact IH.
    - apply settled_seq; [apply mentions_settled|]. rewrite enum_inst_map.
      apply inst_all_settled. rewrite Forall_map. eapply Forall_impl; [|exact IH].
      intros v H. apply inst_all_settled. rewrite Forall_map. exact H.
  Qed.

  Lemma from_settled t : settled (inst_from t).
  Proof.
    induction t as [p|t IH|t IH|a b IHa IHb|a b IHa IHb|t len IH|ts IH|d IH|vs IH] using ty_ind'; cbn [inst_from].
    - apply from_prim_settled.
    - exact IH.
    - exact IH.
    - repeat apply settled_seq; auto using mentions_settled.
    - repeat apply settled_seq; auto using mentions_settled.
    - repeat apply settled_seq; auto using mentions_settled.
    - apply settled_seq; [apply mentions_settled|]. apply inst_all_settled. rewrite Forall_map. exact IH.
    - apply settled_seq; [apply mentions_settled|]. rewrite decl_list_map.
      apply inst_all_settled. rewrite Forall_map. exact IH.
    - apply settled_seq; [apply mentions_settled|]. rewrite enum_inst_map.
      apply inst_all_settled. rewrite Forall_map. eapply Forall_impl; [|exact IH].
      intros v H. apply inst_all_settled. rewrite Forall_map. exact H.
  Qed.

  Lemma list_inst (f : ty -> res unit) ts : inst_all (map f ts) = Val tt <-> Forall (fun t => f t = Val tt) ts.
  Proof. rewrite inst_all_val, Forall_map. reflexivity. Qed.

  Lemma lists_inst (f : ty -> res unit) vs :
    inst_all (map (fun '(VDecl _ d) => inst_all (decl_list f d)) vs) = Val tt <->
    Forall (fun v => Forall (fun t => f t = Val tt) (decl_tys (vd_fields v))) vs.
  Proof.
    rewrite enum_inst_map, inst_all_val, Forall_map. split; intros H; (eapply Forall_impl; [|exact H]);
      intros v Hv; apply list_inst; exact Hv.
  Qed.

  Lemma prim_fits_iff p : sized (TPrim p) <-> prim_card p <= usize_max.
  Proof.
    assert (A : accepted (TPrim p)) by exact I.
    rewrite (sized_accepted_iff A). cbn [fits card]. tauto.
  Qed.

  Lemma small_prims p : prim_card p <= 4294967295 -> prim_card p <= usize_max.
  Proof. pose proof usize_max_ge. unfold usize_max in *. destruct usize_width; lia. Qed.

  Lemma avail_prim_ordinal p : ordinal_available (TPrim p) <-> inst_ordinal_prim p = Val tt.
  Proof.
    change (ordinal_available (TPrim p)) with (prim_card p <= usize_max /\ True).
    destruct p; cbn [inst_ordinal_prim];
      try (rewrite mentions_val, prim_fits_iff; tauto);
      (split; [reflexivity|]; intros _; split; [|exact I]);
      try (apply small_prims; cbn [prim_card]; lia); cbn [prim_card]; lia.
  Qed.

  Lemma avail_prim_from p : from_available (TPrim p) <-> inst_from_prim p = Val tt.
  Proof.
    destruct p; cbn [inst_from_prim from_available fits card];
      try (rewrite mentions_val, prim_fits_iff; tauto);
      try (split; [reflexivity|]; intros _; split; [|exact I];
      try (apply small_prims; cbn [prim_card]; lia); cbn [prim_card]; lia).
    tauto.
  Qed.

  Lemma prim_sized_ordinal p : sized (TPrim p) -> inst_ordinal_prim p = Val tt.
  Proof. intros H. destruct p; try reflexivity; apply mentions_val; exact H. Qed.
  Lemma prim_sized_from p : sized (TPrim p) -> inst_from_prim p = Val tt.
  Proof. intros H. destruct p; try reflexivity; apply mentions_val; exact H. Qed.

  Local Ltac shape :=
    intros; cbn [inst_ordinal inst_from];
    rewrite ?decl_list_map, ?seq_val, ?mentions_val, ?list_inst, ?lists_inst; tauto.

  Lemma sized_ordinal t : sized t -> inst_ordinal t = Val tt.
  Proof.
    apply (@sized_inst inst_ordinal_prim); try reflexivity; try (exact prim_sized_ordinal); shape.
  Qed.
  Lemma sized_from t : sized t -> inst_from t = Val tt.
  Proof.
    apply (@sized_inst inst_from_prim); try reflexivity; try (exact prim_sized_from); shape.
  Qed.

  Lemma ordinal_available_iff t : accepted t -> (inst_ordinal t = Val tt <-> ordinal_available t).
  Proof.
    apply (@inst_available inst_ordinal_prim); try reflexivity;
      try (exact prim_sized_ordinal); try (exact avail_prim_ordinal); try shape.
    intros []; reflexivity.
  Qed.
  Lemma from_available_iff t : accepted t -> (inst_from t = Val tt <-> from_available t).
  Proof.
    apply (@inst_available inst_from_prim); try reflexivity;
      try (exact prim_sized_from); try (exact avail_prim_from); try shape.
    intros []; reflexivity.
  Qed.
End Mono.

(** ** Running what was instantiated *)
Section Run.
  Context {cfg : Config}.

  Lemma sized_bij t : sized t -> ordinal_bijection (impl_of t) (card t).
  Proof. exact (law_bij' (universe_law t)). Qed.

  Lemma prim_inst_sized p : inst_ordinal (TPrim p) = Val tt -> sized (TPrim p).
  Proof.
    intros H. apply avail_prim_ordinal in H. apply prim_fits_iff. exact (proj1 H).
  Qed.

  Lemma inst_tuple ts : inst_ordinal (TTuple ts) = Val tt -> sized (TTuple ts).
  Proof. cbn [inst_ordinal]. rewrite seq_val, mentions_val. tauto. Qed.
  Lemma inst_struct d : inst_ordinal (TStruct d) = Val tt -> sized (TStruct d).
  Proof. cbn [inst_ordinal]. rewrite seq_val, mentions_val. tauto. Qed.
  Lemma inst_enum vs : inst_ordinal (TEnum vs) = Val tt -> sized (TEnum vs).
  Proof. cbn [inst_ordinal]. rewrite seq_val, mentions_val. tauto. Qed.
  Lemma inst_array t len : inst_ordinal (TArray t len) = Val tt -> sized t.
  Proof. cbn [inst_ordinal]. rewrite seq_val, mentions_val. tauto. Qed.
  Lemma inst_result a b : inst_ordinal (TResult a b) = Val tt -> sized a /\ inst_ordinal b = Val tt.
  Proof. cbn [inst_ordinal]. rewrite !seq_val, mentions_val. tauto. Qed.
  Lemma from_tuple ts : inst_from (TTuple ts) = Val tt -> sized (TTuple ts).
  Proof. cbn [inst_from]. rewrite seq_val, mentions_val. tauto. Qed.
  Lemma from_struct d : inst_from (TStruct d) = Val tt -> sized (TStruct d).
  Proof. cbn [inst_from]. rewrite seq_val, mentions_val. tauto. Qed.
  Lemma from_enum vs : inst_from (TEnum vs) = Val tt -> sized (TEnum vs).
  Proof. cbn [inst_from]. rewrite seq_val, mentions_val. tauto. Qed.
  Lemma from_array t len : inst_from (TArray t len) = Val tt -> sized t.
  Proof. cbn [inst_from]. rewrite seq_val, mentions_val. tauto. Qed.
  Lemma from_result a b : inst_from (TResult a b) = Val tt -> sized a /\ inst_from b = Val tt.
  Proof. cbn [inst_from]. rewrite !seq_val, mentions_val. tauto. Qed.

  Lemma sized_safe t v : sized t -> safe (ordinal (impl_of t) v).
  Proof. intros H. destruct (bij_to (sized_bij H) v) as (i & -> & _). exact I. Qed.

  Lemma uadd_safe a b : safe (uadd a b).
  Proof.
    unfold uadd, usize_rt.
    destruct ((0 <=? Z.of_N a + Z.of_N b) && (Z.of_N a + Z.of_N b <=? Z.of_N usize_max))%Z; [exact I|].
    destruct overflow_checks; exact I.
  Qed.

  Lemma loop_safe {T} (O : Ordinal T) n size l : ordinal_bijection O n -> forall r, safe (array_ordinal_loop O size l r).
  Proof.
    intros B. induction l as [|v l IH]; intros r; cbn [array_ordinal_loop]; [exact I|].
    destruct (checked_mul r size) as [r1|]; [|exact I]. cbn [unwrap bind].
    destruct (bij_to B v) as (i & -> & _). cbn [bind].
    pose proof (uadd_safe r1 i) as H. destruct (uadd r1 i); try exact H. apply IH.
  Qed.

  (** Once instantiated, [ordinal] returns or panics. *)
  Lemma inst_safe t : inst_ordinal t = Val tt -> forall v, safe (ordinal (impl_of t) v).
  Proof.
    induction t as [p|t IH|t IH|a b IHa IHb|a b IHa IHb|t len IH|ts IH|d IH|vs IH] using ty_ind'; intros H v.
    - apply sized_safe, prim_inst_sized, H.
    - destruct v as [v]. exact (IH H v).
    - change (safe (ordinal (Ordinal_Option (impl_of t)) v)). destruct v as [v|]; [|exact I].
      cbn [ordinal Ordinal_Option]. pose proof (IH H v) as S.
      destruct (ordinal (impl_of t) v); try exact S. apply uadd_safe.
    - destruct (inst_result H) as [Ha Hb].
      change (safe (ordinal (Ordinal_Result (impl_of a) (impl_of b)) v)). destruct v as [v|v]; cbn [ordinal Ordinal_Result].
      + rewrite (bij_size (sized_bij Ha)). exact (sized_safe v Ha).
      + destruct Ha as [n ->]. cbn [bind]. pose proof (IHb Hb v) as S.
        destruct (ordinal (impl_of b) v); try exact S. apply uadd_safe.
    - destruct (@inst_result a b H) as [Ha Hb].
      change (safe (ordinal (Ordinal_Either (impl_of a) (impl_of b)) v)). destruct v as [v|v]; cbn [ordinal Ordinal_Either].
      + rewrite (bij_size (sized_bij Ha)). exact (sized_safe v Ha).
      + destruct Ha as [n ->]. cbn [bind]. pose proof (IHb Hb v) as S.
        destruct (ordinal (impl_of b) v); try exact S. apply uadd_safe.
    - apply inst_array in H. change (safe (ordinal (Ordinal_array (impl_of t) len) v)). cbn [ordinal Ordinal_array].
      rewrite (bij_size (sized_bij H)). cbn [bind]. exact (loop_safe _ _ (sized_bij H) 0).
    - apply sized_safe, inst_tuple, H.
    - apply sized_safe, inst_struct, H.
    - apply sized_safe, inst_enum, H.
  Qed.

  (** Whether it compiles does not depend on the value. *)
  Lemma compiled_ordinal_const t v : compiled_ordinal t v = NoCompile <-> inst_ordinal t = NoCompile.
  Proof.
    unfold compiled_ordinal. destruct (inst_settled t) as [E|E]; rewrite E; cbn [bind].
    - pose proof (inst_safe E v) as S. split; intros H; [|discriminate H]. rewrite H in S. destruct S.
    - tauto.
  Qed.

  (** [from_ordinal] returns. *)
  Lemma array_total t len i : sized t -> exists r, from_ordinal (impl_of (TArray t len)) i = Val r.
  Proof.
    intros H. pose proof (sized_bij H) as B.
    change (exists r, returned (array_from_ordinal (impl_of t) len i) = Val r).
    destruct (N.lt_ge_cases i (npow (card t) len)) as [G|G].
    - destruct (array_from_small len B G) as (a & ds & -> & _). eexists. reflexivity.
    - destruct (array_from_reject len B G) as (l & ->). eexists. reflexivity.
  Qed.

  Lemma from_total t : inst_from t = Val tt -> forall i, i <= usize_max ->
    exists r, from_ordinal (impl_of t) i = Val r.
  Proof.
    induction t as [p|t IH|t IH|a b IHa IHb|a b IHa IHb|t len IH|ts IH|d IH|vs IH] using ty_ind'; intros H i Hi.
    - destruct (size_dichotomy (TPrim p)) as [[n Hn]|Hn]; [exact (composed_total Hn Hi)|].
      assert (E : p = Pu32).
      { change (inst_from_prim p = Val tt) in H. apply avail_prim_from in H.
        destruct p; try reflexivity; exfalso;
          match type of H with from_available ?t =>
            pose proof (@law_size _ t (universe_law t) I H) as E; rewrite E in Hn; discriminate Hn end. }
      subst p. cbn. eexists. reflexivity.
    - change (exists r, from_ordinal (Ordinal_Box (impl_of t)) i = Val r). cbn [from_ordinal Ordinal_Box].
      destruct (IH H i Hi) as [[r|] ->]; cbn [bind]; eauto.
    - change (exists r, (if i =? 0 then Val (Some None) else
        ' o1 <- usub i 1;; ' r <- from_ordinal (impl_of t) o1;; Val (opt_map Some r)) = Val r).
      destruct (N.eqb_spec i 0); [eauto|]. rewrite usub_ok by lia. cbn [bind].
      destruct (IH H (i - 1)) as [r ->]; [lia|]. cbn [bind]. eauto.
    - destruct (from_result H) as [Ha Hb]. pose proof (sized_bij Ha) as B.
      change (exists r, from_ordinal (Ordinal_Result (impl_of a) (impl_of b)) i = Val r).
      cbn [from_ordinal Ordinal_Result]. rewrite (bij_size B). cbn [bind].
      destruct (N.ltb_spec i (card a)) as [G|G].
      + destruct (bij_from B G) as (u & Hu & _). rewrite Hu. cbn [unwrap bind]. eauto.
      + rewrite usub_ok by lia. cbn [bind]. destruct (IHb Hb (i - card a)) as [r ->]; [lia|]. cbn [bind]. eauto.
    - destruct (@from_result a b H) as [Ha Hb]. pose proof (sized_bij Ha) as B.
      change (exists r, from_ordinal (Ordinal_Either (impl_of a) (impl_of b)) i = Val r).
      cbn [from_ordinal Ordinal_Either]. rewrite (bij_size B). cbn [bind].
      destruct (N.ltb_spec i (card a)) as [G|G].
      + destruct (bij_from B G) as (u & Hu & _). rewrite Hu. cbn [unwrap bind]. eauto.
      + rewrite usub_ok by lia. cbn [bind]. destruct (IHb Hb (i - card a)) as [r ->]; [lia|]. cbn [bind]. eauto.
    - exact (array_total len i (from_array H)).
    - destruct (from_tuple H) as [n Hn]. exact (composed_total Hn Hi).
    - destruct (from_struct H) as [n Hn]. exact (composed_total Hn Hi).
    - destruct (from_enum H) as [n Hn]. exact (composed_total Hn Hi).
  Qed.

  Lemma compiled_from_const t i : i <= usize_max -> compiled_from t i = NoCompile <-> inst_from t = NoCompile.
  Proof.
    intros Hi. unfold compiled_from. destruct (from_settled t) as [E|E]; rewrite E; cbn [bind].
    - destruct (from_total E Hi) as [r ->]. split; discriminate.
    - tauto.
  Qed.

  (** Every number within the count and the machine word is the ordinal of a value. *)
  Definition decodes (t : ty) : Prop := forall i, i < card t -> i <= usize_max ->
    exists v, from_ordinal (impl_of t) i = Val (Some v) /\ ordinal (impl_of t) v = Val i.

  Lemma sized_decodes t : sized t -> decodes t.
  Proof. intros H i G _. exact (bij_from (sized_bij H) G). Qed.

  Lemma sum_decodes a b : sized a -> decodes b ->
    decodes (TResult a b).
  Proof.
    intros Ha D i G Hi. pose proof (sized_bij Ha) as B. cbn [card] in G.
    destruct (N.lt_ge_cases i (card a)) as [L|L].
    - destruct (bij_from B L) as (u & Hu & Hu'). exists (ResOk u).
      change (from_ordinal (Ordinal_Result (impl_of a) (impl_of b)) i = Val (Some (ResOk u)) /\
        ordinal (Ordinal_Result (impl_of a) (impl_of b)) (ResOk u) = Val i).
      cbn [from_ordinal ordinal Ordinal_Result]. rewrite (bij_size B). cbn [bind].
      rewrite (proj2 (N.ltb_lt _ _) L), Hu. cbn [unwrap bind]. auto.
    - destruct (D (i - card a)) as (u & Hu & Hu'); [lia|lia|]. exists (ResErr u).
      change (from_ordinal (Ordinal_Result (impl_of a) (impl_of b)) i = Val (Some (ResErr u)) /\
        ordinal (Ordinal_Result (impl_of a) (impl_of b)) (ResErr u) = Val i).
      cbn [from_ordinal ordinal Ordinal_Result]. rewrite (bij_size B). cbn [bind].
      rewrite (proj2 (N.ltb_ge _ _) L), usub_ok by lia. cbn [bind]. rewrite Hu, Hu'. cbn [bind opt_map].
      split; [reflexivity|]. rewrite uadd_ok by lia. f_equal. lia.
  Qed.

  Lemma either_decodes a b : sized a -> decodes b ->
    decodes (TEither a b).
  Proof.
    intros Ha D i G Hi. pose proof (sized_bij Ha) as B. cbn [card] in G.
    destruct (N.lt_ge_cases i (card a)) as [L|L].
    - destruct (bij_from B L) as (u & Hu & Hu'). exists (Left u).
      change (from_ordinal (Ordinal_Either (impl_of a) (impl_of b)) i = Val (Some (Left u)) /\
        ordinal (Ordinal_Either (impl_of a) (impl_of b)) (Left u) = Val i).
      cbn [from_ordinal ordinal Ordinal_Either]. rewrite (bij_size B). cbn [bind].
      rewrite (proj2 (N.ltb_lt _ _) L), Hu. cbn [unwrap bind]. auto.
    - destruct (D (i - card a)) as (u & Hu & Hu'); [lia|lia|]. exists (Right u).
      change (from_ordinal (Ordinal_Either (impl_of a) (impl_of b)) i = Val (Some (Right u)) /\
        ordinal (Ordinal_Either (impl_of a) (impl_of b)) (Right u) = Val i).
      cbn [from_ordinal ordinal Ordinal_Either]. rewrite (bij_size B). cbn [bind].
      rewrite (proj2 (N.ltb_ge _ _) L), usub_ok by lia. cbn [bind]. rewrite Hu, Hu'. cbn [bind opt_map].
      split; [reflexivity|]. rewrite uadd_ok by lia. f_equal. lia.
  Qed.

  Lemma array_decodes t len : sized t -> decodes (TArray t len).
  Proof.
    intros H i G Hi. pose proof (sized_bij H) as B. cbn [card] in G.
    destruct (array_from_small len B G) as (a & ds & F & Hds & Hv). exists a.
    change (returned (array_from_ordinal (impl_of t) len i) = Val (Some a) /\
      ordinal (Ordinal_array (impl_of t) len) a = Val i).
    rewrite F. split; [reflexivity|]. cbn [ordinal Ordinal_array]. rewrite (bij_size B). cbn [bind].
    rewrite (@array_ordinal_loop_ok _ _ _ _ _ ds 0 Hds); [f_equal; lia|lia].
  Qed.

  Lemma inst_decodes t : inst_ordinal t = Val tt -> decodes t.
  Proof.
    induction t as [p|t IH|t IH|a b IHa IHb|a b IHa IHb|t len IH|ts IH|d IH|vs IH] using ty_ind'; intros H.
    - apply sized_decodes, prim_inst_sized, H.
    - intros i G Hi. destruct (IH H i G Hi) as (v & F & O). exists (Box v).
      change (from_ordinal (Ordinal_Box (impl_of t)) i = Val (Some (Box v)) /\
        ordinal (impl_of t) v = Val i). cbn [from_ordinal Ordinal_Box]. rewrite F. cbn [bind]. auto.
    - intros i G Hi. cbn [card] in G.
      destruct (N.eq_dec i 0) as [->|N0]; [exists None; split; reflexivity|].
      destruct (IH H (i - 1)) as (v & F & O); [lia|lia|]. exists (Some v).
      change ((if i =? 0 then Val (Some None) else
        ' o1 <- usub i 1;; ' r <- from_ordinal (impl_of t) o1;; Val (opt_map Some r)) = Val (Some (Some v)) /\
        (' j <- ordinal (impl_of t) v;; uadd j 1) = Val i).
      rewrite (proj2 (N.eqb_neq _ _) N0), usub_ok by lia. cbn [bind]. rewrite F, O. cbn [bind opt_map].
      split; [reflexivity|]. rewrite uadd_ok by lia. f_equal. lia.
    - destruct (inst_result H) as [Ha Hb]. exact (sum_decodes Ha (IHb Hb)).
    - destruct (@inst_result a b H) as [Ha Hb]. exact (either_decodes Ha (IHb Hb)).
    - exact (array_decodes (inst_array H)).
    - apply sized_decodes, inst_tuple, H.
    - apply sized_decodes, inst_struct, H.
    - apply sized_decodes, inst_enum, H.
  Qed.

  (** With overflow checks, an ordinal that is returned is right. *)
  Lemma uadd_checked_le a b n : overflow_checks = true -> uadd a b = Val n -> n = a + b /\ n <= usize_max.
  Proof.
    intros C H. pose proof (uadd_checked C H) as ->. split; [reflexivity|].
    revert H. unfold uadd, usize_rt. rewrite C.
    destruct ((0 <=? Z.of_N a + Z.of_N b) && (Z.of_N a + Z.of_N b <=? Z.of_N usize_max))%Z eqn:E; [|discriminate].
    intros _. apply andb_prop in E. destruct E as [_ E]. apply Z.leb_le in E. lia.
  Qed.

  Lemma loop_le {T} (O : Ordinal T) n size l i : overflow_checks = true -> ordinal_bijection O n ->
    forall r, r <= usize_max -> array_ordinal_loop O size l r = Val i -> i <= usize_max.
  Proof.
    intros C B. induction l as [|x l IH]; intros r Hr H; cbn [array_ordinal_loop] in H; [pose proof (Val_inj H); lia|].
    destruct (checked_mul r size) as [r1|]; [|discriminate H]. cbn [unwrap bind] in H.
    destruct (bij_to B x) as (j & Hj & _). rewrite Hj in H. cbn [bind] in H.
    destruct (uadd r1 j) as [r2| | | |] eqn:E; try discriminate H. cbn [bind] in H.
    apply (uadd_checked_le C) in E. exact (IH r2 (proj2 E) H).
  Qed.

  Lemma ordinals_unique {T} (O : Ordinal T) n l ds : ordinals O n l ds -> forall es,
    Forall2 (fun t d => ordinal O t = Val d) l es -> ds = es.
  Proof.
    induction 1 as [|x d l ds [H1 _] _ IH]; intros es Hes; inversion Hes as [|? e ? es' H2 H3]; subst; [reflexivity|].
    rewrite H1 in H2. rewrite (Val_inj H2), (IH es' H3). reflexivity.
  Qed.

  Definition encodes (t : ty) : Prop := forall v i, ordinal (impl_of t) v = Val i ->
    i < card t /\ i <= usize_max.

  Lemma sized_encodes t : sized t -> encodes t.
  Proof.
    intros H v i O. pose proof (sized_bij H) as B. destruct (bij_to B v) as (j & Hj & L & _).
    rewrite O in Hj. injection Hj as <-. pose proof (bij_fits B). lia.
  Qed.

  Lemma inst_encodes t : overflow_checks = true -> inst_ordinal t = Val tt -> encodes t.
  Proof.
    intros C.
    induction t as [p|t IH|t IH|a b IHa IHb|a b IHa IHb|t len IH|ts IH|d IH|vs IH] using ty_ind'; intros H.
    - apply sized_encodes, prim_inst_sized, H.
    - intros [v] i O. exact (IH H v i O).
    - intros [v|] i O; cbn [card].
      + change ((' j <- ordinal (impl_of t) v;; uadd j 1) = Val i) in O.
        destruct (ordinal (impl_of t) v) as [j| | | |] eqn:E; try discriminate O. cbn [bind] in O.
        destruct (IH H v j E). apply (uadd_checked_le C) in O. lia.
      + assert (i = 0) by (symmetry; exact (Val_inj O)). lia.
    - destruct (inst_result H) as [Ha Hb]. pose proof (sized_bij Ha) as B.
      intros [v|v] i O; cbn [card].
      + assert (O' : ordinal (impl_of a) v = Val i).
        { rewrite <- O. symmetry. change ((ORDINAL_SIZE (impl_of a);;; ordinal (impl_of a) v) = ordinal (impl_of a) v).
          rewrite (bij_size B). reflexivity. }
        destruct (sized_encodes Ha O'). lia.
      + change ((' x <- ORDINAL_SIZE (impl_of a);; ' y <- ordinal (impl_of b) v;; uadd x y) = Val i) in O.
        rewrite (bij_size B) in O. cbn [bind] in O.
        destruct (ordinal (impl_of b) v) as [j| | | |] eqn:E; try discriminate O. cbn [bind] in O.
        destruct (IHb Hb v j E). apply (uadd_checked_le C) in O. lia.
    - destruct (@inst_result a b H) as [Ha Hb]. pose proof (sized_bij Ha) as B.
      intros [v|v] i O; cbn [card].
      + assert (O' : ordinal (impl_of a) v = Val i).
        { rewrite <- O. symmetry. change ((ORDINAL_SIZE (impl_of a);;; ordinal (impl_of a) v) = ordinal (impl_of a) v).
          rewrite (bij_size B). reflexivity. }
        destruct (sized_encodes Ha O'). lia.
      + change ((' x <- ORDINAL_SIZE (impl_of a);; ' y <- ordinal (impl_of b) v;; uadd x y) = Val i) in O.
        rewrite (bij_size B) in O. cbn [bind] in O.
        destruct (ordinal (impl_of b) v) as [j| | | |] eqn:E; try discriminate O. cbn [bind] in O.
        destruct (IHb Hb v j E). apply (uadd_checked_le C) in O. lia.
    - apply inst_array in H. pose proof (sized_bij H) as B. intros v i O. cbn [card].
      change (ordinal (Ordinal_array (impl_of t) len) v = Val i) in O. cbn [ordinal Ordinal_array] in O.
      rewrite (bij_size B) in O. cbn [bind] in O.
      assert (Hi : i <= usize_max).
      { exact (loop_le C B (N.le_0_l _) O). }
      split; [|exact Hi].
      destruct (ordinals_exist B (arr_list v)) as (ds & Hds).
      destruct (array_loop_inv C B O) as (es & Hes & E).
      assert (ds = es).
      { exact (ordinals_unique Hds Hes). }
      subst es. pose proof (array_value_lt Hds) as L. rewrite arr_length in L.
      unfold array_value in L. pose proof (ordinals_length Hds) as EL. rewrite <- EL in L.
      unfold npow in L. rewrite E, N.mul_0_l, N.add_0_l. exact L.
    - apply sized_encodes, inst_tuple, H.
    - apply sized_encodes, inst_struct, H.
    - apply sized_encodes, inst_enum, H.
  Qed.

  Lemma inst_round_trip t v i : overflow_checks = true -> inst_ordinal t = Val tt ->
    ordinal (impl_of t) v = Val i -> i < card t /\ from_ordinal (impl_of t) i = Val (Some v).
  Proof.
    intros C H O. destruct (inst_encodes C H O) as [L Hi]. split; [exact L|].
    destruct (inst_decodes H L Hi) as (w & F & O'). rewrite F. do 2 f_equal.
    exact (checked_injective C O' O).
  Qed.
End Run.

Section Named.
  Context {cfg : Config}.

  Lemma ordinal_settled t : inst_ordinal t = Val tt \/ inst_ordinal t = NoCompile.
  Proof. exact (inst_settled t). Qed.

  Lemma sized_both t n : ORDINAL_SIZE (impl_of t) = Val n -> inst_ordinal t = Val tt /\ inst_from t = Val tt.
  Proof. intros H. split; [apply sized_ordinal|apply sized_from]; exists n; exact H. Qed.

  Lemma decodes_count t n i : inst_ordinal t = Val tt -> has_values (type_of t) n ->
    i < n -> i <= usize_max ->
    exists v, from_ordinal (impl_of t) i = Val (Some v) /\ ordinal (impl_of t) v = Val i.
  Proof. intros H V G. rewrite (hv_unique V (values_card t)) in G. exact (inst_decodes H G). Qed.

  Lemma round_trip_count t n v i : overflow_checks = true -> inst_ordinal t = Val tt -> has_values (type_of t) n ->
    ordinal (impl_of t) v = Val i -> i < n /\ i <= usize_max /\ from_ordinal (impl_of t) i = Val (Some v).
  Proof.
    intros C H V O. rewrite (hv_unique V (values_card t)). destruct (inst_round_trip C H O) as [L F].
    split; [exact L|]. split; [|exact F]. exact (proj2 (inst_encodes C H O)).
  Qed.

  Lemma rejected_whole t : accepted t -> ~ ordinal_available t -> forall v, compiled_ordinal t v = NoCompile.
  Proof.
    intros A H v. apply compiled_ordinal_const. destruct (inst_settled t) as [E|E]; [|exact E].
    apply (ordinal_available_iff A) in E. contradiction.
  Qed.
End Named.
