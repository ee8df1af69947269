(** * NominalProofs: proofs about declared types with parameters. *)
From Verif Require Import Base Spec SpecUniverse ModelOrdinal ModelUniverse UniverseProofs6 ModelNominal SpecNominal.
From Coq Require Import String List PeanoNat Lia Bool Relation_Operators Wellfounded.
Import ListNotations.
Set Implicit Arguments.
Unset Strict Implicit.

Section Ind.
  Variable P : gty -> Prop.
  Hypothesis HVar : forall i, P (GVar i).
  Hypothesis HForeign : P GForeign.
  Hypothesis HPrim : forall q, P (GPrim q).
  Hypothesis HBox : forall t, P t -> P (GBox t).
  Hypothesis HOption : forall t, P t -> P (GOption t).
  Hypothesis HResult : forall a b, P a -> P b -> P (GResult a b).
  Hypothesis HEither : forall a b, P a -> P b -> P (GEither a b).
  Hypothesis HArray : forall t l, P t -> P (GArray t l).
  Hypothesis HTuple : forall ts, Forall P ts -> P (GTuple ts).
  Hypothesis HNamed : forall d ts ls, Forall P ts -> P (GNamed d ts ls).
  Fixpoint gty_ind' (t : gty) : P t :=
    let fix list_ind (l : list gty) : Forall P l :=
      match l with [] => Forall_nil _ | a :: r => Forall_cons _ (gty_ind' a) (list_ind r) end in
    match t with
    | GVar i => HVar i
    | GForeign => HForeign
    | GPrim q => HPrim q
    | GBox t => HBox (gty_ind' t)
    | GOption t => HOption (gty_ind' t)
    | GResult a b => HResult (gty_ind' a) (gty_ind' b)
    | GEither a b => HEither (gty_ind' a) (gty_ind' b)
    | GArray t l => HArray l (gty_ind' t)
    | GTuple ts => HTuple (list_ind ts)
    | GNamed d ts ls => HNamed d ls (list_ind ts)
    end.
End Ind.

Lemma existsb_in i l : existsb (Nat.eqb i) l = true <-> In i l.
Proof.
  rewrite existsb_exists. split.
  - intros (j & H & E). apply Nat.eqb_eq in E. subst. exact H.
  - intros H. exists i. split; [exact H|apply Nat.eqb_refl].
Qed.

Section Program.
  Variable p : program.

  (** ** The check with open parameters is sound ... *)
  Lemma implements_inst bounds args ns t :
    (forall i, In i bounds -> implements p [] (nth i args GForeign) = true) ->
    implements p bounds t = true -> implements p [] (inst args ns t) = true.
  Proof.
    intros Ha. induction t as [i| |q|t IH|t IH|a b IHa IHb|a b IHa IHb|t l IH|ts IH|d ts ls IH] using gty_ind';
      cbn [implements inst]; intros H; auto.
    - apply Ha, existsb_in, H.
    - apply andb_true_iff in H. destruct H. rewrite IHa, IHb by assumption. reflexivity.
    - apply andb_true_iff in H. destruct H. rewrite IHa, IHb by assumption. reflexivity.
    - apply andb_true_iff in H. destruct H as [H1 H2]. rewrite map_length, H1. cbn [andb].
      rewrite forallb_forall in H2 |- *. intros x Hx. apply in_map_iff in Hx. destruct Hx as (y & <- & Hy).
      rewrite Forall_forall in IH. apply IH; auto.
    - destruct (nth_error p d) as [it|]; [|discriminate H]. cbv zeta in *.
      apply andb_true_iff in H. destruct H as [H1 H2]. rewrite map_length, H1. cbn [andb].
      rewrite forallb_forall in H2 |- *. intros i Hi. specialize (H2 i Hi). clear Hi. revert i H2.
      clear H1. induction IH as [|t ts Ht IH IH2]; intros i H2; [destruct i; discriminate H2|].
      destruct i as [|i]; cbn [map nth] in *; auto.
  Qed.

  (** ... and exact: without the bound there is an instance whose field has no impl. *)
  Definition least_args (it : item) : list gty :=
    map (fun i => if existsb (Nat.eqb i) (it_bounds it) then GPrim Pbool else GForeign) (seq 0 (it_params it)).

  Lemma least_nth it i : well_scoped it ->
    nth i (least_args it) GForeign = if existsb (Nat.eqb i) (it_bounds it) then GPrim Pbool else GForeign.
  Proof.
    intros W. unfold least_args. destruct (Nat.lt_ge_cases i (it_params it)) as [H|H].
    - set (f := fun i => if existsb (Nat.eqb i) (it_bounds it) then GPrim Pbool else GForeign).
      rewrite (nth_indep _ GForeign (f 0%nat)) by (rewrite map_length, seq_length; exact H).
      rewrite map_nth, seq_nth by exact H. reflexivity.
    - rewrite nth_overflow by (rewrite map_length, seq_length; exact H).
      destruct (existsb (Nat.eqb i) (it_bounds it)) eqn:E; [|reflexivity].
      apply existsb_in in E. unfold well_scoped in W. rewrite Forall_forall in W. specialize (W i E). lia.
  Qed.

  Lemma least_ok it : well_scoped it -> arguments_ok p it (least_args it).
  Proof.
    intros W. split; [unfold least_args; rewrite map_length, seq_length; reflexivity|].
    intros i Hi. rewrite least_nth by exact W. replace (existsb (Nat.eqb i) (it_bounds it)) with true; [reflexivity|].
    symmetry. apply existsb_in, Hi.
  Qed.

  Lemma least_exact it ns t : well_scoped it ->
    implements p [] (inst (least_args it) ns t) = implements p (it_bounds it) t.
  Proof.
    intros W. induction t as [i| |q|t IH|t IH|a b IHa IHb|a b IHa IHb|t l IH|ts IH|d ts ls IH] using gty_ind';
      cbn [implements inst]; auto; try congruence.
    - rewrite least_nth by exact W. destruct (existsb (Nat.eqb i) (it_bounds it)); reflexivity.
    - rewrite map_length. f_equal. induction IH as [|t ts Ht IH IH2]; [reflexivity|]. cbn [map forallb]. congruence.
    - destruct (nth_error p d) as [it'|]; [|reflexivity]. cbv zeta. rewrite map_length.
      replace (map (implements p []) (map (inst (least_args it) ns) ts)) with (map (implements p (it_bounds it)) ts); [reflexivity|].
      induction IH as [|t ts Ht IH IH2]; [reflexivity|]. cbn [map]. congruence.
  Qed.

  Lemma accepted_iff it ns : well_scoped it ->
    impl_accepted p it = true <->
    forall args, arguments_ok p it args ->
      Forall (fun f => implements p [] (inst args ns f) = true) (body_types (it_body it)).
  Proof.
    intros W. unfold impl_accepted. rewrite forallb_forall. split.
    - intros H args [_ Ha]. apply Forall_forall. intros f Hf. exact (implements_inst ns Ha (H f Hf)).
    - intros H f Hf. specialize (H _ (least_ok W)). rewrite Forall_forall in H. specialize (H f Hf).
      rewrite least_exact in H by exact W. exact H.
  Qed.

  (** ** Parts of an instance have the impl. *)
  Lemma named_args d ts ls it : nth_error p d = Some it -> implements p [] (GNamed d ts ls) = true -> arguments_ok p it ts.
  Proof.
    intros E H. cbn [implements] in H. rewrite E in H. cbv zeta in H. apply andb_true_iff in H. destruct H as [H1 H2].
    split; [apply Nat.eqb_eq, H1|]. intros i Hi. rewrite forallb_forall in H2. specialize (H2 i Hi).
    change false with (implements p [] GForeign) in H2. rewrite map_nth in H2. exact H2.
  Qed.

  Lemma parts_implement s t : program_accepted p = true -> implements p [] t = true -> part_of p s t ->
    implements p [] s = true.
  Proof.
    intros Hp. unfold part_of. destruct t as [i| |q|t|t|a b|a b|t l|ts|d ts ls]; cbn [parts]; intros H Hs;
      try contradiction Hs; try (destruct Hs as [<-|[]]; exact H).
    - cbn [implements] in H. apply andb_true_iff in H. destruct Hs as [<-|[<-|[]]]; tauto.
    - cbn [implements] in H. apply andb_true_iff in H. destruct Hs as [<-|[<-|[]]]; tauto.
    - cbn [implements] in H. apply andb_true_iff in H. destruct H as [_ H]. rewrite forallb_forall in H. auto.
    - destruct (nth_error p d) as [it|] eqn:E; [|contradiction Hs]. apply in_map_iff in Hs. destruct Hs as (f & <- & Hf).
      pose proof (named_args E H) as [_ Ha].
      assert (Hi : impl_accepted p it = true).
      { unfold program_accepted in Hp. rewrite forallb_forall in Hp. apply Hp. eapply nth_error_In, E. }
      unfold impl_accepted in Hi. rewrite forallb_forall in Hi. exact (implements_inst _ Ha (Hi f Hf)).
  Qed.
  Lemma inside_implements s t : program_accepted p = true -> implements p [] t = true -> inside p s t ->
    implements p [] s = true.
  Proof.
    intros Hp H Hs. induction Hs as [s t Hs|s m t _ IH1 _ IH2]; [exact (parts_implement Hp H Hs)|auto].
  Qed.

  (** ** Unfolding *)
  Lemma all_some_iff {A B} (f : A -> option B) l : all_some (map f l) <> None <-> Forall (fun a => f a <> None) l.
  Proof.
    induction l as [|a l IH]; cbn [map all_some]; [split; [constructor|discriminate]|].
    destruct (f a) eqn:E.
    - destruct (all_some (map f l)); split; intros H; try discriminate; try congruence.
      + constructor; [congruence|]. apply IH. discriminate.
      + inversion H; subst. apply IH in H3. congruence.
    - split; intros H; [congruence|]. inversion H; congruence.
  Qed.
  Lemma option_map_iff {A B} (f : A -> B) o : option_map f o <> None <-> o <> None.
  Proof. destruct o; cbn; split; congruence. Qed.
  Lemma Forall_map' {A B} (P : B -> Prop) (f : A -> B) l : Forall P (map f l) <-> Forall (fun a => P (f a)) l.
  Proof. rewrite !Forall_forall. setoid_rewrite in_map_iff. split; intros H; [eauto|]. intros b (a & <- & Ha). auto. Qed.
  Lemma Forall_flat {A B} (P : B -> Prop) (f : A -> list B) l :
    Forall P (flat_map f l) <-> Forall (fun a => Forall P (f a)) l.
  Proof.
    induction l as [|a l IH]; cbn [flat_map]; [split; constructor|]. rewrite Forall_app, IH. split.
    - intros [H1 H2]. constructor; assumption.
    - intros H. inversion H; auto.
  Qed.
  Lemma Forall_iff {A} (P Q : A -> Prop) l : (forall a, P a <-> Q a) -> Forall P l <-> Forall Q l.
  Proof. intros H. rewrite !Forall_forall. firstorder. Qed.

  Lemma unfold_decl_iff (f : gty -> option ty) d :
    unfold_decl f d <> None <-> Forall (fun t => f t <> None) (decl_list (fun t => t) d).
  Proof.
    destruct d as [|l|l]; cbn [unfold_decl decl_list].
    - split; [constructor|discriminate].
    - rewrite option_map_iff, all_some_iff, map_id. reflexivity.
    - rewrite option_map_iff, all_some_iff, Forall_map'. apply Forall_iff. intros [x t]. apply option_map_iff.
  Qed.
  Lemma unfold_body_iff (f : gty -> option ty) b : unfold_body f b <> None <-> Forall (fun t => f t <> None) (body_types b).
  Proof.
    destruct b as [d|vs]; cbn [unfold_body body_types].
    - rewrite option_map_iff. apply unfold_decl_iff.
    - rewrite option_map_iff, all_some_iff, Forall_flat. apply Forall_iff. intros [z d]. cbn [unfold_variant].
      rewrite option_map_iff. apply unfold_decl_iff.
  Qed.

  Lemma unfold_parts n t : unfold p (S n) t <> None -> Forall (fun s => unfold p n s <> None) (parts p t).
  Proof.
    destruct t as [i| |q|t|t|a b|a b|t l|ts|d ts ls]; cbn [unfold parts]; intros H; try (now constructor).
    - apply option_map_iff in H. now repeat constructor.
    - apply option_map_iff in H. now repeat constructor.
    - destruct (unfold p n a) eqn:Ea, (unfold p n b) eqn:Eb; try (exfalso; apply H; reflexivity). repeat constructor; congruence.
    - destruct (unfold p n a) eqn:Ea, (unfold p n b) eqn:Eb; try (exfalso; apply H; reflexivity). repeat constructor; congruence.
    - apply option_map_iff in H. now repeat constructor.
    - apply option_map_iff, all_some_iff in H. exact H.
    - destruct (nth_error p d) as [it|]; [|constructor]. apply unfold_body_iff in H. apply Forall_map'. exact H.
  Qed.
  Lemma parts_unfold n t : implements p [] t = true -> Forall (fun s => unfold p n s <> None) (parts p t) ->
    unfold p (S n) t <> None.
  Proof.
    destruct t as [i| |q|t|t|a b|a b|t l|ts|d ts ls]; cbn [unfold parts implements]; intros Hi H; try discriminate.
    - inversion H; subst. now apply option_map_iff.
    - inversion H; subst. now apply option_map_iff.
    - inversion H as [|? ? H1 H2]; subst. inversion H2; subst.
      destruct (unfold p n a), (unfold p n b); congruence.
    - inversion H as [|? ? H1 H2]; subst. inversion H2; subst.
      destruct (unfold p n a), (unfold p n b); congruence.
    - inversion H; subst. now apply option_map_iff.
    - apply option_map_iff, all_some_iff. exact H.
    - destruct (nth_error p d) as [it|]; [|discriminate Hi]. apply unfold_body_iff.
      exact (proj1 (Forall_map' (fun s => unfold p n s <> None) _ _) H).
  Qed.

  (** A higher limit changes nothing. *)
  Lemma all_some_mono {A B} (f g : A -> option B) l r : (forall a b, In a l -> f a = Some b -> g a = Some b) ->
    all_some (map f l) = Some r -> all_some (map g l) = Some r.
  Proof.
    revert r. induction l as [|a l IH]; cbn [map all_some]; intros r H E; [exact E|].
    destruct (f a) as [b|] eqn:Ef; [|discriminate E]. rewrite (H a b (or_introl eq_refl) Ef).
    destruct (all_some (map f l)) as [r'|]; [|discriminate E].
    rewrite (IH r' (fun x y Hx => H x y (or_intror Hx)) eq_refl). exact E.
  Qed.
  Lemma option_map_some {A B} (f : A -> B) o b : option_map f o = Some b -> exists a, o = Some a /\ b = f a.
  Proof. destruct o; intros E; inversion E; eauto. Qed.
  Lemma unfold_decl_mono (f g : gty -> option ty) d r : (forall a b, f a = Some b -> g a = Some b) ->
    unfold_decl f d = Some r -> unfold_decl g d = Some r.
  Proof.
    intros H. destruct d as [|l|l]; cbn [unfold_decl]; intros E; [exact E| |];
      apply option_map_some in E; destruct E as (r' & E & ->).
    - rewrite (@all_some_mono _ _ f g l r'); [reflexivity|auto|exact E].
    - rewrite (@all_some_mono _ _ (fun '(x, t) => option_map (pair x) (f t)) (fun '(x, t) => option_map (pair x) (g t)) l r');
        [reflexivity| |exact E].
      intros [x t] b _ E1. apply option_map_some in E1. destruct E1 as (u & E1 & ->). rewrite (H _ _ E1). reflexivity.
  Qed.
  Lemma unfold_body_mono (f g : gty -> option ty) b r : (forall a b, f a = Some b -> g a = Some b) ->
    unfold_body f b = Some r -> unfold_body g b = Some r.
  Proof.
    intros H. destruct b as [d|vs]; cbn [unfold_body]; intros E; apply option_map_some in E; destruct E as (r' & E & ->).
    - rewrite (unfold_decl_mono H E). reflexivity.
    - rewrite (@all_some_mono _ _ (unfold_variant f) (unfold_variant g) vs r'); [reflexivity| |exact E].
      intros [z d] b _ E1. cbn [unfold_variant] in *. apply option_map_some in E1. destruct E1 as (u & E1 & ->).
      rewrite (unfold_decl_mono H E1). reflexivity.
  Qed.

  Lemma unfold_step n : forall t u, unfold p n t = Some u -> unfold p (S n) t = Some u.
  Proof.
    induction n as [|n IH]; intros t u E; [discriminate E|].
    destruct t as [i| |q|t|t|a b|a b|t l|ts|d ts ls]; cbn [unfold] in E |- *; try exact E.
    - apply option_map_some in E. destruct E as (u' & E & ->). apply IH in E. cbn [unfold] in E. rewrite E. reflexivity.
    - apply option_map_some in E. destruct E as (u' & E & ->). apply IH in E. cbn [unfold] in E. rewrite E. reflexivity.
    - destruct (unfold p n a) as [a'|] eqn:Ea; [|discriminate E]. destruct (unfold p n b) as [b'|] eqn:Eb; [|discriminate E].
      apply IH in Ea, Eb. cbn [unfold] in Ea, Eb. rewrite Ea, Eb. exact E.
    - destruct (unfold p n a) as [a'|] eqn:Ea; [|discriminate E]. destruct (unfold p n b) as [b'|] eqn:Eb; [|discriminate E].
      apply IH in Ea, Eb. cbn [unfold] in Ea, Eb. rewrite Ea, Eb. exact E.
    - apply option_map_some in E. destruct E as (u' & E & ->). apply IH in E. cbn [unfold] in E. rewrite E. reflexivity.
    - apply option_map_some in E. destruct E as (u' & E & ->).
      exact (f_equal (option_map TTuple) (@all_some_mono _ _ (unfold p n) (unfold p (S n)) ts u' (fun a b _ => IH a b) E)).
    - destruct (nth_error p d) as [it|]; [|discriminate E].
      exact (@unfold_body_mono (fun t => unfold p n (inst ts (map len_value ls) t)) (fun t => unfold p (S n) (inst ts (map len_value ls) t)) _ _ (fun a b => IH (inst ts (map len_value ls) a) b) E).
  Qed.
  Lemma unfold_mono n m t u : (n <= m)%nat -> unfold p n t = Some u -> unfold p m t = Some u.
  Proof. intros H E. induction H as [|m H IH]; [exact E|]. apply unfold_step, IH. Qed.
  Lemma unfold_unique n m t u v : unfold p n t = Some u -> unfold p m t = Some v -> u = v.
  Proof.
    intros E F. apply (@unfold_mono n (Nat.max n m)) in E; [|lia]. apply (@unfold_mono m (Nat.max n m)) in F; [|lia]. congruence.
  Qed.

  (** Only finite types unfold. *)
  Lemma unfold_finite n : forall t, unfold p n t <> None -> finite_type p t.
  Proof.
    induction n as [|n IH]; intros t H; [exfalso; apply H; reflexivity|].
    apply unfold_parts in H. rewrite Forall_forall in H. constructor. intros s Hs. apply IH, H, Hs.
  Qed.
  Lemma endless_rejected t : ~ finite_type p t -> forall n, unfold p n t = None.
  Proof. intros H n. destruct (unfold p n t) as [u|] eqn:E; [|reflexivity]. exfalso. apply H, (@unfold_finite n). congruence. Qed.
  Lemma cycle_endless s t : inside p s s -> (s = t \/ inside p s t) -> ~ finite_type p t.
  Proof.
    intros Hs Ht A.
    assert (W : forall t, Acc (part_of p) t -> Acc (inside p) t) by (intros x Hx; apply Acc_clos_trans, Hx).
    apply W in A.
    assert (As : Acc (inside p) s) by (destruct Ht as [<-|Ht]; [exact A|exact (Acc_inv A Ht)]).
    clear -Hs As. induction As as [s _ IH]. exact (IH s Hs Hs).
  Qed.

  (** And all of them do. *)
  Lemma finite_unfolds t : program_accepted p = true -> implements p [] t = true -> finite_type p t ->
    exists n u, forall m, (n <= m)%nat -> unfold p m t = Some u.
  Proof.
    intros Hp Hi A.
    assert (G : exists n, unfold p n t <> None).
    { revert Hi. induction A as [t _ IH]. intros Hi.
      assert (B : exists n, Forall (fun s => unfold p n s <> None) (parts p t)).
      { assert (Q : forall l, (forall s, In s l -> part_of p s t) -> exists n, Forall (fun s => unfold p n s <> None) l).
        { induction l as [|s l IHl]; intros Hl; [exists 0%nat; constructor|].
          destruct (IH s (Hl s (or_introl eq_refl)) (parts_implement Hp Hi (Hl s (or_introl eq_refl)))) as [n Hn].
          destruct (IHl (fun x Hx => Hl x (or_intror Hx))) as [m Hm]. exists (Nat.max n m).
          assert (M : forall k x, (k <= Nat.max n m)%nat -> unfold p k x <> None -> unfold p (Nat.max n m) x <> None).
          { intros k x Hk Hx. destruct (unfold p k x) as [u|] eqn:E; [|congruence]. rewrite (unfold_mono Hk E). discriminate. }
          constructor; [apply (M n); [lia|exact Hn]|]. rewrite Forall_forall in Hm |- *. intros x Hx. apply (M m); [lia|auto]. }
        exact (Q _ (fun s Hs => Hs)). }
      destruct B as [n B]. exists (S n). exact (parts_unfold Hi B). }
    destruct G as [n G]. destruct (unfold p n t) as [u|] eqn:E; [|congruence]. exists n, u. intros m Hm. exact (unfold_mono Hm E).
  Qed.
End Program.

(** ** Without parameters, endless means that a type is inside itself. *)
Section Plain.
  Variable p : program.
  Hypothesis Hp : plain_program p.

  Lemma plain_list ts : fold_right and True (map plain ts) <-> Forall plain ts.
  Proof.
    induction ts as [|t ts IH]; cbn [map fold_right]; [split; constructor|]. rewrite IH. split.
    - intros [H1 H2]. constructor; assumption.
    - intros H. inversion H; auto.
  Qed.
  Lemma plain_inst ns t : plain t -> inst [] ns t = t.
  Proof.
    induction t as [i| |q|t IH|t IH|a b IHa IHb|a b IHa IHb|t l IH|ts IH|d ts ls IH] using gty_ind'; cbn [plain inst]; intros H;
      try contradiction H; try reflexivity.
    - rewrite IH; auto.
    - rewrite IH; auto.
    - destruct H. rewrite IHa, IHb; auto.
    - destruct H. rewrite IHa, IHb; auto.
    - destruct H as [H (n & ->)]. rewrite IH; auto.
    - f_equal. apply plain_list in H. induction IH as [|t ts Ht IH IH2]; [reflexivity|].
      inversion H; subst. cbn [map]. rewrite Ht, IH2; auto.
    - destruct H as [-> ->]. reflexivity.
  Qed.

  Fixpoint subterms (t : gty) : list gty :=
    t :: match t with
         | GVar _ | GForeign | GPrim _ | GNamed _ _ _ => []
         | GBox t | GOption t | GArray t _ => subterms t
         | GResult a b | GEither a b => subterms a ++ subterms b
         | GTuple ts => flat_map subterms ts
         end.
  Lemma subterms_self t : In t (subterms t).
  Proof. destruct t; left; reflexivity. Qed.
  Definition is_named (t : gty) : bool := match t with GNamed _ _ _ => true | _ => false end.
  Lemma subterms_plain t : plain t -> forall s, In s (subterms t) -> plain s.
  Proof.
    induction t as [i| |q|t IH|t IH|a b IHa IHb|a b IHa IHb|t l IH|ts IH|d ts ls IH] using gty_ind'; cbn [subterms]; intros H s [<-|Hs];
      try exact H; try contradiction Hs; cbn [plain] in H.
    - auto.
    - auto.
    - apply in_app_iff in Hs. destruct H, Hs; auto.
    - apply in_app_iff in Hs. destruct H, Hs; auto.
    - destruct H; auto.
    - apply plain_list in H. apply in_flat_map in Hs. destruct Hs as (t & Ht & Hs). rewrite Forall_forall in H, IH. exact (IH t Ht (H t Ht) s Hs).
  Qed.
  Lemma subterms_parts t : forall s r, In s (subterms t) -> is_named s = false -> part_of p r s -> In r (subterms t).
  Proof.
    unfold part_of.
    induction t as [i| |q|t IH|t IH|a b IHa IHb|a b IHa IHb|t l IH|ts IH|d ts ls IH] using gty_ind'; cbn [subterms]; intros s r [<-|Hs] Hn Hr;
      cbn [parts] in Hr; try contradiction Hs; try contradiction Hr; try discriminate Hn; right.
    - destruct Hr as [<-|[]]. apply subterms_self.
    - eauto.
    - destruct Hr as [<-|[]]. apply subterms_self.
    - eauto.
    - apply in_app_iff. destruct Hr as [<-|[<-|[]]]; [left|right]; apply subterms_self.
    - apply in_app_iff in Hs. apply in_app_iff. destruct Hs; [left|right]; eauto.
    - apply in_app_iff. destruct Hr as [<-|[<-|[]]]; [left|right]; apply subterms_self.
    - apply in_app_iff in Hs. apply in_app_iff. destruct Hs; [left|right]; eauto.
    - destruct Hr as [<-|[]]. apply subterms_self.
    - eauto.
    - apply in_flat_map. exists r. split; [exact Hr|apply subterms_self].
    - apply in_flat_map in Hs. destruct Hs as (t & Ht & Hs). apply in_flat_map. exists t. split; [exact Ht|].
      rewrite Forall_forall in IH. exact (IH t Ht s r Hs Hn Hr).
  Qed.

  (** All types that can be met from [t]. *)
  Definition reach (t : gty) : list gty :=
    subterms t ++ flat_map (fun it => flat_map subterms (body_types (it_body it))) p.
  Lemma reach_plain t s : plain t -> In s (reach t) -> plain s.
  Proof.
    intros Ht Hs. apply in_app_iff in Hs. destruct Hs as [Hs|Hs]; [exact (subterms_plain Ht Hs)|].
    apply in_flat_map in Hs. destruct Hs as (it & Hi & Hs). apply in_flat_map in Hs. destruct Hs as (f & Hf & Hs).
    unfold plain_program in Hp. rewrite Forall_forall in Hp. specialize (Hp it Hi). rewrite Forall_forall in Hp.
    exact (subterms_plain (Hp f Hf) Hs).
  Qed.
  Lemma reach_parts t s r : plain t -> In s (reach t) -> part_of p r s -> In r (reach t).
  Proof.
    intros Ht Hs Hr. pose proof (reach_plain Ht Hs) as Ps. destruct (is_named s) eqn:En.
    - destruct s as [| | | | | | | | |d ts ls]; try discriminate En. destruct Ps as [-> ->].
      unfold part_of in Hr. cbn [parts] in Hr. destruct (nth_error p d) as [it|] eqn:E; [|contradiction Hr].
      apply nth_error_In in E. apply in_map_iff in Hr. destruct Hr as (f & <- & Hf).
      assert (Pf : plain f).
      { unfold plain_program in Hp. rewrite Forall_forall in Hp. specialize (Hp it E). rewrite Forall_forall in Hp. auto. }
      cbn [map]. rewrite (plain_inst _ Pf). apply in_app_iff. right. apply in_flat_map. exists it. split; [exact E|].
      apply in_flat_map. exists f. split; [exact Hf|apply subterms_self].
    - apply in_app_iff in Hs. apply in_app_iff. destruct Hs as [Hs|Hs]; [left; exact (subterms_parts Hs En Hr)|right].
      apply in_flat_map in Hs. destruct Hs as (it & Hi & Hs). apply in_flat_map in Hs. destruct Hs as (f & Hf & Hs).
      apply in_flat_map. exists it. split; [exact Hi|]. apply in_flat_map. exists f. split; [exact Hf|].
      exact (subterms_parts Hs En Hr).
  Qed.

  Lemma acyclic_finite t : plain t -> (forall s, s = t \/ inside p s t -> ~ inside p s s) -> finite_type p t.
  Proof.
    intros Ht Hc.
    assert (G : forall n vis s, (length (reach t) < n + length vis)%nat -> In s (reach t) -> (s = t \/ inside p s t) ->
      NoDup vis -> incl vis (reach t) -> (forall v, In v vis -> inside p s v) -> Acc (part_of p) s).
    { induction n as [|n IH]; intros vis s Hn Hs Hst Hd Hi Hv.
      - pose proof (NoDup_incl_length Hd Hi) as H. cbn [plus] in Hn. lia.
      - constructor. intros r Hr. apply (IH (s :: vis)).
        + cbn [length]. lia.
        + exact (reach_parts Ht Hs Hr).
        + right. destruct Hst as [->|Hst]; [apply t_step, Hr|]. eapply t_trans; [apply t_step, Hr|exact Hst].
        + constructor; [|exact Hd]. intros H. exact (Hc s Hst (Hv s H)).
        + intros x [<-|Hx]; [exact Hs|exact (Hi x Hx)].
        + intros v [<-|H]; [apply t_step, Hr|]. eapply t_trans; [apply t_step, Hr|exact (Hv v H)]. }
    apply (G (S (length (reach t))) [] t).
    - cbn [length]. lia.
    - apply in_app_iff. left. apply subterms_self.
    - left. reflexivity.
    - constructor.
    - intros x [].
    - intros v [].
  Qed.
End Plain.

Lemma no_bound_added (p : program) it i : In (GVar i) (body_types (it_body it)) -> ~ In i (it_bounds it) ->
  impl_accepted p it = false.
Proof.
  intros H1 H2. apply not_true_is_false. intros H. unfold impl_accepted in H. rewrite forallb_forall in H.
  specialize (H _ H1). cbn [implements] in H. apply H2, existsb_in, H.
Qed.
Lemma instances_lawful {cfg : Config} (p : program) t : program_accepted p = true -> implements p [] t = true -> finite_type p t ->
  exists limit u, (forall m, (limit <= m)%nat -> unfold p m t = Some u) /\
    forall n, ORDINAL_SIZE (impl_of u) = Val n -> ordinal_bijection (impl_of u) n.
Proof.
  intros H1 H2 H3. destruct (finite_unfolds H1 H2 H3) as (n & u & H). exists n, u. split; [exact H|].
  intros k Hk. exact (composed_bijection Hk).
Qed.
Lemma cycle_rejected (p : program) s t : inside p s s -> (s = t \/ inside p s t) -> forall limit, unfold p limit t = None.
Proof. intros H1 H2. exact (endless_rejected (cycle_endless H1 H2)). Qed.
Lemma plain_exact (p : program) t : plain_program p -> plain t ->
  (finite_type p t <-> forall s, s = t \/ inside p s t -> ~ inside p s s).
Proof.
  intros Hp Ht. split.
  - intros H s Hs Hc. exact (cycle_endless Hc Hs H).
  - apply acyclic_finite; assumption.
Qed.
