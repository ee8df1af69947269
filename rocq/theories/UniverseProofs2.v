(** * UniverseProofs2: counting the values of type expressions. *)
From Verif Require Import Base Spec SpecDerive SpecUniverse ModelOrdinal ModelArrayBuilder
  ModelDerive ModelUniverse BaseProofs OrdinalProofs ArrayProofs DeriveProofs DeriveProofs2
  DeriveProofs3 OrdinalProofs2 IterLib ValuesProofs MapLib MapProofs4 UniverseProofs.
From Coq Require Import List.
Import ListNotations.
Unset Strict Implicit.

(** ** Counting *)
Lemma hv_unique T n m : has_values T n -> has_values T m -> n = m.
Proof.
  intros (l & N1 & A1 & <-) (l' & N2 & A2 & <-).
  assert (length l <= length l')%nat by (apply NoDup_incl_length; [exact N1|intros x _; apply A2]).
  assert (length l' <= length l)%nat by (apply NoDup_incl_length; [exact N2|intros x _; apply A1]).
  f_equal. lia.
Qed.

Lemma hv_bij {cfg : Config} {T} (O : Ordinal T) n : ordinal_bijection O n -> has_values T n.
Proof.
  intros HO. destruct (all_values_law HO) as (l & s & He & Hn & _).
  exists l. split; [|split].
  - destruct (enumeration_numbered HO He) as [H _]. exact (numbered_NoDup H).
  - apply He.
  - exact Hn.
Qed.

Lemma NoDup_map {A B} (f : A -> B) l : (forall a b, f a = f b -> a = b) -> NoDup l -> NoDup (map f l).
Proof.
  intros Hf. induction 1 as [|a l H1 H2 IH]; cbn; constructor; [|exact IH].
  intros H. apply in_map_iff in H. destruct H as (b & E & Hb). apply Hf in E. subst. contradiction.
Qed.

Lemma hv_iso {A B} (f : A -> B) n :
  (forall a b, f a = f b -> a = b) -> (forall b, exists a, f a = b) ->
  has_values A n -> has_values B n.
Proof.
  intros Hi Hs (l & N1 & A1 & E). exists (map f l). split; [apply NoDup_map; assumption|].
  split; [|rewrite map_length; exact E].
  intros b. destruct (Hs b) as (a & <-). apply in_map, A1.
Qed.

Lemma NoDup_app_disjoint {A} (a b : list A) :
  NoDup a -> NoDup b -> (forall x, In x a -> ~ In x b) -> NoDup (a ++ b).
Proof.
  intros Ha Hb. induction Ha as [|x a H1 H2 IH]; intros Hd; [exact Hb|].
  cbn. constructor.
  - rewrite in_app_iff. intros [H|H]; [contradiction|]. exact (Hd x (or_introl eq_refl) H).
  - apply IH. intros y Hy. apply Hd. right. exact Hy.
Qed.

Lemma hv_sum {A B} n m : has_values A n -> has_values B m -> has_values (A + B) (n + m).
Proof.
  intros (l & N1 & A1 & <-) (l' & N2 & A2 & <-). exists (map inl l ++ map inr l'). split; [|split].
  - apply NoDup_app_disjoint; try (apply NoDup_map; [intros ? ? E; injection E; auto|assumption]).
    intros x H1 H2. apply in_map_iff in H1, H2. destruct H1 as (? & <- & _), H2 as (? & E & _). discriminate.
  - intros [a|b]; apply in_app_iff; [left|right]; apply in_map; auto.
  - rewrite app_length, !map_length. lia.
Qed.

Lemma hv_unit : has_values unit 1.
Proof. exists [tt]. split; [repeat constructor; auto|]. split; [intros []; left; reflexivity|reflexivity]. Qed.

Lemma hv_empty : has_values Empty_set 0.
Proof. exists []. split; [constructor|]. split; [intros []|reflexivity]. Qed.

Lemma list_prod_NoDup {A B} (l : list A) (l' : list B) : NoDup l -> NoDup l' -> NoDup (list_prod l l').
Proof.
  intros H Hl'. induction H as [|a l H1 H2 IH]; cbn; [constructor|].
  apply NoDup_app_disjoint; [|exact IH|].
  - apply NoDup_map; [intros ? ? E; congruence|exact Hl'].
  - intros [x y] H3 H4. apply in_map_iff in H3. destruct H3 as (? & E & _). injection E as <- <-.
    apply in_prod_iff in H4. destruct H4. contradiction.
Qed.

Lemma hv_prod {A B} n m : has_values A n -> has_values B m -> has_values (A * B) (n * m).
Proof.
  intros (l & N1 & A1 & <-) (l' & N2 & A2 & <-). exists (list_prod l l'). split; [|split].
  - apply list_prod_NoDup; assumption.
  - intros [a b]. apply in_prod; auto.
  - rewrite prod_length. lia.
Qed.

Lemma hv_option {A} n : has_values A n -> has_values (option A) (n + 1).
Proof.
  intros H. apply (@hv_iso (A + unit) (option A) (fun x => match x with inl a => Some a | inr _ => None end)).
  - intros [a|[]] [b|[]] E; congruence.
  - intros [a|]; [exists (inl a)|exists (inr tt)]; reflexivity.
  - apply hv_sum; [exact H|apply hv_unit].
Qed.

Lemma hv_box {A} n : has_values A n -> has_values (box A) n.
Proof.
  apply (@hv_iso A (box A) (@Box A)).
  - intros a b E. congruence.
  - intros [a]. exists a. reflexivity.
Qed.

Lemma hv_result {A B} n m : has_values A n -> has_values B m -> has_values (result A B) (n + m).
Proof.
  intros HA HB. apply (@hv_iso (A + B) (result A B) (fun x => match x with inl a => ResOk a | inr b => ResErr b end)).
  - intros [a|b] [a'|b'] E; congruence.
  - intros [a|b]; [exists (inl a)|exists (inr b)]; reflexivity.
  - apply hv_sum; assumption.
Qed.

Lemma hv_either {A B} n m : has_values A n -> has_values B m -> has_values (either A B) (n + m).
Proof.
  intros HA HB. apply (@hv_iso (A + B) (either A B) (fun x => match x with inl a => Left a | inr b => Right b end)).
  - intros [a|b] [a'|b'] E; congruence.
  - intros [a|b]; [exists (inl a)|exists (inr b)]; reflexivity.
  - apply hv_sum; assumption.
Qed.

Lemma hv_tuple fs ns : Forall2 (fun f n => has_values (ft_T f) n) fs ns -> has_values (tuple fs) (product_of ns).
Proof.
  induction 1 as [|f n fs ns H HF IH]; [exact hv_unit|]. apply hv_prod; assumption.
Qed.

Lemma hv_enum vs ns : Forall2 (fun v n => has_values (tuple v) n) vs ns -> has_values (enum_val vs) (sum_of ns).
Proof.
  induction 1 as [|v n vs ns H HF IH]; [exact hv_empty|]. apply hv_sum; assumption.
Qed.

Lemma tuple_list_length f len (t : tuple (repeat f len)) : length (tuple_list f len t) = len.
Proof. induction len as [|k IH]; cbn; [reflexivity|]. f_equal. apply IH. Qed.

Lemma tuple_list_inj f len (t u : tuple (repeat f len)) : tuple_list f len t = tuple_list f len u -> t = u.
Proof.
  induction len as [|k IH]; cbn; intros H.
  - destruct t, u. reflexivity.
  - destruct t as [x t], u as [y u]. cbn in H. injection H as -> H. f_equal. apply IH, H.
Qed.

Lemma tuple_list_surj f len (l : list (ft_T f)) : length l = len -> exists t, tuple_list f len t = l.
Proof.
  revert l. induction len as [|k IH]; intros [|x l] H; try discriminate H.
  - exists tt. reflexivity.
  - injection H as H. destruct (IH _ H) as (t & <-). exists (x, t). reflexivity.
Qed.

Lemma hv_array {T} n len : has_values T n -> has_values (arr T len) (n ^ N.of_nat len).
Proof.
  intros H. set (f := {| ft_T := T; ft_ord := rejected T; ft_lt := fun _ _ => False |}).
  assert (Ht : has_values (tuple (repeat f len)) (product_of (repeat n len))).
  { apply hv_tuple. induction len as [|k IH]; cbn [repeat]; constructor; [exact H|exact IH]. }
  rewrite product_of_repeat in Ht.
  assert (G : forall t : tuple (repeat f len), exists a : arr T len, arr_list a = tuple_list f len t).
  { intros t. destruct (@try_arr_ok T len (tuple_list f len t)) as (a & _ & E); [exact (@tuple_list_length f len t)|].
    exists a. exact E. }
  destruct Ht as (l & N1 & A1 & E).
  assert (exists la : list (arr T len), map (fun a => arr_list a) la = map (tuple_list f len) l) as (la & Ela).
  { clear N1 A1 E. induction l as [|t l (la & IH)]; [exists []; reflexivity|].
    destruct (G t) as (a & Ha). exists (a :: la). cbn. rewrite Ha, IH. reflexivity. }
  exists la. split; [|split].
  - apply (NoDup_map_inv (fun a => arr_list a)). rewrite Ela.
    apply NoDup_map; [exact (@tuple_list_inj f len)|exact N1].
  - intros a. destruct (@tuple_list_surj f len (arr_list a) (arr_length a)) as (t & Et).
    assert (Hin : In (arr_list a) (map (fun a => arr_list a) la)).
    { rewrite Ela. rewrite <- Et. apply in_map, A1. }
    apply in_map_iff in Hin. destruct Hin as (b & Eb & Hb). apply arr_ext in Eb. subst. exact Hb.
  - rewrite <- E. f_equal. rewrite <- (map_length (fun a => arr_list a)), Ela, map_length. reflexivity.
Qed.

(** ** Induction on type expressions *)
Definition decl_tys {A} (d : decl A) : list A := decl_list (fun t => t) d.

Lemma decl_list_map {A B} (f : A -> B) d : decl_list f d = map f (decl_tys d).
Proof.
  destruct d as [|l|l]; cbn; [reflexivity| |].
  - rewrite map_id. reflexivity.
  - rewrite map_map. apply map_ext. intros [x t]. reflexivity.
Qed.

Lemma ty_ind' (P : ty -> Prop) :
  (forall p, P (TPrim p)) ->
  (forall t, P t -> P (TBox t)) ->
  (forall t, P t -> P (TOption t)) ->
  (forall a b, P a -> P b -> P (TResult a b)) ->
  (forall a b, P a -> P b -> P (TEither a b)) ->
  (forall t len, P t -> P (TArray t len)) ->
  (forall ts, Forall P ts -> P (TTuple ts)) ->
  (forall d, Forall P (decl_tys d) -> P (TStruct d)) ->
  (forall vs, Forall (fun v => Forall P (decl_tys (vd_fields v))) vs -> P (TEnum vs)) ->
  forall t, P t.
Proof.
  intros H1 H2 H3 H4 H5 H6 H7 H8 H9. fix IH 1.
  assert (Hd : forall d : decl ty, Forall P (decl_tys d)).
  { intros [|l|l]; cbn.
    - constructor.
    - induction l as [|t l IHl]; cbn; constructor; [apply IH|exact IHl].
    - induction l as [|[x t] l IHl]; cbn; constructor; [apply IH|exact IHl]. }
  intros [p|t|t|a b|a b|t len|ts|d|vs].
  - apply H1.
  - apply H2, IH.
  - apply H3, IH.
  - apply H4; apply IH.
  - apply H5; apply IH.
  - apply H6, IH.
  - apply H7. induction ts as [|t ts IHl]; constructor; [apply IH|exact IHl].
  - apply H8, Hd.
  - apply H9. induction vs as [|[z d] vs IHl]; constructor; [apply Hd|exact IHl].
Qed.
