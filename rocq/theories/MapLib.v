(** * MapLib: lists as storage, deque runs under maps and relations. *)
From Verif Require Import Base Spec SpecMap ModelValues ModelIter BaseProofs IterLib ValuesProofs IterProofs.
From Verif Require Export SpecIter.
From Coq Require Import Permutation List. Import ListNotations.
Unset Strict Implicit.

Lemma deque_step_map {A B} (f : A -> B) d l :
  deque_step d (map f l) = (opt_map f (fst (deque_step d l)), map f (snd (deque_step d l))).
Proof.
  destruct d; cbn [deque_step].
  - destruct l; reflexivity.
  - rewrite <- map_rev. destruct (rev l) as [|x r]; [reflexivity|]. cbn. now rewrite map_rev.
Qed.

Lemma deque_run_map {A B} (f : A -> B) s l :
  deque_run s (map f l) = (map (opt_map f) (fst (deque_run s l)), map f (snd (deque_run s l))).
Proof.
  revert l. induction s as [|d s IH]; intros l; [reflexivity|].
  rewrite !deque_run_cons, deque_step_map. cbn [fst snd map]. rewrite IH. reflexivity.
Qed.

Lemma Forall2_rev {A B} (P : A -> B -> Prop) l l' : Forall2 P l l' -> Forall2 P (rev l) (rev l').
Proof.
  induction 1; cbn [rev]; [constructor|]. apply Forall2_app; [assumption|]. now constructor.
Qed.

Lemma deque_step_rel {A B} (P : A -> B -> Prop) d l l' : Forall2 P l l' ->
  opt_rel P (fst (deque_step d l)) (fst (deque_step d l')) /\
  Forall2 P (snd (deque_step d l)) (snd (deque_step d l')).
Proof.
  intros H. destruct d; cbn [deque_step].
  - inversion H; subst; cbn; auto.
  - apply Forall2_rev in H. inversion H as [|x y r r' Hxy Hr E1 E2]; cbn [fst snd]; [cbn; auto|].
    split; [exact Hxy|]. now apply Forall2_rev.
Qed.

Lemma deque_run_rel {A B} (P : A -> B -> Prop) s l l' : Forall2 P l l' ->
  Forall2 (opt_rel P) (fst (deque_run s l)) (fst (deque_run s l')) /\
  Forall2 P (snd (deque_run s l)) (snd (deque_run s l')).
Proof.
  revert l l'. induction s as [|d s IH]; intros l l' H; [cbn; auto|].
  rewrite !deque_run_cons. cbn [fst snd]. destruct (deque_step_rel d H) as [H1 H2].
  destruct (IH _ _ H2) as [H3 H4]. auto.
Qed.

Lemma drive_map {St A B} (f : A -> B) (step : dir -> St -> res (option A * St))
    (step' : dir -> St -> res (option B * St)) :
  (forall d s o s', step d s = Val (o, s') -> step' d s = Val (opt_map f o, s')) ->
  forall sched s os s', drive step sched s = Val (os, s') ->
    drive step' sched s = Val (map (opt_map f) os, s').
Proof.
  intros Hs sched. induction sched as [|d sched IH]; intros s os s' H; cbn [drive] in *.
  - injection H as <- <-. reflexivity.
  - apply bind_inv in H. destruct H as ([o s1] & E1 & H). rewrite (Hs _ _ _ _ E1). cbn [bind].
    apply bind_inv in H. destruct H as ([os' s2] & E2 & H). injection H as <- <-.
    rewrite (IH _ _ _ E2). reflexivity.
Qed.

Lemma collect_map {St A B} (f : A -> B) (next : St -> res (option A * St))
    (next' : St -> res (option B * St)) :
  (forall s o s', next s = Val (o, s') -> next' s = Val (opt_map f o, s')) ->
  forall fuel s l s', collect next fuel s = Val (l, s') -> collect next' fuel s = Val (map f l, s').
Proof.
  intros Hs fuel. induction fuel as [|fuel IH]; intros s l s' H; cbn [collect] in *; [discriminate|].
  apply bind_inv in H. destruct H as ([o s1] & E1 & H). rewrite (Hs _ _ _ E1). cbn [bind].
  destruct o as [a|]; cbn [opt_map].
  - apply bind_inv in H. destruct H as ([os' s2] & E2 & H). injection H as <- <-.
    rewrite (IH _ _ _ E2). reflexivity.
  - injection H as <- <-. reflexivity.
Qed.

(** The handed-out items are an interleaving of a prefix and a reversed suffix. *)
Lemma deque_run_perm {A} s : forall (l : list A), exists a b,
  l = a ++ snd (deque_run s l) ++ rev b /\ Permutation (somes (fst (deque_run s l))) (a ++ b).
Proof.
  induction s as [|d s IH]; intros l.
  - exists [], []. cbn. rewrite app_nil_r. split; [reflexivity|constructor].
  - rewrite deque_run_cons. cbn [fst snd]. destruct (IH (snd (deque_step d l))) as (a & b & H1 & H2).
    destruct d.
    + destruct l as [|x l].
      * exists a, b. split; [exact H1|]. exact H2.
      * cbn [deque_step fst snd] in *. exists (x :: a), b. split; [cbn; now rewrite <- H1|].
        cbn [somes flat_map app]. now constructor.
    + destruct l as [|x l _] using rev_ind.
      * exists a, b. split; [exact H1|]. exact H2.
      * rewrite deque_back in *. cbn [fst snd] in *. exists a, (x :: b). split.
        -- cbn [rev]. rewrite H1 at 1. now rewrite <- !app_assoc.
        -- cbn [somes flat_map app]. apply Permutation_cons_app. exact H2.
Qed.

Lemma deque_run_parts {A} s (l : list A) : exists a b,
  l = a ++ snd (deque_run s l) ++ rev b /\
  (forall x, In x (somes (fst (deque_run s l))) <-> In x a \/ In x b) /\
  (NoDup l -> NoDup (somes (fst (deque_run s l)))).
Proof.
  destruct (deque_run_perm s l) as (a & b & H1 & H2). exists a, b. split; [exact H1|]. split.
  - intros x. rewrite <- in_app_iff. split; apply Permutation_in; [exact H2|now apply Permutation_sym].
  - intros H. apply Permutation_sym in H2. eapply Permutation_NoDup; [exact H2|].
    eapply Permutation_NoDup with (l := a ++ rev b).
    + apply Permutation_app_head. apply Permutation_sym, Permutation_rev.
    + rewrite H1 in H. revert H. generalize (snd (deque_run s l)). intros r H.
      assert (P : Permutation (a ++ r ++ rev b) (r ++ a ++ rev b)).
      { rewrite !app_assoc. apply Permutation_app_tail. apply Permutation_app_comm. }
      apply (Permutation_NoDup P) in H. clear P H1 H2.
      induction r as [|x r IH]; [exact H|]. inversion H; auto.
Qed.

Lemma somes_map {A B} (f : A -> B) l : somes (map (opt_map f) l) = map f (somes l).
Proof.
  induction l as [|[a|] l IH]; [reflexivity| |]; cbn [map opt_map somes flat_map app];
    fold (somes l) (somes (map (opt_map f) l)); now rewrite IH.
Qed.

(** ** Storage *)
Lemma list_set_length {A} (l : list A) i a : length (list_set l i a) = length l.
Proof. revert i. induction l as [|x l IH]; intros [|i]; cbn; auto. Qed.

Lemma store_at_length {A} (l : list A) i a : length (store_at l i a) = length l.
Proof. apply list_set_length. Qed.

Lemma nth_error_list_set {A} (l : list A) i j a : (i < length l)%nat ->
  nth_error (list_set l i a) j = if Nat.eq_dec i j then Some a else nth_error l j.
Proof.
  revert i j. induction l as [|x l IH]; intros [|i] [|j] H; cbn [length list_set nth_error] in *; try lia; auto.
  rewrite IH by lia. destruct (Nat.eq_dec i j), (Nat.eq_dec (S i) (S j)); auto; lia.
Qed.

Lemma list_set_app {A} (l1 l2 : list A) x y : list_set (l1 ++ x :: l2) (length l1) y = l1 ++ y :: l2.
Proof. induction l1; cbn; [reflexivity|]. now f_equal. Qed.

Lemma nth_error_app_at {A} (l1 l2 : list A) x : nth_error (l1 ++ x :: l2) (length l1) = Some x.
Proof. induction l1; cbn; auto. Qed.

Lemma deref_slot {A} (l1 l2 : list A) x i : i = llen l1 -> deref (l1 ++ x :: l2) i = Val x.
Proof.
  intros ->. unfold deref, slice_get, llen. rewrite Nat2N.id, nth_error_app_at. reflexivity.
Qed.

Lemma store_slot {A} (l1 l2 : list A) x y i : i = llen l1 -> store_at (l1 ++ x :: l2) i y = l1 ++ y :: l2.
Proof. intros ->. unfold store_at, llen. rewrite Nat2N.id. apply list_set_app. Qed.

Section Keys.
  Context {cfg : Config} {K : Type} (O : Ordinal K) (n : N) (HO : ordinal_bijection O n).

  Lemma numbered_nth a (l : list K) j k : numbered O a l -> nth_error l j = Some k ->
    ordinal O k = Val (a + N.of_nat j).
  Proof.
    intros H. revert j. induction H as [a|a t l H1 H2 H IH]; intros [|j] E; try discriminate E.
    - injection E as ->. rewrite N.add_0_r. exact H2.
    - rewrite (IH j E). f_equal. lia.
  Qed.

  Lemma numbered_at (l : list K) k i : numbered O 0 l -> ordinal O k = Val i -> i < llen l ->
    nth_error l (N.to_nat i) = Some k.
  Proof.
    intros H Hk Hi. destruct (nth_error l (N.to_nat i)) as [k'|] eqn:E.
    - pose proof (@numbered_nth _ _ _ _ H E) as E'. rewrite N2Nat.id in E'. cbn in E'.
      f_equal. eapply bij_inj; eauto.
    - apply nth_error_None in E. unfold llen in Hi. lia.
  Qed.

  Lemma numbered_NoDup a (l : list K) : numbered O a l -> NoDup l.
  Proof.
    induction 1 as [a|a t l H1 H2 H IH]; constructor; [|exact IH].
    intros Hin. destruct (@numbered_In _ _ _ _ _ H Hin) as (i & Hi & Hr). assert (i = a) by congruence. lia.
  Qed.

  (** Splitting a numbered list at a key. *)
  Lemma numbered_split (l : list K) k i : numbered O 0 l -> ordinal O k = Val i -> i < llen l ->
    exists l1 l2, l = l1 ++ k :: l2 /\ i = llen l1 /\ ~ In k l1 /\ ~ In k l2.
  Proof.
    intros H Hk Hi. pose proof (numbered_at H Hk Hi) as E.
    apply nth_error_split in E. destruct E as (l1 & l2 & -> & Hlen).
    exists l1, l2. split; [reflexivity|]. split; [unfold llen; lia|].
    apply numbered_NoDup in H. apply NoDup_remove_2 in H. rewrite in_app_iff in H. tauto.
  Qed.

  Lemma enumeration_lt ks k i : enumeration O ks -> ordinal O k = Val i -> i < llen ks.
  Proof.
    intros He Hk. destruct (enumeration_numbered HO He) as [_ ->].
    destruct (bij_to HO k) as (j & Hj & Hlt & _). congruence.
  Qed.

  Lemma map_set {V} eqd (ks l1 l2 : list K) k (m : tmap K V) v : ks = l1 ++ k :: l2 ->
    ~ In k l1 -> ~ In k l2 -> map (tm_set eqd m k v) ks = map m l1 ++ v :: map m l2.
  Proof.
    intros -> H1 H2. rewrite map_app. cbn [map]. unfold tm_set at 2.
    destruct (eqd k k) as [_|E]; [|congruence].
    assert (G : forall l, ~ In k l -> map (tm_set eqd m k v) l = map m l).
    { intros l Hl. apply map_ext_in. intros x Hx. unfold tm_set.
      destruct (eqd k x) as [->|_]; [contradiction|reflexivity]. }
    now rewrite !G.
  Qed.

  (** Reading and writing the slot of a key. *)
  Lemma slot_get {V} (ks : list K) (m : tmap K V) k i : numbered O 0 ks ->
    ordinal O k = Val i -> i < llen ks -> slice_get (map m ks) i = Some (m k).
  Proof.
    intros H Hk Hi. unfold slice_get. rewrite nth_error_map, (numbered_at H Hk Hi). reflexivity.
  Qed.

  Lemma slot_store {V} eqd (ks : list K) (m : tmap K V) k i v : numbered O 0 ks ->
    ordinal O k = Val i -> i < llen ks -> store_at (map m ks) i v = map (tm_set eqd m k v) ks.
  Proof.
    intros H Hk Hi. destruct (numbered_split H Hk Hi) as (l1 & l2 & E & Ei & H1 & H2).
    rewrite (map_set eqd m v E H1 H2). subst ks. rewrite map_app. cbn [map].
    apply store_slot. unfold llen in *. rewrite map_length. exact Ei.
  Qed.

  Lemma slot_index {V} (ks : list K) (m : tmap K V) k i : numbered O 0 ks ->
    ordinal O k = Val i -> i < llen ks -> index (map m ks) i = Val (m k).
  Proof.
    intros H Hk Hi. unfold index. fold (slice_get (map m ks) i).
    now rewrite (slot_get m H Hk Hi).
  Qed.

  Lemma slot_deref {V} (ks : list K) (m : tmap K V) k i : numbered O 0 ks ->
    ordinal O k = Val i -> i < llen ks -> deref (map m ks) i = Val (m k).
  Proof. intros H Hk Hi. unfold deref. now rewrite (slot_get m H Hk Hi). Qed.

  (** ** Entries *)
  Lemma pm_entries_app {V} (l1 l2 : list K) (m : pmap K V) :
    pm_entries (l1 ++ l2) m = pm_entries l1 m ++ pm_entries l2 m.
  Proof. induction l1 as [|k l1 IH]; [reflexivity|]. cbn. destruct (m k); cbn; now rewrite IH. Qed.

  Lemma pm_entries_In {V} (l : list K) (m : pmap K V) k v :
    In (k, v) (pm_entries l m) <-> In k l /\ m k = Some v.
  Proof.
    induction l as [|x l IH]; cbn; [tauto|]. destruct (m x) as [w|] eqn:E; cbn; rewrite IH; split.
    - intros [[= -> ->]|[H1 H2]]; auto.
    - intros [[->|H1] H2]; auto. left. congruence.
    - intros [H1 H2]; auto.
    - intros [[->|H1] H2]; auto. congruence.
  Qed.

  Lemma pm_entries_fst_In {V} (l : list K) (m : pmap K V) k :
    In k (map fst (pm_entries l m)) <-> In k l /\ m k <> None.
  Proof.
    rewrite in_map_iff. split.
    - intros ([k' v] & <- & H). apply pm_entries_In in H. cbn. destruct H. split; congruence.
    - intros [H1 H2]. destruct (m k) as [v|] eqn:E; [|congruence]. exists (k, v). split; [reflexivity|].
      apply pm_entries_In. auto.
  Qed.

  Lemma pm_entries_NoDup {V} (l : list K) (m : pmap K V) : NoDup l -> NoDup (map fst (pm_entries l m)).
  Proof.
    induction 1 as [|k l Hk H IH]; [constructor|]. cbn. destruct (m k) as [v|]; [|exact IH].
    cbn. constructor; [|exact IH]. rewrite pm_entries_fst_In. tauto.
  Qed.

  Lemma pm_entries_ext {V} (l : list K) (m m' : pmap K V) :
    (forall k, In k l -> m k = m' k) -> pm_entries l m = pm_entries l m'.
  Proof.
    induction l as [|k l IH]; intros H; [reflexivity|]. cbn.
    rewrite (H k) by (left; reflexivity). rewrite IH; [reflexivity|].
    intros x Hx. apply H. now right.
  Qed.

  Lemma pm_entries_none {V} (l : list K) (m : pmap K V) :
    (forall k, In k l -> m k = None) -> pm_entries l m = [].
  Proof.
    induction l as [|k l IH]; intros H; [reflexivity|]. cbn. rewrite (H k) by (left; reflexivity).
    apply IH. intros x Hx. apply H. now right.
  Qed.
End Keys.
