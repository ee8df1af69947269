(** * MapProofs3: the iterators of the sparse maps. *)
From Verif Require Import Base Spec SpecMap SpecTotal SpecIter SpecApi ModelOrdinal ModelValues ModelArrayBuilder ModelIter
  ModelTotal ModelMap MapMachine BaseProofs IterLib ValuesProofs IterProofs MapLib MapIterProofs MapMutProofs
  MapProofs ArrayProofs TotalProofs MapProofs2.
From Coq Require Import List. Import ListNotations.
Unset Strict Implicit.

(** ** Generic *)
Lemma double_ended_from {It A} (step : dir -> It -> res (option A * It)) (R : It -> list A -> Prop)
    (s : It) l (P : It -> list A -> Prop) :
  refines step R -> R s l -> (forall s' l', R s' l' -> P s' l') -> double_ended step s l P.
Proof.
  intros HR H HP sched. destruct (@drive_refines _ _ _ _ HR sched s l H) as (s' & E & H').
  exists s'. split; [exact E|]. now apply HP.
Qed.

Lemma double_ended_map {It A B} (f : A -> B) (step : dir -> It -> res (option A * It))
    (step' : dir -> It -> res (option B * It)) s l (P : It -> list A -> Prop) (P' : It -> list B -> Prop) :
  (forall d s o s', step d s = Val (o, s') -> step' d s = Val (opt_map f o, s')) ->
  (forall s l, P s l -> P' s (map f l)) ->
  double_ended step s l P -> double_ended step' s (map f l) P'.
Proof.
  intros Hs HP H sched. destruct (H sched) as (s' & E & Hp). exists s'. rewrite deque_run_map. cbn [fst snd].
  split; [|now apply HP]. exact (drive_map Hs E).
Qed.

Lemma double_ended_collects {It A} (step : dir -> It -> res (option A * It)) (R : It -> list A -> Prop) s l :
  refines step R -> R s l -> collects step s l.
Proof.
  intros HR H. destruct (@collect_refines _ _ _ _ HR (S (length l)) s l H) as (s' & E & _); [lia|].
  exists (S (length l)), s'. exact E.
Qed.

(** A refinement up to a relation on items. *)
Definition refines_rel {It A B} (rel : A -> B -> Prop) (step : dir -> It -> res (option A * It))
    (R : It -> list B -> Prop) : Prop :=
  forall d s l, R s l -> exists o s', step d s = Val (o, s') /\
    opt_rel rel o (fst (deque_step d l)) /\ R s' (snd (deque_step d l)).

Lemma double_ended_rel_from {It A B} (rel : A -> B -> Prop) (step : dir -> It -> res (option A * It))
    (R : It -> list B -> Prop) s l (P : It -> list B -> Prop) :
  refines_rel rel step R -> R s l -> (forall s' l', R s' l' -> P s' l') -> double_ended_rel rel step s l P.
Proof.
  intros HR H HP sched. revert s l H. induction sched as [|d sched IH]; intros s l H.
  - exists [], s. split; [reflexivity|]. split; [constructor|]. now apply HP.
  - destruct (HR d s l H) as (o & s1 & E1 & Ho & H1). destruct (IH s1 _ H1) as (got & s2 & E2 & Hg & H2).
    exists (o :: got), s2. rewrite deque_run_cons. cbn [fst snd drive]. rewrite E1. cbn [bind]. rewrite E2.
    split; [reflexivity|]. split; [constructor; assumption|exact H2].
Qed.

Lemma collect_S {St A} (next : St -> res (option A * St)) fuel s :
  collect next (S fuel) s =
  ('(o, s1) <- next s ;;
   match o with
   | None => Val ([], s1)
   | Some a => '(l, s2) <- collect next fuel s1 ;; Val (a :: l, s2)
   end).
Proof. reflexivity. Qed.

Lemma collects_rel_from {It A B} (rel : A -> B -> Prop) (step : dir -> It -> res (option A * It))
    (R : It -> list B -> Prop) s l :
  refines_rel rel step R -> R s l -> collects_rel rel step s l.
Proof.
  intros HR H. exists (S (length l)).
  assert (G : forall l s, R s l -> exists got s', collect (step Front) (S (length l)) s = Val (got, s') /\ Forall2 rel got l).
  { clear -HR. intros l. induction l as [|b l IH]; intros s H; destruct (HR Front s _ H) as (o & s1 & E1 & Ho & H1);
      cbn [deque_step fst snd] in *; cbn [length]; rewrite collect_S, E1; cbn [bind].
    - destruct o as [a|]; [destruct Ho|]. exists [], s1. split; [reflexivity|constructor].
    - destruct o as [a|]; [|destruct Ho]. destruct (IH s1 H1) as (got & s2 & E2 & Hg).
      rewrite E2. cbn [bind]. exists (a :: got), s2. split; [reflexivity|]. constructor; assumption. }
  exact (G l s H).
Qed.

Lemma double_ended_rel_map {It A B A'} (f : A -> A') (rel : A -> B -> Prop) (rel' : A' -> B -> Prop)
    (step : dir -> It -> res (option A * It)) (step' : dir -> It -> res (option A' * It)) s l
    (P P' : It -> list B -> Prop) :
  (forall d s o s', step d s = Val (o, s') -> step' d s = Val (opt_map f o, s')) ->
  (forall a b, rel a b -> rel' (f a) b) -> (forall s l, P s l -> P' s l) ->
  double_ended_rel rel step s l P -> double_ended_rel rel' step' s l P'.
Proof.
  intros Hs Hr HP H sched. destruct (H sched) as (got & s' & E & HF & Hp).
  exists (map (opt_map f) got), s'. split; [exact (drive_map Hs E)|]. split; [|now apply HP].
  clear -HF Hr. induction HF as [|a b got0 l0 Hab HF IH]; [constructor|]. cbn [map]. constructor; [|exact IH].
  destruct a, b; cbn in *; auto.
Qed.

(** Sorted lists with the same members are equal. *)
Lemma sorted_unique {A} (R : A -> A -> Prop) :
  (forall x y, R x y -> R y x -> False) -> forall l1 l2,
  StronglySorted R l1 -> StronglySorted R l2 -> (forall x, In x l1 <-> In x l2) -> l1 = l2.
Proof.
  intros Hanti l1. induction l1 as [|x l1 IH]; intros [|y l2] H1 H2 Hin.
  - reflexivity.
  - exfalso. apply (Hin y). now left.
  - exfalso. apply (Hin x). now left.
  - inversion H1 as [|? ? H1' F1]; subst. inversion H2 as [|? ? H2' F2]; subst.
    rewrite Forall_forall in F1, F2.
    assert (x = y) as ->.
    { destruct (proj1 (Hin x) (or_introl eq_refl)) as [<-|Hx]; [reflexivity|].
      destruct (proj2 (Hin y) (or_introl eq_refl)) as [->|Hy]; [reflexivity|].
      exfalso. exact (Hanti _ _ (F1 y Hy) (F2 x Hx)). }
    f_equal. apply IH; [exact H1'|exact H2'|]. intros z. split; intros Hz.
    + destruct (proj1 (Hin z) (or_intror Hz)) as [<-|Hz']; [|exact Hz'].
      exfalso. exact (Hanti _ _ (F1 _ Hz) (F1 _ Hz)).
    + destruct (proj2 (Hin z) (or_intror Hz)) as [<-|Hz']; [|exact Hz'].
      exfalso. exact (Hanti _ _ (F2 _ Hz) (F2 _ Hz)).
Qed.

Lemma before_anti {T} (O : Ordinal T) x y : ordinal_before O x y -> ordinal_before O y x -> False.
Proof.
  intros (i & j & H1 & H2 & H3) (k & m & H4 & H5 & H6).
  assert (i = m) by congruence. assert (j = k) by congruence. lia.
Qed.

Lemma sorted_fst {K V} (O : Ordinal K) (l : list (K * V)) :
  StronglySorted (ordinal_before O) (map fst l) ->
  StronglySorted (fun p q => ordinal_before O (fst p) (fst q)) l.
Proof.
  induction l as [|p l IH]; intros H; [constructor|]. cbn [map] in H. inversion H as [|? ? H' F]; subst.
  constructor; [now apply IH|]. rewrite Forall_forall in *. intros q Hq. apply F. now apply in_map.
Qed.

Section SparseIter.
  Context {cfg : Config} {K V : Type} (O : Ordinal K) (n : N) (HO : ordinal_bijection O n).
  Implicit Types m : pmap K V.

  Lemma lists_unique (get : K -> res (option V)) l l' :
    lists_entries O get l -> lists_entries O get l' -> l = l'.
  Proof.
    intros [H1 S1] [H2 S2]. apply (@sorted_unique _ (fun p q => ordinal_before O (fst p) (fst q))).
    - intros x y. apply before_anti.
    - now apply sorted_fst.
    - now apply sorted_fst.
    - intros [k v]. rewrite H1, H2. reflexivity.
  Qed.

  Lemma sorted_sub (ks : list K) m : StronglySorted (ordinal_before O) ks ->
    StronglySorted (ordinal_before O) (map fst (pm_entries ks m)).
  Proof.
    induction 1 as [|k l H IH F]; [constructor|]. cbn. destruct (m k) as [v|]; [|exact IH].
    cbn. constructor; [exact IH|]. rewrite Forall_forall in *. intros x Hx. apply F.
    now apply pm_entries_fst_In in Hx.
  Qed.

  Lemma entries_listed (ks : list K) m (get : K -> res (option V)) :
    enumeration O ks -> (forall k, get k = Val (m k)) -> lists_entries O get (pm_entries ks m).
  Proof.
    intros [Ha Hs] Hg. split; [|now apply sorted_sub]. intros k v. rewrite pm_entries_In, Hg. split.
    - intros [_ ->]. reflexivity.
    - intros [= E]. split; [apply Ha|exact E].
  Qed.

  Notation ident := (fun o : option V => o).
  Notation idrt := (fun o : option V => Val o).

  Lemma spending_debug_id (s : @Iter V) l : spending O n idrt ident s l -> Iter_debug O s = Val l.
  Proof. apply (Iter_debug_ok HO). Qed.

  Section Store.
    Context (ks : list K) (Hks : key_slots O n ks) (m : pmap K V).

    Definition it0 : enumerate (option V) := {| e_next := 0; e_items := map m ks |}.
    Definition mt0 : enumerate N := {| e_next := 0; e_items := slots (length (map m ks)) |}.

    Lemma it0_ok : spending O n idrt ident it0 (pm_entries ks m).
    Proof. exact (iter_init m Hks). Qed.

    (** Facts about a shared iterator at any point. *)
    Definition iter_facts (s : @Iter V) (l : list (K * V)) : Prop :=
      hint_ok (Iter_size_hint s) (llen l) /\
      Iter_debug O s = Val l /\
      double_ended (Iter_step O) (Iter_clone s) l anything.

    Lemma iter_facts_ok s l : spending O n idrt ident s l -> iter_facts s l.
    Proof.
      intros H. split; [|split].
      - split; cbn; [lia|]. unfold TIter_len. exact (spending_hint H).
      - exact (Iter_debug_ok HO H).
      - rewrite Iter_clone_id. exact (double_ended_from (@Iter_refines _ _ _ _ HO V) H (fun _ _ _ => I)).
    Qed.

    Lemma de_iter : double_ended (Iter_step O) it0 (pm_entries ks m) iter_facts.
    Proof. exact (double_ended_from (@Iter_refines _ _ _ _ HO V) it0_ok iter_facts_ok). Qed.

    Definition keys_facts (s : @Keys V) (l : list K) : Prop :=
      hint_ok (Keys_size_hint s) (llen l) /\ Keys_debug O s = Val l /\
      double_ended (Keys_step O) (Keys_clone s) l anything.
    Definition values_facts (s : @Values V) (l : list V) : Prop :=
      hint_ok (Values_size_hint s) (llen l) /\ Values_debug O s = Val l /\
      double_ended (Values_step O) (Values_clone s) l anything.

    Lemma llen_map {A B} (f : A -> B) l : llen (map f l) = llen l.
    Proof. unfold llen. now rewrite map_length. Qed.

    Lemma keys_facts_ok s l : spending O n idrt ident s l -> keys_facts s (map fst l).
    Proof.
      intros H. destruct (iter_facts_ok H) as (H1 & H2 & H3). split; [|split].
      - rewrite llen_map. exact H1.
      - exact (Keys_debug_ok HO H).
      - eapply double_ended_map; [apply keys_step_map| |exact H3]. intros; exact I.
    Qed.
    Lemma values_facts_ok s l : spending O n idrt ident s l -> values_facts s (map snd l).
    Proof.
      intros H. destruct (iter_facts_ok H) as (H1 & H2 & H3). split; [|split].
      - rewrite llen_map. exact H1.
      - exact (Values_debug_ok HO H).
      - eapply double_ended_map; [apply values_step_map| |exact H3]. intros; exact I.
    Qed.

    Lemma de_keys : double_ended (Keys_step O) (it0 : @Keys V) (map fst (pm_entries ks m)) keys_facts.
    Proof.
      eapply double_ended_map; [apply keys_step_map|apply keys_facts_ok|].
      exact (double_ended_from (@Iter_refines _ _ _ _ HO V) it0_ok (fun _ _ H => H)).
    Qed.
    Lemma de_values : double_ended (Values_step O) (it0 : @Values V) (map snd (pm_entries ks m)) values_facts.
    Proof.
      eapply double_ended_map; [apply values_step_map|apply values_facts_ok|].
      exact (double_ended_from (@Iter_refines _ _ _ _ HO V) it0_ok (fun _ _ H => H)).
    Qed.

    Definition into_facts (s : @IntoIter V) (l : list (K * V)) : Prop :=
      hint_ok (IntoIter_size_hint s) (llen l) /\ IntoIter_debug O s = Val l /\
      forall cl, double_ended (IntoIter_step O) (IntoIter_clone cl s)
        (map (fun kv => (fst kv, cl (snd kv))) l) anything.
    Lemma into_facts_ok s l : spending O n idrt ident s l -> into_facts s l.
    Proof.
      intros H. split; [|split].
      - split; cbn; [lia|]. exact (spending_hint H).
      - unfold IntoIter_debug, IntoIter_iter, Iter_new, TIntoIter_iter, TIter_new, enumerate_new.
        destruct s as [a l0]. exact (Iter_debug_ok HO H).
      - intros cl. exact (double_ended_from (@IntoIter_refines _ _ _ _ HO V) (spending_clone cl H) (fun _ _ _ => I)).
    Qed.
    Lemma de_into : double_ended (IntoIter_step O) (it0 : @IntoIter V) (pm_entries ks m) into_facts.
    Proof. exact (double_ended_from (@IntoIter_refines _ _ _ _ HO V) it0_ok into_facts_ok). Qed.

    Definition into_array_facts (s : @IntoIterArray V) (l : list (K * V)) : Prop :=
      hint_ok (IntoIterArray_size_hint s) (llen l) /\ IntoIterArray_debug O s = Val l /\
      forall cl, double_ended (IntoIterArray_step O) (IntoIterArray_clone cl s)
        (map (fun kv => (fst kv, cl (snd kv))) l) anything.
    Lemma into_array_facts_ok s l : spending O n idrt ident s l -> into_array_facts s l.
    Proof.
      intros H. split; [|split].
      - split; cbn; [lia|exact I].
      - unfold IntoIterArray_debug, IntoIterArray_iter, Iter_new, TIntoIterArray_iter, TIter_new, enumerate_new.
        destruct s as [a l0]. exact (Iter_debug_ok HO H).
      - intros cl. exact (double_ended_from (@IntoIterArray_refines _ _ _ _ HO V) (spending_clone cl H) (fun _ _ _ => I)).
    Qed.
    Lemma de_into_array : double_ended (IntoIterArray_step O) (it0 : @IntoIterArray V) (pm_entries ks m) into_array_facts.
    Proof. exact (double_ended_from (@IntoIterArray_refines _ _ _ _ HO V) it0_ok into_array_facts_ok). Qed.

    (** References. *)
    Definition mpending (s : IterMut) (l : list (K * V)) : Prop :=
      exists kmid, at_slots O n ks s kmid /\ l = pm_entries kmid m.

    Lemma at_slots_sub s kmid : at_slots O n ks s kmid -> forall k, In k kmid -> In k ks.
    Proof.
      intros (p & q & E & _) k Hk. rewrite E, !in_app_iff. auto.
    Qed.

    Lemma points_ref ki kv : In (fst kv) ks -> points O m ki kv -> ref_to O (map m ks) ki kv.
    Proof.
      intros Hin (H1 & H2 & H3). split; [exact H1|]. split; [exact H2|]. rewrite <- H1 in Hin.
      destruct (@numbered_In _ O _ _ _ (proj1 Hks) Hin) as (j & Hj & Hr).
      assert (j = snd ki) by congruence. subst j. rewrite (at_deref HO Hks m H2) by lia. congruence.
    Qed.

    Lemma iter_mut_refines : refines_rel (ref_to O (map m ks)) (IterMut_step O (map m ks)) mpending.
    Proof.
      intros d s l (kmid & H & ->).
      destruct (@smut_step _ _ _ _ HO ks Hks V m d s kmid H) as (s' & o & kmid' & E & H' & El & Hsub & Ho).
      exists o, s'. split; [exact E|]. split; [|exists kmid'; split; [exact H'|now rewrite El]].
      destruct o as [ki|], (fst (deque_step d (pm_entries kmid m))) as [kv|] eqn:Ed; cbn in *; try contradiction; auto.
      apply points_ref; [|exact Ho]. eapply at_slots_sub; [exact H|].
      assert (Hin : In kv (pm_entries kmid m)).
      { destruct d; cbn in Ed.
        - destruct (pm_entries kmid m); [discriminate|]. injection Ed as ->. now left.
        - destruct (rev (pm_entries kmid m)) as [|x r] eqn:Er; [discriminate|]. injection Ed as ->.
          apply in_rev. rewrite Er. now left. }
      destruct kv as [k v]. apply pm_entries_In in Hin. apply Hin.
    Qed.

    Lemma mt0_ok : mpending mt0 (pm_entries ks m).
    Proof.
      exists ks. split; [|reflexivity]. unfold mt0. rewrite map_length. exact (at_slots_init Hks).
    Qed.

    Definition iter_mut_facts (st : list (option V)) (s : IterMut) (l : list (K * V)) : Prop :=
      hint_ok (IterMut_size_hint s) (llen l) /\ IterMut_debug O st s = Val l.
    Definition values_mut_facts (st : list (option V)) (s : ValuesMut) (l : list (K * V)) : Prop :=
      hint_ok (ValuesMut_size_hint s) (llen l) /\ ValuesMut_debug O st s = Val (map snd l).

    Lemma entries_le (l : list K) : (length (pm_entries l m) <= length l)%nat.
    Proof. induction l as [|k l IH]; [auto|]. cbn. destruct (m k); cbn; lia. Qed.

    Lemma iter_mut_facts_ok s l : mpending s l -> iter_mut_facts (map m ks) s l.
    Proof.
      intros (kmid & H & ->). split.
      - split; cbn; [lia|]. unfold TIterMut_len. rewrite (at_slots_len H). unfold llen.
        pose proof (entries_le kmid). lia.
      - destruct (smut_view m H) as (it & E & Hp). unfold IterMut_debug. rewrite E. cbn [bind].
        exact (Iter_debug_ok HO Hp).
    Qed.
    Lemma values_mut_facts_ok s l : mpending s l -> values_mut_facts (map m ks) s l.
    Proof.
      intros H. split; [exact (proj1 (iter_mut_facts_ok H))|]. destruct H as (kmid & H & ->).
      destruct (smut_view m H) as (it & E & Hp). unfold ValuesMut_debug, ValuesMut_iter. rewrite E. cbn [bind].
      exact (Values_debug_ok HO Hp).
    Qed.

    Lemma de_iter_mut : double_ended_rel (ref_to O (map m ks)) (IterMut_step O (map m ks)) mt0
      (pm_entries ks m) (iter_mut_facts (map m ks)).
    Proof. exact (double_ended_rel_from iter_mut_refines mt0_ok iter_mut_facts_ok). Qed.
    Lemma de_values_mut : double_ended_rel (value_ref O (map m ks)) (ValuesMut_step O (map m ks)) (mt0 : ValuesMut)
      (pm_entries ks m) (values_mut_facts (map m ks)).
    Proof.
      eapply (@double_ended_rel_map _ _ _ _ snd (ref_to O (map m ks))); [apply valuesmut_step_map| |apply values_mut_facts_ok|].
      - intros [k i] [k' v] (H1 & H2 & H3). cbn in *. subst. split; assumption.
      - exact (double_ended_rel_from iter_mut_refines mt0_ok (fun _ _ H => H)).
    Qed.

    (** Drain. *)
    Definition drain_facts (s : @Drain V) (l : list (K * V)) : Prop :=
      hint_ok (Drain_size_hint s) (llen l) /\
      Drain_drop O s = Val (map (fun _ => None) ks, l) /\
      forall eqd, fst s = map (pm_restrict eqd m (map fst l)) ks.
    Lemma drain_facts_ok s l : drained O n ks m s l -> drain_facts s l.
    Proof.
      intros H. split; [|split].
      - split; cbn; [lia|]. exact (drained_len H).
      - exact (drain_drop_ok HO H).
      - intros eqd. exact (drained_storage Hks eqd H).
    Qed.
    Lemma de_drain : double_ended (Drain_step O) (map m ks, mt0) (pm_entries ks m) drain_facts.
    Proof.
      refine (double_ended_from (@drain_refines _ _ _ _ HO ks V m) _ drain_facts_ok).
      unfold mt0. rewrite map_length. exact (drained_init Hks m).
    Qed.

    Lemma co_iter : collects (Iter_step O) it0 (pm_entries ks m).
    Proof. exact (double_ended_collects (@Iter_refines _ _ _ _ HO V) it0_ok). Qed.
    Lemma co_into : collects (IntoIter_step O) (it0 : @IntoIter V) (pm_entries ks m).
    Proof. exact (double_ended_collects (@IntoIter_refines _ _ _ _ HO V) it0_ok). Qed.
    Lemma co_into_array : collects (IntoIterArray_step O) (it0 : @IntoIterArray V) (pm_entries ks m).
    Proof. exact (double_ended_collects (@IntoIterArray_refines _ _ _ _ HO V) it0_ok). Qed.
    Lemma co_keys : collects (Keys_step O) (it0 : @Keys V) (map fst (pm_entries ks m)).
    Proof.
      destruct co_iter as (fuel & s' & E). exists fuel, s'.
      exact (collect_map (@keys_step_map _ _ O V Front) E).
    Qed.
    Lemma co_values : collects (Values_step O) (it0 : @Values V) (map snd (pm_entries ks m)).
    Proof.
      destruct co_iter as (fuel & s' & E). exists fuel, s'.
      exact (collect_map (@values_step_map _ _ O V Front) E).
    Qed.
    Lemma co_iter_mut : collects_rel (ref_to O (map m ks)) (IterMut_step O (map m ks)) mt0 (pm_entries ks m).
    Proof. exact (collects_rel_from iter_mut_refines mt0_ok). Qed.
    Lemma co_values_mut : collects_rel (value_ref O (map m ks)) (ValuesMut_step O (map m ks)) (mt0 : ValuesMut) (pm_entries ks m).
    Proof.
      destruct co_iter_mut as (fuel & got & s' & E & HF). exists fuel, (map snd got), s'.
      split; [exact (collect_map (@valuesmut_step_map _ _ O V (map m ks) Front) E)|].
      clear -HF. induction HF as [|[k i] [k' v] got l (H1 & H2 & H3) HF IH]; [constructor|].
      cbn [map]. constructor; [|exact IH]. cbn in *. subst. split; assumption.
    Qed.
    Lemma co_drain : collects (Drain_step O) (map m ks, mt0) (pm_entries ks m).
    Proof.
      refine (double_ended_collects (@drain_refines _ _ _ _ HO ks V m) _).
      unfold mt0. rewrite map_length. exact (drained_init Hks m).
    Qed.
  End Store.
End SparseIter.
