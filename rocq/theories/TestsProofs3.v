(** * TestsProofs3: the quickcheck tests pass on every input. *)
From Verif Require Import Base Spec SpecAtomic SpecValues SpecDerive SpecMap SpecSet SpecIter SpecTests ModelOrdinal ModelValues
  ModelArrayBuilder ModelIter ModelTotal ModelMap ModelSet ModelDerive ModelTests MapMachine BaseProofs IterLib OrdinalProofs
  ValuesProofs IterProofs MapLib MapIterProofs MapProofs MapProofs2 MapProofs3 MapProofs4 SetProofs SetProofs2 TestsProofs1.
From Coq Require Import List Lia. Import ListNotations.
Set Implicit Arguments. Unset Strict Implicit.

(** ** HashMap and HashSet *)
Section Control.
  Context {K V : Type} (c : Cmp K) (Hc : decides_eq (c_eq c)).
  Context (eqd : forall a b : K, {a = b} + {a <> b}).

  Lemma c_eqd a b : c_eq c a b = if eqd a b then true else false.
  Proof.
    destruct (eqd a b) as [->|Hn]; [now apply Hc|]. destruct (c_eq c a b) eqn:E; [|reflexivity].
    exfalso. now apply Hn, Hc.
  Qed.

  Lemma hm_get_put (m : @HashMap K V) k v k' : hm_get c (hm_put c m k v) k' = if eqd k k' then Some v else hm_get c m k'.
  Proof.
    induction m as [|[a w] m IH]; cbn.
    - rewrite !c_eqd. destruct (eqd k' k), (eqd k k'); try congruence; reflexivity.
    - rewrite (c_eqd k a). destruct (eqd k a) as [<-|Hn]; cbn; rewrite !c_eqd.
      + destruct (eqd k' k), (eqd k k'); try congruence; reflexivity.
      + rewrite IH. destruct (eqd k' a), (eqd k k'); try congruence; reflexivity.
  Qed.
  Lemma hm_get_In (m : @HashMap K V) k : hm_get c m k <> None <-> In k (map fst m).
  Proof.
    induction m as [|[a w] m IH]; cbn; [tauto|]. rewrite c_eqd. destruct (eqd k a) as [->|Hn].
    - split; [auto|discriminate].
    - rewrite IH. split; [auto|]. intros [E|E]; [congruence|exact E].
  Qed.
  Lemma hm_put_keys (m : @HashMap K V) k v k' : In k' (map fst (hm_put c m k v)) <-> k' = k \/ In k' (map fst m).
  Proof.
    rewrite <- !hm_get_In, hm_get_put. destruct (eqd k k') as [->|Hn].
    - split; [auto|discriminate].
    - split; [auto|]. intros [->|H]; [congruence|exact H].
  Qed.
  Lemma hm_put_NoDup (m : @HashMap K V) k v : NoDup (map fst m) -> NoDup (map fst (hm_put c m k v)).
  Proof.
    induction m as [|[a w] m IH]; cbn; intros H; [constructor; [intros []|constructor]|].
    inversion H as [|? ? H1 H2]; subst. rewrite c_eqd. destruct (eqd k a) as [->|Hn]; cbn; constructor; auto.
    intros G. apply hm_put_keys in G as [->|G]; congruence.
  Qed.

  (** [m] as a partial map. *)
  Definition hm_is (h : @HashMap K V) (m : pmap K V) : Prop := NoDup (map fst h) /\ forall k, hm_get c h k = m k.
  Lemma hm_is_put h m k v : hm_is h m -> hm_is (hm_put c h k v) (pm_set eqd m k (Some v)).
  Proof.
    intros [H1 H2]. split; [now apply hm_put_NoDup|]. intros k'. rewrite hm_get_put. unfold pm_set. now rewrite H2.
  Qed.

  Lemma same_keys_length (a b : list K) : NoDup a -> NoDup b -> (forall x, In x a <-> In x b) -> length a = length b.
  Proof.
    intros H1 H2 H. apply Nat.le_antisymm; apply NoDup_incl_length; auto; intros x Hx; now apply H.
  Qed.
  Lemma hm_len h m (ks : list K) : hm_is h m -> (forall k, In k ks) -> NoDup ks -> llen h = llen (pm_entries ks m).
  Proof.
    intros [H1 H2] Hall Hnd. unfold llen. f_equal.
    rewrite <- (map_length fst h), <- (map_length fst (pm_entries ks m)).
    apply same_keys_length; [exact H1|now apply pm_entries_NoDup|].
    intros k. rewrite <- hm_get_In, H2, pm_entries_fst_In. split; [auto|tauto].
  Qed.
  Lemma hm_pairs h m k v : hm_is h m -> In (k, v) h <-> m k = Some v.
  Proof.
    intros [H1 H2]. rewrite <- H2. clear H2 m. induction h as [|[a w] h IH]; cbn; [split; [tauto|discriminate]|].
    inversion H1 as [|? ? G1 G2]; subst. rewrite c_eqd. destruct (eqd k a) as [->|Hn].
    - split; [|intros [= ->]; auto]. intros [E|E]; [congruence|]. exfalso. apply G1. apply in_map_iff. exists (a, v). auto.
    - rewrite <- (IH G2). split; [|auto]. intros [E|E]; [congruence|exact E].
  Qed.
  Lemma hm_filter h m f : hm_is h m -> hm_is (hm_retain f h) (fun k => if f k then m k else None).
  Proof.
    intros H. assert (Hd : NoDup (map fst (hm_retain f h))).
    { destruct H as [H _]. unfold hm_retain. induction h as [|[a w] h IH]; cbn; [constructor|].
      inversion H as [|? ? G1 G2]; subst. destruct (f a); cbn; auto. constructor; auto.
      intros G. apply G1. apply in_map_iff in G as (p & Ep & G). apply filter_In in G as [G _].
      apply in_map_iff. eauto. }
    split; [exact Hd|]. intros k.
    assert (Hp : forall v, hm_get c (hm_retain f h) k = Some v <-> (if f k then m k else None) = Some v).
    { intros v. rewrite <- (@hm_pairs (hm_retain f h) (hm_get c (hm_retain f h)) k v) by (split; auto).
      unfold hm_retain. rewrite filter_In. cbn. rewrite (hm_pairs k v H). destruct (f k); split; try tauto.
      - intros [_ E]. discriminate E.
      - discriminate. }
    destruct (hm_get c (hm_retain f h) k) as [v|] eqn:E.
    - symmetry. now apply Hp.
    - destruct (if f k then m k else None) as [v|]; [|reflexivity]. now apply Hp.
  Qed.
  Lemma hm_from h l : hm_is h (hm_get c h) ->
    let r := fold_left (fun m p => hm_put c m (fst p) (snd p)) l h in
    hm_is r (hm_get c r).
  Proof.
    revert h. induction l as [|[k v] l IH]; intros h H; cbn; [exact H|]. apply IH.
    split; [|reflexivity]. apply hm_put_NoDup, H.
  Qed.
  Lemma hm_empty : hm_is [] pm_empty.
  Proof. split; [constructor|reflexivity]. Qed.
  Lemma hm_is_ext h m m' : hm_is h m -> (forall k, m k = m' k) -> hm_is h m'.
  Proof. intros [H1 H2] E. split; [exact H1|]. intros k. now rewrite H2. Qed.

  (** [HashMap::from_iter] of entries with different keys. *)
  Lemma hm_from_entries l : forall h m, hm_is h m -> NoDup (map fst l) ->
    hm_is (fold_left (fun m p => hm_put c m (fst p) (snd p)) l h)
      (fun k => match hm_get c l k with Some v => Some v | None => m k end).
  Proof.
    induction l as [|[a w] l IH]; intros h m H Hd; cbn; [exact (hm_is_ext H (fun k => eq_refl))|].
    inversion Hd as [|? ? G1 G2]; subst. eapply hm_is_ext; [exact (IH _ _ (hm_is_put a w H) G2)|].
    intros k. cbn. rewrite c_eqd. unfold pm_set. destruct (eqd k a) as [->|Hn].
    - destruct (hm_get c l a) eqn:E; [|now destruct (eqd a a)]. exfalso. apply G1, hm_get_In. now rewrite E.
    - destruct (hm_get c l k); [reflexivity|]. destruct (eqd a k); congruence.
  Qed.

  Context (d : Cmp V) (Hd : decides_eq (c_eq d)).
  Lemma hm_eq_same a b m (ks : list K) : hm_is a m -> hm_is b m -> (forall k, In k ks) -> NoDup ks -> hm_eq c d a b = true.
  Proof.
    intros Ha Hb Hall Hnd. unfold hm_eq. rewrite (hm_len Ha Hall Hnd), (hm_len Hb Hall Hnd), N.eqb_refl. cbn.
    apply forallb_forall. intros [k v] Hk. cbn. apply (hm_pairs k v Ha) in Hk. rewrite (proj2 Hb), Hk. now apply Hd.
  Qed.

  Lemma option_eq_refl (o : option V) : c_eq (Cmp_option d) o o = true.
  Proof. destruct o; cbn; [now apply Hd|reflexivity]. Qed.

  (** HashSet *)
  Lemma hs_contains_In s k : hs_contains c s k = true <-> In k s.
  Proof.
    unfold hs_contains. rewrite existsb_exists. split.
    - intros (x & Hx & E). apply Hc in E. now subst.
    - intros H. exists k. split; [exact H|now apply Hc].
  Qed.
  Lemma hs_insert_law s k : fst (hs_insert c s k) = negb (hs_contains c s k) /\
    forall k', hs_contains c (snd (hs_insert c s k)) k' = if eqd k k' then true else hs_contains c s k'.
  Proof.
    unfold hs_insert. destruct (hs_contains c s k) eqn:E; cbn [fst snd negb]; split; try reflexivity; intros k'.
    - destruct (eqd k k') as [<-|Hn]; [exact E|reflexivity].
    - apply Bool.eq_iff_eq_true. rewrite hs_contains_In, in_app_iff. cbn [In].
      destruct (eqd k k') as [<-|Hn]; rewrite ?hs_contains_In; intuition congruence.
  Qed.
  Lemma hs_from l : forall s k, In k (fold_left (fun s k => snd (hs_insert c s k)) l s) <-> In k s \/ In k l.
  Proof.
    induction l as [|x l IH]; intros s k; cbn; [tauto|]. rewrite IH, <- !hs_contains_In, (proj2 (hs_insert_law s x) k).
    destruct (eqd x k) as [->|Hn]; intuition congruence.
  Qed.
End Control.

Lemma keys_NoDup {cfg : Config} {K} (O : Ordinal K) n ks : ordinal_bijection O n -> enumeration O ks -> NoDup ks.
Proof. intros HO He. destruct (enumeration_numbered HO He) as [Hn _]. exact (numbered_NoDup Hn). Qed.

(** ** Maps *)
Section Maps.
  Context {cfg : Config} {K V : Type} (O : Ordinal K) (n : N) (HO : ordinal_bijection O n).
  Context (c : Cmp K) (Hc : decides_eq (c_eq c)) (d : Cmp V) (Hd : decides_eq (c_eq d)).
  Let eqd := key_eq_dec HO.

  Lemma same_ok (o : option V) k : same_option d o o ;;; k = k :> res unit.
  Proof. unfold same_option. rewrite (option_eq_refl Hd). reflexivity. Qed.

  Section Keys.
  Context (ks : list K) (He : enumeration O ks).
  Let Hnd := keys_NoDup HO He.

  Lemma map_inserts_ok values : forall (st : @OrdinalMap V) m h, heap_rep O n ks st m -> hm_is c h m ->
    exists st' m' h', qc_map_inserts O c d values st h = Val (st', h') /\ heap_rep O n ks st' m' /\ hm_is c h' m'.
  Proof.
    induction values as [|[k v] l IH]; intros st m h Hr Hh; cbn [qc_map_inserts]; [eauto 6|].
    destruct (@heap_step_ok _ _ _ O n HO eqd ks He (OpInsert k v) st m eq_refl eq_refl Hr) as (st1 & E1 & R1).
    cbn [heap_step spec_step fst snd] in E1, R1. unfold hm_insert.
    destruct (OrdinalMap_insert O st k v) as [[o st']| | | |]; cbn [bind] in E1 |- *; try discriminate E1.
    injection E1 as -> ->. rewrite (proj2 Hh). unfold same_option. rewrite (option_eq_refl Hd). cbn [assert_rt bind].
    destruct (@heap_step_ok _ _ _ O n HO eqd ks He OpLen st1 _ eq_refl eq_refl R1) as (st2 & E2 & R2).
    cbn [heap_step spec_step fst snd] in E2.
    destruct (OrdinalMap_len O st1) as [len| | | |]; cbn [bind] in E2 |- *; try discriminate E2.
    injection E2 as -> _. pose proof (hm_is_put Hc eqd k v Hh) as Hh'.
    rewrite (hm_len Hc eqd Hh' (proj1 He) Hnd), N.eqb_refl. cbn [assert_rt bind]. exact (IH st1 _ _ R1 Hh').
  Qed.
  Lemma map_checks_ok check (st : @OrdinalMap V) m h : heap_rep O n ks st m -> hm_is c h m ->
    qc_map_checks O c d check st h = Val tt.
  Proof.
    intros Hr Hh. induction check as [|k l IH]; cbn [qc_map_checks]; [reflexivity|].
    rewrite (heap_get_ok HO He k Hr). cbn [bind]. rewrite (proj2 Hh). unfold same_option. rewrite (option_eq_refl Hd). exact IH.
  Qed.

  Lemma array_inserts_ok S values : forall (a : @OrdinalArrayMap V S) m h, array_rep ks a m -> hm_is c h m ->
    exists a' m' h', qc_array_map_inserts O c d values a h = Val (a', h') /\ array_rep ks a' m' /\ hm_is c h' m'.
  Proof.
    induction values as [|[k v] l IH]; intros a m h Hr Hh; cbn [qc_array_map_inserts]; [eauto 6|].
    destruct (@array_step_ok _ _ _ O n HO eqd ks He S (OpInsert k v) a m Hr) as (a1 & E1 & R1).
    cbn [array_step spec_step fst snd] in E1, R1. unfold hm_insert.
    destruct (OrdinalArrayMap_insert O a k v) as [[o a']| | | |]; cbn [bind] in E1 |- *; try discriminate E1.
    injection E1 as -> ->. rewrite (proj2 Hh). unfold same_option. rewrite (option_eq_refl Hd). cbn [assert_rt bind].
    destruct (@array_step_ok _ _ _ O n HO eqd ks He S OpLen a1 _ R1) as (a2 & E2 & R2).
    cbn [array_step spec_step fst snd] in E2.
    destruct (OrdinalArrayMap_len O a1) as [len| | | |]; cbn [bind] in E2 |- *; try discriminate E2.
    injection E2 as -> _. pose proof (hm_is_put Hc eqd k v Hh) as Hh'.
    rewrite (hm_len Hc eqd Hh' (proj1 He) Hnd), N.eqb_refl. cbn [assert_rt bind]. exact (IH a1 _ _ R1 Hh').
  Qed.
  Lemma array_checks_ok S check (a : @OrdinalArrayMap V S) m h : array_rep ks a m -> hm_is c h m ->
    qc_array_map_checks O c d check a h = Val tt.
  Proof.
    intros Hr Hh. induction check as [|k l IH]; cbn [qc_array_map_checks]; [reflexivity|].
    rewrite (array_get_ok HO He k Hr). cbn [bind]. rewrite (proj2 Hh). unfold same_option. rewrite (option_eq_refl Hd). exact IH.
  Qed.

  Lemma array_from_iter_ok S values : forall (a : @OrdinalArrayMap V S) m h, array_rep ks a m -> hm_is c h m ->
    exists a' m', OrdinalArrayMap_from_iter_loop O values a = Val a' /\ array_rep ks a' m' /\
      hm_is c (fold_left (fun m p => hm_put c m (fst p) (snd p)) values h) m'.
  Proof.
    induction values as [|[k v] l IH]; intros a m h Hr Hh; cbn [OrdinalArrayMap_from_iter_loop fold_left]; [eauto 6|].
    destruct (@array_step_ok _ _ _ O n HO eqd ks He S (OpInsert k v) a m Hr) as (a1 & E1 & R1).
    cbn [array_step spec_step fst snd] in E1, R1.
    destruct (OrdinalArrayMap_insert O a k v) as [[o a']| | | |]; cbn [bind] in E1 |- *; try discriminate E1.
    injection E1 as -> ->. exact (IH a1 _ _ R1 (hm_is_put Hc eqd k v Hh)).
  Qed.
  End Keys.

  Lemma qc_map_passes values check : qc_map O c d values check = Val tt.
  Proof.
    destruct (keys_exist HO) as (ks & He). unfold qc_map.
    destruct (map_inserts_ok He values (heap_new_rep O n ks) (hm_empty c)) as (st & m & h & E & Hr & Hh).
    rewrite E. cbn [bind]. exact (map_checks_ok He check Hr Hh).
  Qed.

  Lemma qc_array_map_passes values check : qc_array_map O c d values check = Val tt.
  Proof.
    destruct (keys_exist HO) as (ks & He). unfold qc_array_map. rewrite (bij_size HO). cbn [bind].
    destruct (@array_new_rep _ _ V O n HO ks He (N.to_nat n)) as (a0 & E0 & R0); [apply N2Nat.id|].
    rewrite E0. cbn [bind].
    destruct (array_inserts_ok He values R0 (hm_empty c)) as (a & m & h & E & Hr & Hh).
    rewrite E. cbn [bind]. exact (array_checks_ok He check Hr Hh).
  Qed.

  Lemma qc_retain_passes values retain : qc_retain O c d values retain = Val true.
  Proof.
    destruct (keys_exist HO) as (ks & He). pose proof (keys_NoDup HO He) as Hnd.
    unfold qc_retain. rewrite (bij_size HO). cbn [bind]. unfold OrdinalArrayMap_from_iter.
    destruct (@array_new_rep _ _ V O n HO ks He (N.to_nat n)) as (a0 & E0 & R0); [apply N2Nat.id|].
    rewrite E0. cbn [bind].
    destruct (array_from_iter_ok He values R0 (hm_empty c)) as (a & m & E & Hr & Hh). rewrite E. cbn [bind].
    set (f := hs_contains c (hs_from_iter c retain)).
    destruct (@array_step_ok _ _ _ O n HO eqd ks He _ (OpRetain (fun k v => (v, f k))) a m Hr) as (a1 & E1 & R1).
    cbn [array_step] in E1. unfold pure_retain in E1.
    destruct (OrdinalArrayMap_retain O (fun (st : unit) k v => (st, v, Val (f k))) a tt) as [[u st] r] eqn:Er.
    destruct r as [[]| | | |]; cbn [bind] in E1 |- *; try discriminate E1.
    unfold back in E1. cbn [fst snd] in E1.
    destruct (arr_back (N.to_nat n) st) as [a1'| | | |]; cbn [bind] in E1 |- *; try discriminate E1.
    injection E1 as ->. cbn [spec_step snd] in R1.
    set (m1 := fun k => match m k with Some v => if f k then Some v else None | None => None end).
    assert (R2 : array_rep ks a1 m1).
    { unfold array_rep in *. rewrite R1. apply map_ext. intros k. unfold m1. cbn. destruct (m k); [|reflexivity].
      destruct (f k); reflexivity. }
    unfold array_rep in R2. unfold OrdinalArrayMap_into_iter, OrdinalTotalArrayMap_into_iter. rewrite R2.
    destruct (@collect_refines _ _ _ _ (@IntoIterArray_refines _ _ _ _ HO V) (Datatypes.S (N.to_nat n))
      (IntoIterArray_new (TIntoIterArray_new (map m1 ks))) (pm_entries ks m1)) as (s' & Ec & _).
    { exact (it0_ok (ks_slots HO He) m1). }
    { pose proof (proj2 (enumeration_numbered HO He)) as El. unfold llen in El.
      assert (length (pm_entries ks m1) <= length ks)%nat; [|lia].
      clear. induction ks as [|k ks IH]; cbn; [lia|]. destruct (m1 k); cbn; lia. }
    rewrite Ec. cbn [bind]. f_equal. apply (hm_eq_same Hc eqd Hd (m := m1) (ks := ks)).
    - eapply hm_is_ext; [exact (hm_filter Hc eqd f Hh)|]. intros k. unfold m1. cbn. destruct (m k), (f k); reflexivity.
    - unfold hm_from_iter. eapply hm_is_ext.
      + apply (hm_from_entries Hc eqd (hm_empty c)). now apply pm_entries_NoDup.
      + intros k. unfold pm_empty. assert (Hp : hm_is c (pm_entries ks m1) (hm_get c (pm_entries ks m1))).
        { split; [now apply pm_entries_NoDup|reflexivity]. }
        destruct (hm_get c (pm_entries ks m1) k) as [v|] eqn:Eg.
        * apply (hm_pairs Hc eqd k v Hp) in Eg. apply pm_entries_In in Eg. symmetry. apply Eg.
        * destruct (m1 k) as [v|] eqn:Em; [|reflexivity]. exfalso.
          assert (In (k, v) (pm_entries ks m1)) as Hi by (apply pm_entries_In; split; [apply He|exact Em]).
          apply (hm_pairs Hc eqd k v Hp) in Hi. congruence.
    - apply He.
    - exact Hnd.
  Qed.
End Maps.

(** ** Sets *)
Section Sets.
  Context {cfg : Config} {K : Type} (O : Ordinal K) (n : N) (HO : ordinal_bijection O n).
  Context (c : Cmp K) (Hc : decides_eq (c_eq c)).
  Let eqd := key_eq_dec HO.

  Lemma set_inserts_ok values : n <= usize_max - 64 \/ n <= 64 -> forall s m h, set_inv O n s m -> (forall k, hs_contains c h k = m k) ->
    exists s' m' h', qc_set_inserts O c values s h = Val (s', h') /\ set_inv O n s' m' /\ (forall k, hs_contains c h' k = m' k).
  Proof.
    intros Hn. induction values as [|k l IH]; intros s m h Hs Hh; cbn [qc_set_inserts]; [eauto 7|].
    destruct (hs_insert_law Hc eqd h k) as [H1 H2]. destruct (hs_insert c h k) as [b h']. cbn [fst snd] in *. subst b.
    destruct (set_insert_law HO eqd k Hn Hs) as (s' & E & Hs'). rewrite E. cbn [bind]. rewrite Hh, Bool.eqb_reflx. cbn [assert_rt bind].
    apply (IH s' _ h' Hs'). intros k'. rewrite H2. unfold ms_add. now rewrite Hh.
  Qed.
  Lemma set_checks_ok check s m h : set_inv O n s m -> (forall k, hs_contains c h k = m k) -> qc_set_checks O c check s h = Val tt.
  Proof.
    intros Hs Hh. induction check as [|k l IH]; cbn [qc_set_checks]; [reflexivity|].
    rewrite (set_contains_law HO k Hs). cbn [bind]. rewrite Hh, Bool.eqb_reflx. exact IH.
  Qed.
  Lemma qc_set_insert_passes values check : n <= usize_max - 64 \/ n <= 64 -> qc_set_insert O c values check = Val tt.
  Proof.
    intros Hn. unfold qc_set_insert. destruct (set_new_law HO) as (s0 & E0 & H0). rewrite E0. cbn [bind].
    destruct (@set_inserts_ok values Hn s0 ms_empty [] H0 (fun _ => eq_refl)) as (s & m & h & E & Hs & Hh).
    rewrite E. cbn [bind]. exact (set_checks_ok check Hs Hh).
  Qed.

  Lemma array_set_inserts_ok S values : forall (s : OrdinalArraySet S) m h, array_set_inv O n s m -> (forall k, hs_contains c h k = m k) ->
    exists s' m' h', qc_array_set_inserts O c values s h = Val (s', h') /\ array_set_inv O n s' m' /\ (forall k, hs_contains c h' k = m' k).
  Proof.
    induction values as [|k l IH]; intros s m h Hs Hh; cbn [qc_array_set_inserts]; [eauto 7|].
    destruct (hs_insert_law Hc eqd h k) as [H1 H2]. destruct (hs_insert c h k) as [b h']. cbn [fst snd] in *. subst b.
    destruct (array_insert_law HO eqd k Hs) as (s' & E & Hs'). rewrite E. cbn [bind]. rewrite Hh, Bool.eqb_reflx. cbn [assert_rt bind].
    apply (IH s' _ h' Hs'). intros k'. rewrite H2. unfold ms_add. now rewrite Hh.
  Qed.
  Lemma array_set_checks_ok S check (s : OrdinalArraySet S) m h : array_set_inv O n s m -> (forall k, hs_contains c h k = m k) ->
    qc_array_set_checks O c check s h = Val tt.
  Proof.
    intros Hs Hh. induction check as [|k l IH]; cbn [qc_array_set_checks]; [reflexivity|].
    rewrite (array_contains_law HO k Hs). cbn [bind]. rewrite Hh, Bool.eqb_reflx. exact IH.
  Qed.
  Lemma qc_array_set_insert_passes values check : qc_array_set_insert O c values check = Val tt.
  Proof.
    unfold qc_array_set_insert. rewrite (array_set_s_eq HO). cbn [bind].
    destruct (@array_new_law _ _ O n HO (N.to_nat (wcount n))) as (s0 & E0 & H0); [apply N2Nat.id|]. rewrite E0. cbn [bind].
    destruct (@array_set_inserts_ok _ values s0 ms_empty [] H0 (fun _ => eq_refl)) as (s & m & h & E & Hs & Hh).
    rewrite E. cbn [bind]. exact (array_set_checks_ok check Hs Hh).
  Qed.

  (** *** Sorting *)
  Context (Hlt : ordinal_monotone O (fun a b => c_lt c a b = true)).
  Definition num (t : K) : N := match ordinal O t with Val i => i | _ => 0 end.
  Lemma num_ok t : ordinal O t = Val (num t).
  Proof. unfold num. destruct (bij_to HO t) as (i & E & _). now rewrite E. Qed.
  Lemma lt_num a b : c_lt c a b = true <-> num a < num b.
  Proof. exact (Hlt (num_ok a) (num_ok b)). Qed.
  Lemma num_inj a b : num a = num b -> a = b.
  Proof. intros E. eapply bij_inj; [exact HO|apply num_ok|]. rewrite E. apply num_ok. Qed.

  Definition upto (a b : K) : Prop := num a <= num b.
  Lemma insert_In x l t : In t (insert_sorted c x l) <-> t = x \/ In t l.
  Proof.
    induction l as [|y l IH]; cbn; [intuition congruence|]. destruct (c_lt c y x); cbn; [rewrite IH|]; intuition congruence.
  Qed.
  Lemma insert_is_sorted x l : StronglySorted upto l -> StronglySorted upto (insert_sorted c x l).
  Proof.
    induction 1 as [|y l H IH HF]; cbn; [constructor; constructor|].
    destruct (c_lt c y x) eqn:E.
    - constructor; [exact IH|]. apply Forall_forall. intros t Ht. apply insert_In in Ht as [->|Ht].
      + apply lt_num in E. unfold upto. lia.
      + rewrite Forall_forall in HF. now apply HF.
    - assert (G : num x <= num y).
      { destruct (N.le_gt_cases (num x) (num y)) as [G|G]; [exact G|]. apply lt_num in G. congruence. }
      constructor; [constructor; assumption|]. constructor; [exact G|]. rewrite Forall_forall in *.
      intros t Ht. specialize (HF t Ht). unfold upto in *. lia.
  Qed.
  Lemma sort_law l : (forall t, In t (sort c l) <-> In t l) /\ StronglySorted upto (sort c l).
  Proof.
    induction l as [|x l [IH1 IH2]]; [split; [reflexivity|constructor]|]. cbn [sort fold_right]. split.
    - intros t. unfold sort in IH1. rewrite insert_In, IH1. cbn. intuition congruence.
    - now apply insert_is_sorted.
  Qed.
  Lemma dedup_law l : StronglySorted upto l ->
    (forall t, In t (dedup c l) <-> In t l) /\ StronglySorted (ordinal_before O) (dedup c l).
  Proof.
    induction 1 as [|x l H IH HF]; [split; [reflexivity|constructor]|]. destruct l as [|y l].
    - split; [reflexivity|constructor; constructor].
    - destruct IH as [I1 I2]. cbn [dedup]. destruct (c_eq c x y) eqn:E.
      + apply Hc in E. subst y. split; [|exact I2]. intros t. rewrite I1. cbn. tauto.
      + assert (Hn : x <> y) by (intros ->; rewrite (proj2 (Hc y y) eq_refl) in E; discriminate E).
        split.
        * intros t. cbn [In]. change (In t (dedup c (y :: l))) with (In t (dedup c (y :: l))). rewrite I1. reflexivity.
        * constructor; [exact I2|]. apply Forall_forall. intros t Ht. apply I1 in Ht.
          exists (num x), (num t). split; [apply num_ok|]. split; [apply num_ok|].
          assert (Hxy : num x < num y).
          { inversion HF as [|? ? G _]; subst. unfold upto in G. assert (num x <> num y) by (intros G'; now apply Hn, num_inj). lia. }
          destruct Ht as [<-|Ht]; [exact Hxy|]. inversion H as [|? ? _ G]; subst. rewrite Forall_forall in G.
          specialize (G t Ht). unfold upto in G. lia.
  Qed.
  Lemma sorted_is_members ks l : enumeration O ks -> dedup c (sort c l) = members ks (set_of eqd l).
  Proof.
    intros He. destruct (sort_law l) as [S1 S2]. destruct (dedup_law S2) as [D1 D2].
    apply (@sorted_unique _ (ordinal_before O) (@before_anti _ O)); [exact D2|apply members_sorted; exact He|].
    intros t. rewrite D1, S1. unfold members. rewrite filter_In, set_of_In. split; [|tauto].
    intros H. split; [apply He|exact H].
  Qed.

  Lemma qc_set_iter_passes values : n <= usize_max - 64 \/ n <= 64 -> 1 <= n \/ debug_assertions = false ->
    qc_set_iter O c values = Val true.
  Proof.
    intros Hn Hi. destruct (keys_exist HO) as (ks & He). unfold qc_set_iter.
    destruct (set_from_iter_law HO eqd values Hn) as (s & E & Hs). rewrite E. cbn [bind].
    destruct (set_iter_law HO Hi Hs He) as (it & E2 & Hr). rewrite E2. cbn [bind].
    destruct (set_rem_collect HO Hr) as (s' & E3). unfold values_len. rewrite E3. cbn [bind]. f_equal.
    rewrite (sorted_is_members values He). now apply list_eq_iff.
  Qed.

  Lemma refines_back {St A} (step : dir -> St -> res (option A * St)) (R : St -> list A -> Prop) : refines step R ->
    forall fuel s l, R s l -> (length l < fuel)%nat -> exists s', collect (step Back) fuel s = Val (rev l, s').
  Proof.
    intros HR. induction fuel as [|fuel IH]; intros s l H Hf; [lia|]. cbn [collect].
    destruct (HR Back s l H) as (s1 & E & H1). rewrite E. cbn [bind].
    destruct (rev l) as [|x r] eqn:El.
    - assert (l = []) as -> by (rewrite <- (rev_involutive l), El; reflexivity). cbn. eauto.
    - assert (l = rev r ++ [x]) as -> by (rewrite <- (rev_involutive l), El; reflexivity).
      rewrite deque_back in *. cbn [fst snd] in *. destruct (IH s1 (rev r) H1) as (s2 & E2).
      { rewrite app_length in Hf. cbn in Hf. lia. }
      rewrite E2. cbn. rewrite rev_involutive. eauto.
  Qed.

  Lemma qc64_start values : n <= 64 -> forall ks, enumeration O ks ->
    exists w, OrdinalSet64_from_iter O values = Val w /\ OrdinalSet64_iter O w = Val w /\
      i64_rem O n w (members ks (set_of eqd values)) /\ (length (members ks (set_of eqd values)) < 65)%nat.
  Proof.
    intros Hn ks He. destruct (set64_from_iter_law HO eqd values Hn) as (w & E & Hw).
    destruct (set64_iter_law HO Hw He) as (E2 & Hr). exists w. split; [exact E|]. split; [exact E2|]. split; [exact Hr|].
    destruct Hr as (_ & _ & H3). rewrite <- (Forall2_length H3). pose proof (bits_bound w). lia.
  Qed.
  Lemma qc_iterator_passes values : n <= 64 -> qc_iterator O c values = Val true.
  Proof.
    intros Hn. destruct (keys_exist HO) as (ks & He). destruct (qc64_start values Hn He) as (w & E & E2 & Hr & Hl).
    unfold qc_iterator. rewrite E. cbn [bind]. rewrite E2. cbn [bind].
    destruct (@collect_refines _ _ _ _ (i64_refines HO) 65 w _ Hr Hl) as (s' & E3 & _). rewrite E3. cbn [bind]. f_equal.
    rewrite (sorted_is_members values He). now apply list_eq_iff.
  Qed.
  Lemma qc_double_ended_passes values : n <= 64 -> qc_double_ended_iterator O c values = Val true.
  Proof.
    intros Hn. destruct (keys_exist HO) as (ks & He). destruct (qc64_start values Hn He) as (w & E & E2 & Hr & Hl).
    unfold qc_double_ended_iterator. rewrite E. cbn [bind]. rewrite E2. cbn [bind].
    destruct (refines_back (i64_refines HO) Hr Hl) as (s' & E3). rewrite E3. cbn [bind]. f_equal.
    rewrite (sorted_is_members values He). now apply list_eq_iff.
  Qed.
End Sets.

Section ExactSize.
  Context {cfg : Config} {K : Type} (O : Ordinal K) (n : N) (HO : ordinal_bijection O n).
  Lemma exact_size_loop l : forall w, i64_rem O n w l ->
    test_exact_size_loop (Iter64_step O Front) Iter64_len (length l) (llen l) w = Val tt.
  Proof.
    induction l as [|x l IH]; intros w H; cbn [length test_exact_size_loop].
    - rewrite (i64_len H). cbn. destruct (i64_refines HO Front H) as (s' & E & _). cbn [Iter64_step] in E. rewrite E. reflexivity.
    - rewrite (i64_len H), N.eqb_refl. cbn [assert_rt bind].
      destruct (i64_refines HO Front H) as (s' & E & H'). cbn [deque_step fst snd] in E, H'. rewrite E. cbn [bind is_some assert_rt].
      rewrite usub_ok.
      + cbn [bind]. replace (llen (x :: l) - 1) with (llen l) by (unfold llen; cbn [length]; lia). now apply IH.
      + unfold llen. cbn [length]. lia.
      + destruct H as (_ & _ & H3). apply Forall2_length in H3. pose proof (bits_bound w) as Hb.
        pose proof (@usize_max_ge cfg). unfold llen. lia.
  Qed.
  Lemma qc_exact_size_passes values : n <= 64 -> qc_exact_size_iterator O values = Val tt.
  Proof.
    intros Hn. destruct (keys_exist HO) as (ks & He). destruct (qc64_start HO values Hn He) as (w & E & E2 & Hr & Hl).
    unfold qc_exact_size_iterator. rewrite E. cbn [bind]. rewrite E2. cbn [bind].
    unfold test_exact_size_iterator. rewrite (i64_len Hr). unfold llen at 1. rewrite Nat2N.id. now apply exact_size_loop.
  Qed.
End ExactSize.
