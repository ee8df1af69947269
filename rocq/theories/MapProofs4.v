(** * MapProofs4: the sparse maps' API on represented states. *)
From Verif Require Import Base Spec SpecMap SpecTotal SpecIter SpecApi ModelOrdinal ModelValues ModelArrayBuilder ModelIter
  ModelTotal ModelMap MapMachine BaseProofs IterLib ValuesProofs IterProofs MapLib MapIterProofs MapMutProofs
  MapProofs ArrayProofs TotalProofs MapProofs2 MapProofs3.
From Coq Require Import List. Import ListNotations.
Unset Strict Implicit.

Lemma double_ended_weaken {It A} (step : dir -> It -> res (option A * It)) s l (P Q : It -> list A -> Prop) :
  (forall s l, P s l -> Q s l) -> double_ended step s l P -> double_ended step s l Q.
Proof. intros HPQ H sched. destruct (H sched) as (s' & E & Hp). exists s'. auto. Qed.
Lemma double_ended_rel_weaken {It A B} (rel : A -> B -> Prop) (step : dir -> It -> res (option A * It)) s l
    (P Q : It -> list B -> Prop) :
  (forall s l, P s l -> Q s l) -> double_ended_rel rel step s l P -> double_ended_rel rel step s l Q.
Proof. intros HPQ H sched. destruct (H sched) as (got & s' & E & HF & Hp). exists got, s'. auto. Qed.

Lemma Forall2_nth_error_l {A B} (P : A -> B -> Prop) l l' j a : Forall2 P l l' -> nth_error l j = Some a ->
  exists b, nth_error l' j = Some b /\ P a b.
Proof.
  intros H. revert j. induction H as [|x y l l' Hxy H IH]; intros [|j] E; cbn in *; try discriminate E.
  - injection E as <-. eauto.
  - now apply IH.
Qed.
Lemma Forall2_nth_error_None {A B} (P : A -> B -> Prop) l l' j : Forall2 P l l' -> nth_error l j = None ->
  nth_error l' j = None.
Proof. intros H. rewrite !nth_error_None. now rewrite (Forall2_length H). Qed.

(** Keys of a lawful type have decidable equality, and can be listed. *)
Definition key_eq_dec {cfg : Config} {K} (O : Ordinal K) n (HO : ordinal_bijection O n) (a b : K) : {a = b} + {a <> b}.
Proof.
  destruct (ordinal O a) as [i| | | |] eqn:Ea;
    try (exfalso; destruct (bij_to HO a) as (i & Hi & _); congruence).
  destruct (ordinal O b) as [j| | | |] eqn:Eb;
    try (exfalso; destruct (bij_to HO b) as (j & Hj & _); congruence).
  destruct (N.eq_dec i j) as [E|E].
  - left. destruct (bij_to HO a) as (i' & H1 & _ & H2), (bij_to HO b) as (j' & H3 & _ & H4). congruence.
  - right. intros ->. congruence.
Defined.

Lemma keys_exist {cfg : Config} {K} (O : Ordinal K) n : ordinal_bijection O n -> exists ks, enumeration O ks.
Proof. intros HO. destruct (all_values_law HO) as (l & s & H & _). eauto. Qed.

Section Rep.
  Context {cfg : Config} {K V : Type} (O : Ordinal K) (n : N) (HO : ordinal_bijection O n).
  Context (eqd : forall a b : K, {a = b} + {a <> b}).
  Context (ks : list K) (He : enumeration O ks).
  Implicit Types m : pmap K V.
  Implicit Types st : list (option V).

  Let Hks : key_slots O n ks := ks_slots HO He.
  Notation rep := (heap_rep O n ks).

  Lemma array_is_rep S (a : @OrdinalArrayMap V S) m : array_rep ks a m -> rep (arr_list a) m.
  Proof. intros E. unfold array_rep in E. rewrite E. exact (full_rep HO He m). Qed.

  Lemma full_is_array S st m : rep st m -> length st = S -> length ks = S ->
    exists a, arr_back S st = Val a /\ arr_list a = st /\ array_rep ks a m.
  Proof.
    intros (ks' & -> & _ & Hk) E1 E2. unfold arr_back. rewrite map_length in E1.
    destruct (@try_arr_ok (option V) S (map m ks')) as (a & Ea & El); [now rewrite map_length|].
    rewrite Ea. exists a. split; [reflexivity|]. split; [exact El|]. unfold array_rep. rewrite El.
    destruct Hk as [->| ->]; [reflexivity|]. destruct ks; [reflexivity|]. cbn in *. lia.
  Qed.

  Section State.
    Context (st : list (option V)) (m : pmap K V) (Hst : rep st m).
    Notation l := (pm_entries ks m).

    Local Ltac start := destruct Hst as (ks' & -> & Hc & Hk); rewrite <- (rep_entries Hc Hk);
      destruct Hc as [Hs Hd].

    Lemma rep_de_iter : double_ended (Iter_step O) (OrdinalMap_iter st) l (iter_facts O).
    Proof. start. exact (de_iter HO Hs m). Qed.
    Lemma rep_de_keys : double_ended (Keys_step O) (OrdinalMap_keys st) (map fst l) (keys_facts O).
    Proof. start. exact (de_keys HO Hs m). Qed.
    Lemma rep_de_values : double_ended (Values_step O) (OrdinalMap_values st) (map snd l) (values_facts O).
    Proof. start. exact (de_values HO Hs m). Qed.
    Lemma rep_de_into : double_ended (IntoIter_step O) (OrdinalMap_into_iter st) l (into_facts O).
    Proof. start. exact (de_into HO Hs m). Qed.
    Lemma rep_de_into_array : double_ended (IntoIterArray_step O)
      (IntoIterArray_new (TIntoIterArray_new st)) l (into_array_facts O).
    Proof. start. exact (de_into_array HO Hs m). Qed.
    Lemma rep_de_iter_mut : double_ended_rel (ref_to O st) (IterMut_step O st) (OrdinalMap_iter_mut st) l
      (iter_mut_facts O st).
    Proof. start. exact (de_iter_mut HO Hs m). Qed.
    Lemma rep_de_values_mut : double_ended_rel (value_ref O st) (ValuesMut_step O st) (OrdinalMap_values_mut st) l
      (values_mut_facts O st).
    Proof. start. exact (de_values_mut HO Hs m). Qed.

    Lemma rep_co_iter : collects (Iter_step O) (OrdinalMap_iter st) l.
    Proof. start. exact (co_iter HO Hs m). Qed.
    Lemma rep_co_keys : collects (Keys_step O) (OrdinalMap_keys st) (map fst l).
    Proof. start. exact (co_keys HO Hs m). Qed.
    Lemma rep_co_values : collects (Values_step O) (OrdinalMap_values st) (map snd l).
    Proof. start. exact (co_values HO Hs m). Qed.
    Lemma rep_co_into : collects (IntoIter_step O) (OrdinalMap_into_iter st) l.
    Proof. start. exact (co_into HO Hs m). Qed.
    Lemma rep_co_into_array : collects (IntoIterArray_step O) (IntoIterArray_new (TIntoIterArray_new st)) l.
    Proof. start. exact (co_into_array HO Hs m). Qed.
    Lemma rep_co_iter_mut : collects_rel (ref_to O st) (IterMut_step O st) (OrdinalMap_iter_mut st) l.
    Proof. start. exact (co_iter_mut HO Hs m). Qed.
    Lemma rep_co_values_mut : collects_rel (value_ref O st) (ValuesMut_step O st) (OrdinalMap_values_mut st) l.
    Proof. start. exact (co_values_mut HO Hs m). Qed.
    Lemma rep_co_drain : collects (Drain_step O) (OrdinalMap_drain st) l.
    Proof. start. exact (co_drain HO Hs m). Qed.

    Lemma rep_de_drain : double_ended (Drain_step O) (OrdinalMap_drain st) l
      (fun d rest => hint_ok (Drain_size_hint d) (llen rest) /\
         (exists st', Drain_drop O d = Val (st', rest) /\ rep st' pm_empty /\ length st' = length st) /\
         rep (fst d) (pm_restrict eqd m (map fst rest)) /\ length (fst d) = length st).
    Proof.
      start. eapply double_ended_weaken; [|exact (de_drain HO Hs m)]. cbn beta.
      intros d rest (H1 & H2 & H3). split; [exact H1|]. split.
      - eexists. split; [exact H2|]. split; [|now rewrite !map_length].
        exists ks'. split; [reflexivity|]. split; [|exact Hk]. split; [exact Hs|]. intros k Hn. now destruct Hn.
      - rewrite (H3 eqd). split; [|now rewrite !map_length].
        exists ks'. split; [reflexivity|]. split; [|exact Hk]. split; [exact Hs|]. intros k Hn. apply Hd.
        intros E. apply Hn. unfold pm_restrict. rewrite E. now destruct (mem _ _ _).
    Qed.

    Lemma rep_get k : OrdinalMap_get O st k = Val (m k).
    Proof. exact (heap_get_ok HO He k Hst). Qed.

    Lemma rep_lists : lists_entries O (OrdinalMap_get O st) l.
    Proof. exact (entries_listed He rep_get). Qed.

    Lemma rep_clear : exists st', OrdinalMap_clear O st = Val st' /\ rep st' pm_empty /\ length st' = length st.
    Proof.
      destruct (rep_de_drain []) as (d & E & _ & (st' & Ed & H1 & H2) & _). cbn in E. injection E as <-.
      unfold OrdinalMap_clear. rewrite Ed. cbn [bind]. eauto.
    Qed.

    Lemma rep_init : OrdinalMap_init_full_map O st = Val (map m ks).
    Proof. exact (init_ok HO He Hst). Qed.

    Lemma rep_len : OrdinalMap_len O st = Val (llen l).
    Proof.
      destruct (heap_step_ok HO eqd He (op := OpLen) eq_refl eq_refl Hst) as (st' & E & _).
      cbn [heap_step spec_step fst] in E. destruct (OrdinalMap_len O st); cbn in E; congruence.
    Qed.
    Lemma rep_is_empty : OrdinalMap_is_empty O st = Val (llen l =? 0).
    Proof.
      destruct (heap_step_ok HO eqd He (op := OpIsEmpty) eq_refl eq_refl Hst) as (st' & E & _).
      cbn [heap_step spec_step fst] in E. destruct (OrdinalMap_is_empty O st); cbn in E; congruence.
    Qed.
    Lemma rep_debug : OrdinalMap_debug O st = Val l.
    Proof.
      destruct (heap_step_ok HO eqd He (op := OpDebug) eq_refl eq_refl Hst) as (st' & E & _).
      cbn [heap_step spec_step fst] in E. destruct (OrdinalMap_debug O st); cbn in E; congruence.
    Qed.
    Lemma rep_clone cl : rep (OrdinalMap_clone cl st) (fun k => opt_map cl (m k)).
    Proof.
      destruct (heap_step_ok HO eqd He (op := @OpClone K V cl) eq_refl eq_refl Hst) as (st' & E & H).
      cbn [heap_step spec_step fst snd] in *. injection E as <-. exact H.
    Qed.
  End State.

  (** *** Entries, on full storage *)
  Lemma full_get m k : OrdinalMap_get O (map m ks) k = Val (m k).
  Proof. exact (rep_get (full_rep HO He m) k). Qed.

  Section Entry.
    (** [get] is any lookup that is right on full storage. *)
    Context (get : list (option V) -> K -> res (option V)) (Hget : forall m k, get (map m ks) k = Val (m k)).
    Context (m : pmap K V) (k : K) (i : N) (Hi : ordinal O k = Val i) (Hlt : i < llen ks).

    Lemma refers_full v : m k = Some v -> refers eqd get (map m ks) i k v.
    Proof.
      intros E. split; [rewrite (at_deref HO Hks m Hi Hlt); congruence|].
      intros w. exists (map (pm_set eqd m k (Some w)) ks). split.
      - apply (at_write HO eqd Hks Hi Hlt). congruence.
      - intros k'. rewrite !Hget. unfold pm_set. destruct (eqd k k'); reflexivity.
    Qed.

    Lemma entry_ok_full : entry_ok eqd get (map m ks) k (the_entry m k i).
    Proof.
      unfold entry_ok, the_entry. rewrite !Hget. destruct (m k) as [v|] eqn:Em.
      - split; [reflexivity|]. split; [|discriminate]. intros v' [= ->].
        eexists. split; [reflexivity|]. split; [reflexivity|].
        unfold OccupiedEntry_get, OccupiedEntry_get_mut, Entry_or_insert. cbn [o_entry].
        rewrite (at_deref HO Hks m Hi Hlt), Em. cbn [bind unwrap]. split; [reflexivity|]. split.
        + exists i. split; [reflexivity|]. now apply refers_full.
        + intros w. exists i. split; [reflexivity|]. now apply refers_full.
      - split; [reflexivity|]. split; [discriminate|]. intros _.
        eexists. split; [reflexivity|]. split; [reflexivity|]. intros w.
        unfold VacantEntry_insert, Entry_or_insert. cbn [v_entry].
        rewrite (at_deref HO Hks m Hi Hlt). cbn [bind]. rewrite (at_store HO eqd Hks m Hi Hlt).
        eexists. split; [reflexivity|]. split.
        + intros k'. rewrite !Hget. unfold pm_set. destruct (eqd k k'); reflexivity.
        + exists i. split; [reflexivity|].
          assert (G : pm_set eqd m k (Some w) k = Some w) by apply pm_set_same.
          split; [rewrite (at_deref HO Hks _ Hi Hlt); congruence|].
          intros w'. exists (map (pm_set eqd (pm_set eqd m k (Some w)) k (Some w')) ks). split.
          * apply (at_write HO eqd Hks Hi Hlt). congruence.
          * intros k'. rewrite !Hget. unfold pm_set. destruct (eqd k k'); reflexivity.
    Qed.
  End Entry.

  Lemma heap_entry_ok st m k : rep st m ->
    exists e st', OrdinalMap_entry O st k = Val (e, st') /\
      (forall k', OrdinalMap_get O st' k' = OrdinalMap_get O st k') /\
      entry_ok eqd (OrdinalMap_get O) st' k e.
  Proof.
    intros H. destruct (key_lt HO He k) as (i & Hi & Hlt). exists (the_entry m k i), (map m ks).
    unfold OrdinalMap_entry. rewrite (rep_init H), Hi. cbn [bind].
    unfold index_slot. rewrite (at_index HO Hks m Hi Hlt). cbn [bind].
    rewrite (entry_new_ok HO Hks m Hi Hlt). cbn [bind]. split; [reflexivity|]. split.
    - intros k'. now rewrite full_get, (rep_get H k').
    - exact (entry_ok_full full_get m Hi Hlt).
  Qed.

  Section Arr.
    Context (S : nat) (HS : length ks = S).

    Lemma array_storage_get_full m k : array_storage_get O S (map m ks) k = Val (m k).
    Proof.
      unfold array_storage_get, arr_back.
      destruct (@try_arr_ok (option V) S (map m ks)) as (a & Ea & El); [now rewrite map_length|].
      rewrite Ea. cbn [bind]. apply (array_get_ok HO He k). exact El.
    Qed.

    Lemma array_entry_ok (a : @OrdinalArrayMap V S) m k : array_rep ks a m ->
      exists e, OrdinalArrayMap_entry O a k = Val (e, a) /\
        entry_ok eqd (array_storage_get O S) (arr_list a) k e.
    Proof.
      intros H. pose proof H as Ea. unfold array_rep in Ea.
      destruct (key_lt HO He k) as (i & Hi & Hlt). exists (the_entry m k i).
      unfold OrdinalArrayMap_entry, OrdinalTotalArrayMap_index_mut, index_slot. rewrite Hi, Ea. cbn [bind].
      rewrite (at_index HO Hks m Hi Hlt). cbn [bind]. rewrite (entry_new_ok HO Hks m Hi Hlt). cbn [bind].
      split; [reflexivity|]. exact (entry_ok_full array_storage_get_full m Hi Hlt).
    Qed.

    (** *** retain *)
    Lemma array_retain_ok {St} (f : St -> K -> V -> St * V * res bool) (a : @OrdinalArrayMap V S) m s :
      array_rep ks a m ->
      exists a' st', OrdinalArrayMap_retain O f a s =
          (fst (fst (retain_calls eqd f (pm_entries ks m) m s)), st',
           snd (retain_calls eqd f (pm_entries ks m) m s)) /\
        arr_back S st' = Val a' /\
        forall k, OrdinalArrayMap_get O a' k = Val (snd (fst (retain_calls eqd f (pm_entries ks m) m s)) k).
    Proof.
      intros H. unfold OrdinalArrayMap_retain, OrdinalTotalArrayMap_iter_mut. rewrite H, map_length.
      destruct (@retain_loop_ok _ _ _ O n HO eqd ks He St f ks [] m _ s (Datatypes.S (length ks)) eq_refl (pending_slots Hks))
        as (m' & E & Em); [lia|].
      unfold TIterMut_new, enumerate_new. rewrite E.
      destruct (@try_arr_ok (option V) S (map m' ks)) as (a' & Ea & El); [now rewrite map_length|].
      exists a', (map m' ks). split; [reflexivity|]. split; [unfold arr_back; now rewrite Ea|].
      intros k. rewrite (array_get_ok HO He k (m := m')) by exact El. now rewrite Em.
    Qed.
  End Arr.

  (** *** from_iter *)
  Definition inserted (acc : pmap K V) (kv : K * V) : pmap K V := pm_set eqd acc (fst kv) (Some (snd kv)).

  Lemma heap_from_iter_loop l : forall st m, rep st m ->
    exists st', OrdinalMap_from_iter_loop O l st = Val st' /\ rep st' (fold_left inserted l m).
  Proof.
    induction l as [|[k v] l IH]; intros st m H; [cbn; eauto|].
    destruct (heap_step_ok HO eqd He (op := @OpInsert K V k v) eq_refl eq_refl H) as (st1 & E & H1).
    cbn [heap_step spec_step fst snd OrdinalMap_from_iter_loop] in *.
    destruct (OrdinalMap_insert O st k v) as [[o st1']| | | |]; cbn [bind] in *; try discriminate E.
    injection E as _ <-. exact (IH st1' _ H1).
  Qed.
  Lemma array_from_iter_loop S l : forall (a : @OrdinalArrayMap V S) m, array_rep ks a m ->
    exists a', OrdinalArrayMap_from_iter_loop O l a = Val a' /\ array_rep ks a' (fold_left inserted l m).
  Proof.
    induction l as [|[k v] l IH]; intros a m H; [cbn; eauto|].
    destruct (array_step_ok HO eqd He (@OpInsert K V k v) H) as (a1 & E & H1).
    cbn [array_step spec_step fst snd OrdinalArrayMap_from_iter_loop] in *.
    destruct (OrdinalArrayMap_insert O a k v) as [[o a1']| | | |]; cbn [bind] in *; try discriminate E.
    injection E as _ <-. exact (IH a1' _ H1).
  Qed.

  Lemma fold_inserted l : forall m k,
    (exists l1 v l2, l = l1 ++ (k, v) :: l2 /\ ~ In k (map fst l2) /\ fold_left inserted l m k = Some v) \/
    (~ In k (map fst l) /\ fold_left inserted l m k = m k).
  Proof.
    induction l as [|[k0 v0] l IH] using rev_ind; intros m k.
    - right. split; [intros []|reflexivity].
    - rewrite fold_left_app. cbn [fold_left]. unfold inserted at 1 3. cbn [fst snd]. unfold pm_set.
      destruct (eqd k0 k) as [->|Hne].
      + left. exists l, v0, []. split; [reflexivity|]. split; [intros []|reflexivity].
      + destruct (IH m k) as [(l1 & v & l2 & -> & Hn & E)|[Hn E]].
        * left. exists l1, v, (l2 ++ [(k0, v0)]). split; [now rewrite <- app_assoc|]. split; [|exact E].
          rewrite map_app, in_app_iff. intros [H|[H|[]]]; auto.
        * right. split; [|exact E]. rewrite map_app, in_app_iff. intros [H|[H|[]]]; auto.
  Qed.

  Lemma last_unique (k : K) (v v' : V) l1 l2 l1' l2' : l1 ++ (k, v) :: l2 = l1' ++ (k, v') :: l2' ->
    ~ In k (map fst l2) -> ~ In k (map fst l2') -> v = v'.
  Proof.
    revert l1'. induction l1 as [|x l1 IH]; intros [|y l1'] E H1 H2; cbn in E; injection E as Ex E.
    - congruence.
    - subst. exfalso. apply H1. rewrite map_app, in_app_iff. right. now left.
    - subst. exfalso. apply H2. rewrite map_app, in_app_iff. right. now left.
    - eapply IH; eassumption.
  Qed.

  Lemma built_from_fold l (get : K -> res (option V)) :
    (forall k, get k = Val (fold_left inserted l pm_empty k)) -> built_from get l.
  Proof.
    intros Hg. split.
    - intros k v. rewrite Hg. split.
      + intros [= E]. destruct (fold_inserted l pm_empty k) as [(l1 & v' & l2 & -> & Hn & E')|[_ E']].
        * exists l1, l2. split; [congruence|exact Hn].
        * rewrite E' in E. discriminate E.
      + intros (l1 & l2 & El & Hn). destruct (fold_inserted l pm_empty k) as [(l1' & v' & l2' & El' & Hn' & E')|[Hn' _]].
        * rewrite E'. repeat f_equal. symmetry. rewrite El in El'. exact (last_unique El' Hn Hn').
        * exfalso. apply Hn'. rewrite El, map_app, in_app_iff. right. now left.
    - intros k. rewrite Hg. split.
      + intros [= E]. destruct (fold_inserted l pm_empty k) as [(l1' & v' & l2' & El' & Hn' & E')|[Hn' _]]; [congruence|exact Hn'].
      + intros Hn. destruct (fold_inserted l pm_empty k) as [(l1' & v' & l2' & El' & Hn' & E')|[_ E']].
        * exfalso. apply Hn. rewrite El', map_app, in_app_iff. right. now left.
        * now rewrite E'.
  Qed.

  (** *** Mutable iteration with writes in between *)
  Lemma entries_keys_ext (l : list K) m m' : (forall k, is_some (m k) = is_some (m' k)) ->
    map fst (pm_entries l m) = map fst (pm_entries l m').
  Proof.
    intros E. induction l as [|k l IH]; [reflexivity|]. cbn. specialize (E k).
    destruct (m k), (m' k); cbn in *; try discriminate E; congruence.
  Qed.

  Lemma mut_spec_NoDup {X} (inj : V -> X) evs : forall rest handed (mm : K -> X),
    NoDup rest -> NoDup (somes (fst (mut_spec eqd inj evs rest handed mm))) /\
      forall k, In k (somes (fst (mut_spec eqd inj evs rest handed mm))) -> In k rest.
  Proof.
    induction evs as [|[d|j v] evs IH]; intros rest handed mm Hn; cbn [mut_spec].
    - split; [constructor|intros k []].
    - assert (G : NoDup (snd (deque_step d rest)) /\
          (forall k, In k (snd (deque_step d rest)) -> In k rest) /\
          forall k, fst (deque_step d rest) = Some k -> In k rest /\ ~ In k (snd (deque_step d rest))).
      { destruct d; cbn [deque_step].
        - destruct rest as [|x r]; cbn; [repeat split; auto; congruence|]. inversion Hn; subst.
          split; [assumption|]. split; [auto|]. intros k [= <-]. auto.
        - destruct rest as [|x r _] using rev_ind; [cbn; repeat split; auto; congruence|].
          rewrite rev_app_distr. cbn [rev app fst snd]. rewrite rev_involutive.
          apply NoDup_remove in Hn. rewrite app_nil_r in Hn. destruct Hn as [Hn1 Hn2].
          split; [exact Hn1|]. split; [intros k Hk; apply in_or_app; auto|].
          intros k [= <-]. split; [apply in_or_app; cbn; auto|exact Hn2]. }
      destruct (deque_step d rest) as [o rest']. cbn [fst snd] in G. destruct G as (G1 & G2 & G3).
      destruct (mut_spec eqd inj evs rest' (handed ++ somes [o]) mm) as [os m'] eqn:E. cbn [fst].
      specialize (IH rest' (handed ++ somes [o]) mm G1). rewrite E in IH. cbn [fst] in IH. destruct IH as [I1 I2].
      destruct o as [k|]; cbn [somes flat_map app]; fold (somes os).
      + destruct (G3 k eq_refl) as [G4 G5]. split.
        * constructor; [|exact I1]. intros Hin. apply G5. now apply I2.
        * intros x [<-|Hx]; [exact G4|]. apply G2. now apply I2.
      + split; [exact I1|]. intros x Hx. apply G2. now apply I2.
    - apply IH. exact Hn.
  Qed.

  Lemma iter_mut_run_ok ks' (Hks' : key_slots O n ks') evs : forall s kmid handed refs m,
    (forall k, m k <> None -> In k ks') ->
    at_slots O n ks' s kmid ->
    Forall2 (fun i k => ordinal O k = Val i /\ i < llen ks' /\ m k <> None) refs handed ->
    exists got m', mut_run (fun st => IterMut_step O st) snd write_some evs (map m ks') s refs = Val (got, map m' ks') /\
      Forall2 (opt_rel (fun ki k => fst ki = k /\ ordinal O k = Val (snd ki))) got
        (fst (mut_spec eqd Some evs (map fst (pm_entries kmid m)) handed m)) /\
      (forall k, m' k = snd (mut_spec eqd Some evs (map fst (pm_entries kmid m)) handed m) k) /\
      (forall k, is_some (m' k) = is_some (m k)).
  Proof.
    induction evs as [|[d|j v] evs IH]; intros s kmid handed refs m Hd Hs HF; cbn [mut_run mut_spec].
    - exists [], m. split; [reflexivity|]. split; [constructor|]. auto.
    - destruct (@smut_step _ _ _ _ HO ks' Hks' V m d s kmid Hs) as (s' & o & kmid' & E & Hs' & El & Hsub & Ho).
      rewrite E. cbn [bind]. rewrite deque_step_map. cbn [fst snd]. rewrite <- El.
      destruct (IH s' kmid' (handed ++ somes [opt_map fst (fst (deque_step d (pm_entries kmid m)))])
                  (refs ++ map snd (somes [o])) m Hd Hs') as (got & m' & E2 & G1 & G2 & G3).
      { apply Forall2_app; [exact HF|].
        destruct o as [[k i]|], (fst (deque_step d (pm_entries kmid m))) as [[k' v']|]; cbn in *; try contradiction; [|constructor].
        destruct Ho as (P1 & P2 & P3). cbn in *. subst k'. constructor; [|constructor]. split; [exact P2|].
        split; [|congruence]. destruct (@numbered_In _ O _ _ _ (proj1 Hks') (Hd k ltac:(congruence))) as (i' & Hi' & Hr).
        assert (i' = i) by congruence. subst. lia. }
      rewrite E2. cbn [bind].
      destruct (mut_spec eqd Some evs (map fst (pm_entries kmid' m)) _ m) as [os mf]. cbn [fst snd] in *.
      exists (o :: got), m'. split; [reflexivity|]. split; [|split; assumption]. constructor; [|exact G1].
      destruct o as [[k i]|], (fst (deque_step d (pm_entries kmid m))) as [[k' v']|]; cbn in *; try contradiction; [|auto].
      destruct Ho as (P1 & P2 & P3). cbn in *. subst. auto.
    - destruct (nth_error refs j) as [i|] eqn:Ei.
      + destruct (Forall2_nth_error_l HF Ei) as (k & Ek & Hk & Hlt & Hm). rewrite Ek.
        rewrite (at_write HO eqd Hks' Hk Hlt v Hm). cbn [bind].
        change (pm_set eqd m k (Some v)) with (tm_set eqd m k (Some v)).
        assert (Hsame : forall x, is_some (tm_set eqd m k (Some v) x) = is_some (m x)).
        { intros x. unfold tm_set. destruct (eqd k x) as [<-|_]; [destruct (m k); [reflexivity|congruence]|reflexivity]. }
        rewrite (entries_keys_ext kmid (fun x => eq_sym (Hsame x))).
        destruct (IH s kmid handed refs (tm_set eqd m k (Some v))) as (got & m' & E2 & G1 & G2 & G3).
        { intros x Hx. apply Hd. specialize (Hsame x). destruct (m x); [congruence|].
          destruct (tm_set eqd m k (Some v) x); [discriminate Hsame|congruence]. }
        { exact Hs. }
        { revert HF. apply Forall2_impl_in. intros a b _ _ (A1 & A2 & A3). split; [exact A1|]. split; [exact A2|].
          specialize (Hsame b). intros En. rewrite En in Hsame. destruct (m b); [discriminate Hsame|congruence]. }
        exists got, m'. split; [exact E2|]. split; [exact G1|]. split; [exact G2|].
        intros x. rewrite G3. apply Hsame.
      + rewrite (Forall2_nth_error_None HF Ei). cbn [bind]. apply IH; assumption.
  Qed.
End Rep.
