(** * MapIterProofs: every map iterator, started on storage [map m ks], refines the list of
    entries of [m]. *)
From Verif Require Import Base Spec SpecMap ModelOrdinal ModelValues ModelArrayBuilder ModelIter ModelTotal
  ModelMap MapMachine BaseProofs IterLib ValuesProofs IterProofs MapLib.
From Coq Require Import List. Import ListNotations.
Unset Strict Implicit.

Section MapIter.
  Context {cfg : Config} {K : Type} (O : Ordinal K) (n : N) (HO : ordinal_bijection O n).

  (** [ks]: the keys that have a slot. *)
  Definition key_slots (ks : list K) : Prop := numbered O 0 ks /\ llen ks <= n.

  (** ** Total iterators *)
  Lemma pending_values {V} ks (m : tmap K V) : key_slots ks ->
    pending O n {| e_next := 0; e_items := map m ks |} (tm_entries ks m).
  Proof.
    intros [H1 H2]. unfold tm_entries. split; [|split]; cbn [e_next e_items].
    - rewrite map_map. cbn [fst]. rewrite map_id. exact H1.
    - rewrite map_map. reflexivity.
    - unfold llen in *. rewrite map_length. exact H2.
  Qed.

  Definition slots_from (a : nat) (ks : list K) : list N := map N.of_nat (seq a (length ks)).

  Lemma slots_slots_from ks : slots (length ks) = slots_from 0 ks.
  Proof. reflexivity. Qed.

  Lemma slots_from_length a ks : length (slots_from a ks) = length ks.
  Proof. unfold slots_from. now rewrite map_length, seq_length. Qed.

  Lemma combine_fst {A B} (l : list A) (l' : list B) : length l = length l' -> map fst (combine l l') = l.
  Proof.
    revert l'. induction l as [|x l IH]; intros [|y l'] H; try discriminate; [reflexivity|].
    cbn. f_equal. apply IH. now injection H.
  Qed.
  Lemma combine_snd {A B} (l : list A) (l' : list B) : length l = length l' -> map snd (combine l l') = l'.
  Proof.
    revert l'. induction l as [|x l IH]; intros [|y l'] H; try discriminate; [reflexivity|].
    cbn. f_equal. apply IH. now injection H.
  Qed.

  (** Keys paired with their slot numbers. *)
  Definition kslots (a : nat) (ks : list K) : list (K * N) := combine ks (slots_from a ks).

  Lemma kslots_fst a ks : map fst (kslots a ks) = ks.
  Proof. apply combine_fst. now rewrite slots_from_length. Qed.
  Lemma kslots_snd a ks : map snd (kslots a ks) = slots_from a ks.
  Proof. apply combine_snd. now rewrite slots_from_length. Qed.
  Lemma kslots_length a ks : length (kslots a ks) = length ks.
  Proof. rewrite <- (kslots_fst a ks) at 2. now rewrite map_length. Qed.
  Lemma kslots_cons a k ks : kslots a (k :: ks) = (k, N.of_nat a) :: kslots (S a) ks.
  Proof. reflexivity. Qed.
  Lemma kslots_app a l1 l2 : kslots a (l1 ++ l2) = kslots a l1 ++ kslots (a + length l1) l2.
  Proof.
    revert a. induction l1 as [|k l1 IH]; intros a.
    - cbn [app length kslots]. now rewrite Nat.add_0_r.
    - cbn [app]. rewrite !kslots_cons. cbn [app length]. rewrite IH.
      replace (S a + length l1)%nat with (a + S (length l1))%nat by lia. reflexivity.
  Qed.

  Lemma pending_slots ks : key_slots ks ->
    pending O n {| e_next := 0; e_items := slots (length ks) |} (kslots 0 ks).
  Proof.
    intros [H1 H2]. split; [|split]; cbn [e_next e_items].
    - rewrite kslots_fst. exact H1.
    - rewrite kslots_snd. reflexivity.
    - unfold llen in *. rewrite kslots_length. exact H2.
  Qed.

  Lemma kslots_ordinal a ks k i : numbered O (N.of_nat a) ks -> In (k, i) (kslots a ks) -> ordinal O k = Val i.
  Proof.
    revert a. induction ks as [|x ks IH]; intros a H; [intros []|]. rewrite kslots_cons.
    inversion H as [|? ? ? H1 H2 H3]; subst. intros [[= -> <-]|Hin]; [exact H2|].
    apply (IH (S a)); [|exact Hin]. now replace (N.of_nat (S a)) with (N.of_nat a + 1) by lia.
  Qed.

  (** ** Sparse iterators over owned or shared values *)
  Lemma iter_init {V} ks (m : pmap K V) : key_slots ks ->
    spending O n (fun o => Val o) (fun o => o) {| e_next := 0; e_items := map m ks |} (pm_entries ks m).
  Proof.
    intros H. exists (tm_entries ks m). split; [now apply pending_values|].
    split; [|reflexivity]. unfold tm_entries. now rewrite fm_id.
  Qed.

  Lemma Iter_refines {V} : refines (Iter_step O (V := V)) (spending O n (fun o => Val o) (fun o => o)).
  Proof. apply (sparse_refines HO). Qed.
  Lemma IntoIter_refines {V} : refines (IntoIter_step O (V := V)) (spending O n (fun o => Val o) (fun o => o)).
  Proof. apply (sparse_refines HO). Qed.
  Lemma IntoIterArray_refines {V} :
    refines (IntoIterArray_step O (V := V)) (spending O n (fun o => Val o) (fun o => o)).
  Proof. apply (sparse_refines HO). Qed.

  Lemma Iter_collect {V} (s : @Iter V) l : spending O n (fun o => Val o) (fun o => o) s l ->
    exists s', collect (Iter_step O Front) (S (length (e_items s))) s = Val (l, s').
  Proof.
    intros H. destruct (@collect_refines _ _ _ _ Iter_refines (S (length (e_items s))) s l H) as (s' & E & _).
    - pose proof (spending_hint H). unfold enumerate_len, llen in *. lia.
    - eauto.
  Qed.

  Lemma Iter_clone_id {V} (s : @Iter V) : Iter_clone s = s.
  Proof.
    destruct s as [a l]. unfold Iter_clone, TIter_clone, enumerate_clone. cbn [e_next e_items].
    now rewrite map_id.
  Qed.

  Lemma Iter_debug_ok {V} (s : @Iter V) l : spending O n (fun o => Val o) (fun o => o) s l ->
    Iter_debug O s = Val l.
  Proof.
    intros H. unfold Iter_debug. rewrite Iter_clone_id. destruct (Iter_collect H) as (s' & ->). reflexivity.
  Qed.

  Lemma Iter_count_ok {V} (s : @Iter V) l : spending O n (fun o => Val o) (fun o => o) s l ->
    Iter_count O s = Val (llen l).
  Proof.
    intros H. unfold Iter_count.
    assert (Hn : llen l <= n).
    { destruct H as (l0 & (_ & _ & H1) & -> & _). unfold llen in *.
      pose proof (fm_length (fun o : option V => o) l0). lia. }
    pose proof (bij_fits HO) as Hu.
    assert (G : forall fuel (s : @Iter V) l c, spending O n (fun o => Val o) (fun o => o) s l ->
      (length l < fuel)%nat -> c + llen l <= n -> Iter_count_loop O fuel s c = Val (c + llen l)).
    { clear s l H Hn. intros fuel. induction fuel as [|fuel IH]; intros s l c H Hf Hc; [lia|].
      cbn [Iter_count_loop]. destruct (Iter_refines Front H) as (s' & E & H'). rewrite E. cbn [bind].
      destruct l as [|x l]; cbn [deque_step fst snd] in *.
      - unfold llen. cbn. f_equal. lia.
      - unfold llen in *. cbn [length] in *. rewrite uadd_ok by lia. cbn [bind].
        rewrite (IH s' l (c + 1) H') by lia. f_equal. lia. }
    rewrite (G _ _ _ _ H); [reflexivity| |lia].
    pose proof (spending_hint H). unfold enumerate_len, llen in *. lia.
  Qed.

  Lemma keys_step_map {V} d (s : @Iter V) o s' : Iter_step O d s = Val (o, s') ->
    Keys_step O d s = Val (opt_map fst o, s').
  Proof. intros E. unfold Keys_step. now rewrite E. Qed.
  Lemma values_step_map {V} d (s : @Iter V) o s' : Iter_step O d s = Val (o, s') ->
    Values_step O d s = Val (opt_map snd o, s').
  Proof. intros E. unfold Values_step. now rewrite E. Qed.

  Lemma Keys_debug_ok {V} (s : @Iter V) l : spending O n (fun o => Val o) (fun o => o) s l ->
    Keys_debug O s = Val (map fst l).
  Proof.
    intros H. unfold Keys_debug, Keys_clone, Keys. rewrite Iter_clone_id.
    destruct (Iter_collect H) as (s' & E).
    rewrite (collect_map (@keys_step_map V Front) E). reflexivity.
  Qed.
  Lemma Values_debug_ok {V} (s : @Iter V) l : spending O n (fun o => Val o) (fun o => o) s l ->
    Values_debug O s = Val (map snd l).
  Proof.
    intros H. unfold Values_debug, Values_clone, Values. rewrite Iter_clone_id.
    destruct (Iter_collect H) as (s' & E).
    rewrite (collect_map (@values_step_map V Front) E). reflexivity.
  Qed.

  (** Cloning an owning iterator clones the remaining values. *)
  Lemma fm_clone {V} (cl : V -> V) (l : list (K * option V)) :
    fm (fun o => o) (map (fun ka => (fst ka, opt_map cl (snd ka))) l) =
    map (fun kv => (fst kv, cl (snd kv))) (fm (fun o => o) l).
  Proof.
    induction l as [|[k o] l IH]; [reflexivity|]. cbn [map fst snd]. cbn [fm flat_map fst snd] in *.
    fold (fm (fun o : option V => o) l) in *.
    fold (fm (fun o : option V => o) (map (fun ka => (fst ka, opt_map cl (snd ka))) l)) in *.
    rewrite map_app, <- IH. destruct o; reflexivity.
  Qed.

  Lemma spending_clone {V} (cl : V -> V) (s : enumerate (option V)) l :
    spending O n (fun o => Val o) (fun o => o) s l ->
    spending O n (fun o => Val o) (fun o => o) (enumerate_clone (opt_map cl) s)
      (map (fun kv => (fst kv, cl (snd kv))) l).
  Proof.
    intros (l0 & H & -> & _). exists (map (fun ka => (fst ka, opt_map cl (snd ka))) l0).
    split; [now apply pending_clone|]. split; [now rewrite fm_clone|reflexivity].
  Qed.

  (** ** IterMut *)
  Definition occupied {V} (storage : list (option V)) (i : N) : option N :=
    match slice_get storage i with Some (Some _) => Some i | _ => None end.
  Definition occupied_rt {V} (storage : list (option V)) (i : N) : res (option N) :=
    o <- deref storage i ;; Val (match o with Some _ => Some i | None => None end).

  (** [(k, i)] and [(k, v)]: slot [i] is [k]'s and holds [v]. *)
  Definition points {V} (m : pmap K V) (ki : K * N) (kv : K * V) : Prop :=
    fst ki = fst kv /\ ordinal O (fst ki) = Val (snd ki) /\ m (fst ki) = Some (snd kv).

  Lemma iter_mut_points {V} ks (m : pmap K V) : key_slots ks ->
    Forall2 (points m) (fm (occupied (map m ks)) (kslots 0 ks)) (pm_entries ks m).
  Proof.
    intros [H1 H2].
    assert (G : forall pre l, ks = pre ++ l ->
      Forall2 (points m) (fm (occupied (map m ks)) (kslots (length pre) l)) (pm_entries l m)).
    { intros pre l. revert pre. induction l as [|k l IH]; intros pre E; [constructor|].
      rewrite kslots_cons. cbn [fm flat_map fst snd pm_entries].
      fold (fm (occupied (map m ks)) (kslots (S (length pre)) l)).
      assert (Hn : nth_error ks (length pre) = Some k) by (rewrite E; apply nth_error_app_at).
      unfold occupied at 1. unfold slice_get. rewrite Nat2N.id, nth_error_map, Hn. cbn [option_map].
      assert (IH' : Forall2 (points m) (fm (occupied (map m ks)) (kslots (S (length pre)) l)) (pm_entries l m)).
      { replace (S (length pre)) with (length (pre ++ [k])) by (rewrite app_length; cbn; lia).
        apply IH. now rewrite <- app_assoc. }
      destruct (m k) as [v|] eqn:Ek; cbn [app]; [|exact IH'].
      constructor; [|exact IH']. split; [reflexivity|]. cbn [fst snd]. split; [|exact Ek].
      rewrite (numbered_nth H1 Hn). reflexivity. }
    apply (G [] ks eq_refl).
  Qed.

  Lemma iter_mut_init {V} ks (m : pmap K V) : key_slots ks ->
    spending O n (occupied_rt (map m ks)) (occupied (map m ks))
      {| e_next := 0; e_items := slots (length ks) |} (fm (occupied (map m ks)) (kslots 0 ks)).
  Proof.
    intros H. exists (kslots 0 ks). split; [now apply pending_slots|]. split; [reflexivity|].
    intros i Hi. rewrite kslots_snd in Hi. unfold slots_from in Hi. apply in_map_iff in Hi.
    destruct Hi as (j & <- & Hj). apply in_seq in Hj. unfold occupied_rt, occupied, deref.
    destruct (slice_get (map m ks) (N.of_nat j)) as [o|] eqn:E.
    - cbn [bind]. destruct o; reflexivity.
    - unfold slice_get in E. apply nth_error_None in E. rewrite map_length in E. lia.
  Qed.

  Lemma IterMut_refines {V} (storage : list (option V)) :
    refines (IterMut_step O storage) (spending O n (occupied_rt storage) (occupied storage)).
  Proof. apply (sparse_refines HO). Qed.

  Lemma valuesmut_step_map {V} (st : list (option V)) d s o s' : IterMut_step O st d s = Val (o, s') ->
    ValuesMut_step O st d s = Val (opt_map snd o, s').
  Proof. intros E. unfold ValuesMut_step. now rewrite E. Qed.

  (** [as_slice] view of the remaining slots. *)
  Lemma read_slots_ok {V} (m : tmap K V) pre l post :
    read_slots (map m (pre ++ l ++ post)) (slots_from (length pre) l) = Val (map m l).
  Proof.
    revert pre. induction l as [|k l IH]; intros pre; [reflexivity|].
    unfold slots_from. cbn [length seq map read_slots].
    rewrite map_app. cbn [app map].
    assert (E : deref (map m pre ++ m k :: map m (l ++ post)) (N.of_nat (length pre)) = Val (m k)).
    { apply deref_slot. unfold llen. now rewrite map_length. }
    rewrite E. cbn [bind].
    specialize (IH (pre ++ [k])). rewrite app_length in IH. cbn [length] in IH.
    rewrite Nat.add_1_r, <- app_assoc in IH. cbn [app] in IH. unfold slots_from in IH.
    rewrite map_app in IH. cbn [map] in IH. rewrite IH. reflexivity.
  Qed.
End MapIter.
