(** * SetProofs: the sets behave like mathematical sets. *)
From Verif Require Import Base Spec SpecSet SpecIter ModelOrdinal ModelValues ModelArrayBuilder ModelSet SetMachine
  BaseProofs IterLib ValuesProofs ArrayProofs MapLib MapProofs3 BitProofs.
From Coq Require Import List.
Import ListNotations.
Unset Strict Implicit.

Section Sets.
  Context {cfg : Config} {T : Type} (O : Ordinal T) (n : N) (HO : ordinal_bijection O n).
  Implicit Types (m : mset T) (t : T) (ws : list N).

  (** The number of words. *)
  Definition wcount (k : N) : N := (k + 63) / 64.

  Lemma wcount_spec k : k <= 64 * wcount k /\ forall s, k <= 64 * s -> wcount k <= s.
  Proof.
    unfold wcount. pose proof (N.div_mod' (k + 63) 64) as H.
    pose proof (N.mod_lt (k + 63) 64) as H'. split; [lia|]. intros s Hs. lia.
  Qed.
  Lemma wcount_lt k i : i < k -> i / 64 < wcount k.
  Proof.
    intros H. destruct (wcount_spec k) as [H1 _]. apply N.div_lt_upper_bound; lia.
  Qed.
  Lemma wcount_small k : 1 <= k -> k <= 64 -> wcount k = 1.
  Proof.
    intros H1 H2. destruct (wcount_spec k) as [H3 H4]. specialize (H4 1).
    assert (wcount k <> 0) by (intros E; rewrite E in H3; lia). lia.
  Qed.

  Lemma array_set_s_eq : ordinal_array_set_s O = Val (wcount n).
  Proof.
    unfold ordinal_array_set_s. rewrite (bij_size HO). cbn [bind]. unfold cdiv_ceil.
    replace (64 =? 0) with false by reflexivity.
    destruct (wcount_spec n) as [H1 H2].
    pose proof (N.div_mod' n 64) as H. assert (H' : n mod 64 < 64) by (apply N.mod_lt; lia).
    pose proof (bij_fits HO) as Hf.
    destruct (N.ltb_spec 0 (n mod 64)) as [Hm|Hm].
    - replace (n / 64 + 1) with (wcount n) in *.
      + unfold cadd, usize_const.
        replace (Z.of_N (n / 64) + Z.of_N 1)%Z with (Z.of_N (n / 64 + 1)) by lia.
        assert (E : n / 64 + 1 = wcount n).
        { specialize (H2 (n / 64 + 1)). lia. }
        rewrite E.
        assert (wcount n <= usize_max) by lia.
        replace ((0 <=? Z.of_N (wcount n)) && (Z.of_N (wcount n) <=? Z.of_N usize_max))%Z with true by lia.
        rewrite N2Z.id. reflexivity.
      + specialize (H2 (n / 64 + 1)). lia.
    - f_equal. specialize (H2 (n / 64)). lia.
  Qed.

  (** The words represent the set [m]. *)
  Definition word_mem ws (i : N) : bool := N.testbit (nth (N.to_nat (i / 64)) ws 0) (i mod 64).
  Definition words_ok ws m : Prop := forall t i, ordinal O t = Val i -> word_mem ws i = m t.

  Lemma mod64 i : i mod 64 < 64.
  Proof. apply N.mod_lt. lia. Qed.

  Lemma contains_law ws m t : words_ok ws m -> OrdinalSetRef_contains O ws t = Val (m t).
  Proof.
    intros H. destruct (bij_to HO t) as (i & Hi & _). unfold OrdinalSetRef_contains.
    rewrite Hi. cbn [bind udiv]. unfold udiv. replace (64 =? 0) with false by reflexivity. cbn [bind].
    rewrite <- (H _ _ Hi). unfold word_mem, slice_get.
    destruct (nth_error ws (N.to_nat (i / 64))) as [w|] eqn:E.
    - unfold urem. replace (64 =? 0) with false by reflexivity. cbn [bind].
      rewrite shl_one by apply mod64. cbn [bind]. rewrite mask_test, (nth_error_nth _ _ _ E). reflexivity.
    - apply nth_error_None in E. rewrite nth_overflow by exact E. rewrite N.bits_0. reflexivity.
  Qed.

  Lemma words_ok_ext ws m m' : (forall t, m t = m' t) -> words_ok ws m -> words_ok ws m'.
  Proof. intros E H t i Hi. rewrite <- E. now apply H. Qed.

  Lemma zeros_ok k : words_ok (repeat 0 k) ms_empty.
  Proof.
    intros t i Hi. unfold word_mem. destruct (Nat.ltb_spec (N.to_nat (i / 64)) k) as [H|H].
    - rewrite nth_repeat. apply N.bits_0.
    - rewrite nth_overflow by (rewrite repeat_length; exact H). apply N.bits_0.
  Qed.

  Lemma nth_set {A} (l : list A) i j a d : (i < length l)%nat ->
    nth j (list_set l i a) d = if Nat.eq_dec i j then a else nth j l d.
  Proof.
    revert i j. induction l as [|x l IH]; intros [|i] [|j] H; cbn [length list_set nth] in *; try lia; try reflexivity.
    rewrite IH by lia. destruct (Nat.eq_dec i j), (Nat.eq_dec (Datatypes.S i) (Datatypes.S j)); try lia; reflexivity.
  Qed.

  Lemma insert_law eqd ws m t : words_ok ws m -> llen ws = wcount n ->
    exists ws', OrdinalSetMut_insert O ws t = Val (negb (m t), ws') /\
      words_ok ws' (ms_add eqd m t) /\ llen ws' = wcount n.
  Proof.
    intros H Hl. destruct (bij_to HO t) as (i & Hi & Hlt & _). unfold OrdinalSetMut_insert, OrdinalSetRef_new.
    rewrite array_set_s_eq. cbn [bind].
    assert (Ha : debug_assert ((llen ws =? 0) || (llen ws =? wcount n)) = Val tt).
    { rewrite Hl, N.eqb_refl, orb_true_r. unfold debug_assert. destruct debug_assertions; reflexivity. }
    rewrite Ha. cbn [bind]. rewrite (contains_law t H). cbn [bind]. rewrite Hi. cbn [bind].
    unfold urem, udiv. replace (64 =? 0) with false by reflexivity. cbn [bind].
    rewrite shl_one by apply mod64. cbn [bind].
    pose proof (wcount_lt Hlt) as Hq.
    assert (Hq' : (N.to_nat (i / 64) < length ws)%nat) by (unfold llen in Hl; lia).
    unfold index. destruct (nth_error ws (N.to_nat (i / 64))) as [w|] eqn:E.
    2:{ apply nth_error_None in E. lia. }
    cbn [bind]. eexists. split; [reflexivity|]. split.
    - intros t' j Hj. unfold word_mem, store_at. rewrite nth_set by exact Hq'. unfold ms_add.
      pose proof (H _ _ Hj) as Hm. unfold word_mem in Hm.
      pose proof (N.div_mod' i 64). pose proof (N.div_mod' j 64).
      destruct (Nat.eq_dec (N.to_nat (i / 64)) (N.to_nat (j / 64))) as [Eq|Ne].
      + rewrite set_bit. rewrite <- Eq, (nth_error_nth _ _ _ E) in Hm. rewrite Hm.
        destruct (eqd t t') as [<-|Hne].
        * assert (i = j) by congruence. subst j. rewrite N.eqb_refl. apply orb_true_r.
        * destruct (N.eqb_spec (i mod 64) (j mod 64)) as [Em|_]; [|apply orb_false_r].
          exfalso. apply Hne. assert (i = j) by lia. subst j. eapply bij_inj; eassumption.
      + rewrite Hm. destruct (eqd t t') as [<-|Hne]; [|reflexivity].
        exfalso. apply Ne. congruence.
    - unfold llen in *. rewrite store_at_length. exact Hl.
  Qed.

  (** ** Iteration *)

  Definition set_rem m (s : SetIter) (l : list T) : Prop :=
    exists l0, remaining O n (si_iter s) l0 /\ l = filter m l0 /\ words_ok (si_set s) m.

  Lemma set_front ws m l : words_ok ws m -> forall it fuel, remaining O n it l -> (length l < fuel)%nat ->
    exists it' l', set_loop O (values_step O Front) ws fuel it = Val (fst (deque_step Front (filter m l)), it') /\
      remaining O n it' l' /\ filter m l' = snd (deque_step Front (filter m l)).
  Proof.
    intros Hw. induction l as [|t l IH]; intros it fuel H Hf; (destruct fuel as [|fuel]; [cbn in Hf; lia|]);
      cbn [set_loop]; destruct (values_refines Front H) as (it' & E & H'); rewrite E; cbn [bind fst deque_step].
    - exists it', []. split; [reflexivity|]. split; [exact H'|reflexivity].
    - cbn [deque_step snd] in H'. rewrite (contains_law t Hw). cbn [bind filter].
      destruct (m t).
      + exists it', l. split; [reflexivity|]. split; [exact H'|reflexivity].
      + apply IH; [exact H'|cbn in Hf; lia].
  Qed.

  Lemma set_back ws m l : words_ok ws m -> forall it fuel, remaining O n it l -> (length l < fuel)%nat ->
    exists it' l', set_loop O (values_step O Back) ws fuel it = Val (fst (deque_step Back (filter m l)), it') /\
      remaining O n it' l' /\ filter m l' = snd (deque_step Back (filter m l)).
  Proof.
    intros Hw. induction l as [|t l IH] using rev_ind; intros it fuel H Hf; (destruct fuel as [|fuel]; [cbn in Hf; lia|]);
      cbn [set_loop]; destruct (values_refines Back H) as (it' & E & H').
    - rewrite E. exists it', []. split; [reflexivity|]. split; [exact H'|reflexivity].
    - rewrite deque_back in E, H'. cbn [fst snd] in *. rewrite E. cbn [bind]. rewrite (contains_law t Hw). cbn [bind].
      rewrite filter_app. cbn [filter]. destruct (m t).
      + rewrite deque_back. exists it', l. split; [reflexivity|]. split; [exact H'|reflexivity].
      + rewrite app_nil_r. apply IH; [exact H'|]. rewrite app_length in Hf. cbn in Hf. lia.
  Qed.

  Lemma set_refines m : refines (SetIter_step O) (set_rem m).
  Proof.
    intros d s l (l0 & H & -> & Hw). unfold SetIter_step.
    assert (Hf : (length l0 < Datatypes.S (N.to_nat (range_len (si_iter s))))%nat).
    { rewrite (remaining_len H). unfold llen. lia. }
    assert (Hl : exists it' l', set_loop O (values_step O d) (si_set s) (Datatypes.S (N.to_nat (range_len (si_iter s))))
        (si_iter s) = Val (fst (deque_step d (filter m l0)), it') /\
      remaining O n it' l' /\ filter m l' = snd (deque_step d (filter m l0))).
    { destruct d; [apply set_front|apply set_back]; assumption. }
    destruct Hl as (it' & l' & E & H' & Hl'). rewrite E. cbn [bind].
    eexists. split; [reflexivity|]. exists l'. cbn [si_iter si_set]. auto.
  Qed.

  Lemma filter_len (m : mset T) l : (length (filter m l) <= length l)%nat.
  Proof. induction l as [|t l IH]; [auto|]. cbn. destruct (m t); cbn; lia. Qed.

  Lemma set_rem_hint m s l : set_rem m s l -> hint_ok (SetIter_size_hint s) (llen l).
  Proof.
    intros (l0 & H & -> & _). unfold hint_ok, SetIter_size_hint, values_len. cbn [fst snd].
    rewrite (remaining_len H). unfold llen. pose proof (filter_len m l0). lia.
  Qed.

  Lemma set_rem_clone m s l : set_rem m s l -> set_rem m (SetIter_clone s) l.
  Proof. destruct s as [[a b] ws]. intros H. exact H. Qed.

  Lemma set_rem_collect m s l : set_rem m s l ->
    exists s', collect (SetIter_step O Front) (Datatypes.S (N.to_nat (range_len (si_iter s)))) s = Val (l, s').
  Proof.
    intros H. destruct (@collect_refines _ _ _ _ (@set_refines m) (Datatypes.S (N.to_nat (range_len (si_iter s)))) s l H)
      as (s' & E & _); [|eauto].
    destruct H as (l0 & H & -> & _). rewrite (remaining_len H). unfold llen. pose proof (filter_len m l0). lia.
  Qed.

  Lemma set_rem_debug m s l : set_rem m s l -> SetIter_debug O s = Val l.
  Proof.
    intros H. unfold SetIter_debug. pose proof (set_rem_clone H) as H'.
    destruct (set_rem_collect H') as (s' & E).
    assert (Er : range_len (si_iter (SetIter_clone s)) = range_len (si_iter s)) by reflexivity.
    rewrite Er in E. rewrite E. reflexivity.
  Qed.

  Lemma set_iter_start ws m ks : words_ok ws m -> enumeration O ks ->
    exists it, OrdinalSetRef_iter O ws = Val it /\ set_rem m it (members ks m).
  Proof.
    intros Hw He. destruct (values_init HO) as (l & s & Hs & Hr & _ & He' & _).
    unfold OrdinalSetRef_iter, SetIter_new. rewrite Hs. cbn [bind]. eexists. split; [reflexivity|].
    exists l. cbn [si_iter si_set]. split; [exact Hr|]. split; [|exact Hw].
    unfold members. f_equal. apply (enumeration_unique He He').
  Qed.

  Lemma ref_debug_law ws m ks : words_ok ws m -> enumeration O ks ->
    OrdinalSetRef_debug O ws = Val (members ks m).
  Proof.
    intros Hw He. destruct (set_iter_start Hw He) as (it & E & H).
    unfold OrdinalSetRef_debug, OrdinalSetRef_clone. rewrite E. cbn [bind].
    destruct (set_rem_collect H) as (s' & E'). rewrite E'. reflexivity.
  Qed.

  Lemma members_sorted ks m : enumeration O ks -> StronglySorted (ordinal_before O) (members ks m).
  Proof.
    intros [_ Hs]. unfold members. induction Hs as [|t l Hs IH Hf]; [constructor|]. cbn.
    destruct (m t); [|exact IH]. constructor; [exact IH|].
    apply Forall_forall. intros x Hx. apply filter_In in Hx as [Hx _].
    rewrite Forall_forall in Hf. now apply Hf.
  Qed.

  Lemma members_listed ks m (contains : T -> res bool) : enumeration O ks ->
    (forall t, contains t = Val (m t)) -> lists_members O contains (members ks m).
  Proof.
    intros He Hc. split; [|now apply members_sorted]. intros t. unfold members. rewrite filter_In, Hc.
    destruct He as [Ha _]. split; [intros [_ ->]; reflexivity|intros [= ->]; auto].
  Qed.

  Lemma listed_unique (contains : T -> res bool) l l' :
    lists_members O contains l -> lists_members O contains l' -> l = l'.
  Proof.
    intros [H1 S1] [H2 S2]. apply (@sorted_unique _ (ordinal_before O)); [apply before_anti|exact S1|exact S2|].
    intros t. rewrite H1, H2. reflexivity.
  Qed.

  (** ** OrdinalSet *)

  (** The debug assertion of OrdinalSetRef::new holds. *)
  Definition ref_fits (len : N) : Prop := len = 0 \/ len = wcount n \/ debug_assertions = false.

  Lemma ref_new_law ws : ref_fits (llen ws) -> OrdinalSetRef_new O ws = Val ws.
  Proof.
    intros H. unfold OrdinalSetRef_new. rewrite array_set_s_eq. cbn [bind].
    assert (E : debug_assert ((llen ws =? 0) || (llen ws =? wcount n)) = Val tt).
    { unfold debug_assert. destruct debug_assertions eqn:D; [|reflexivity].
      replace ((llen ws =? 0) || (llen ws =? wcount n)) with true; [reflexivity|].
      destruct H as [->|[->|H]]; [reflexivity| |congruence]. rewrite N.eqb_refl, orb_true_r. reflexivity. }
    rewrite E. reflexivity.
  Qed.

  Lemma mut_new_law ws : llen ws = wcount n -> OrdinalSetMut_new O ws = Val ws.
  Proof.
    intros H. unfold OrdinalSetMut_new. rewrite array_set_s_eq. cbn [bind]. rewrite H, N.eqb_refl.
    unfold debug_assert. destruct debug_assertions; reflexivity.
  Qed.

  Definition set_inv (s : OrdinalSet) m : Prop :=
    match s with
    | Small w => n <= 64 /\ words_ok [w] m
    | Large ws => 64 < n /\ (llen ws = 0 \/ llen ws = wcount n) /\ words_ok ws m
    end.

  Lemma is_small_eq : IS_SMALL O = Val (n <=? 64).
  Proof. unfold IS_SMALL. rewrite (bij_size HO). reflexivity. Qed.

  (** Elements, or no debug assertions. *)
  Definition inhabited_or_release : Prop := 1 <= n \/ debug_assertions = false.

  Lemma as_ref_law s m : inhabited_or_release -> set_inv s m ->
    exists ws, OrdinalSet_as_ref O s = Val ws /\ words_ok ws m.
  Proof.
    intros Hn H. unfold OrdinalSet_as_ref. rewrite is_small_eq. cbn [bind]. destruct s as [w|ws].
    - destruct H as [H1 H2]. replace (n <=? 64) with true by lia. exists [w]. split; [|exact H2].
      apply ref_new_law. unfold ref_fits. destruct Hn as [Hn|Hn]; [|auto].
      rewrite (wcount_small Hn H1). auto.
    - destruct H as (H1 & H2 & H3). replace (n <=? 64) with false by lia. exists ws. split; [|exact H3].
      apply ref_new_law. unfold ref_fits. tauto.
  Qed.

  Lemma elem_inhabits t : 1 <= n.
  Proof. destruct (bij_to HO t) as (i & _ & H & _). lia. Qed.

  Lemma set_contains_law s m t : set_inv s m -> OrdinalSet_contains O s t = Val (m t).
  Proof.
    intros H. destruct (as_ref_law (or_introl (elem_inhabits t)) H) as (ws & E & Hw).
    unfold OrdinalSet_contains. rewrite E. cbn [bind]. now apply contains_law.
  Qed.

  Lemma set_insert_law eqd s m t : n <= usize_max - 64 \/ n <= 64 -> set_inv s m ->
    exists s', OrdinalSet_insert O s t = Val (negb (m t), s') /\ set_inv s' (ms_add eqd m t).
  Proof.
    intros Hn H. unfold OrdinalSet_insert. rewrite is_small_eq. cbn [bind].
    pose proof (elem_inhabits t) as H0. destruct s as [w|ws].
    - destruct H as [H1 H2]. replace (n <=? 64) with true by lia.
      assert (Hl : llen [w] = wcount n) by (rewrite (wcount_small H0 H1); reflexivity).
      rewrite (mut_new_law Hl). cbn [bind].
      destruct (insert_law eqd t H2 Hl) as (ws' & E & Hw & Hl'). rewrite E. cbn [bind].
      rewrite (wcount_small H0 H1) in Hl'. destruct ws' as [|w' [|x ws']]; try (unfold llen in Hl'; cbn [length] in Hl'; lia).
      exists (Small w'). split; [reflexivity|]. split; assumption.
    - destruct H as (H1 & H2 & H3). replace (n <=? 64) with false by lia.
      assert (Halloc : exists ws1, (if llen ws =? 0 then
                 size <- ORDINAL_SIZE O ;;
                 a <- unwrap (checked_add size 64) ;;
                 b <- usub a 1 ;;
                 len <- udiv b 64 ;;
                 Val (repeat 0 (N.to_nat len))
               else Val ws) = Val ws1 /\ llen ws1 = wcount n /\ words_ok ws1 m).
      { destruct (N.eqb_spec (llen ws) 0) as [E|E].
        - rewrite (bij_size HO). cbn [bind]. unfold checked_add.
          replace (n + 64 <=? usize_max) with true by lia. cbn [unwrap bind].
          unfold usub, usize_rt.
          replace ((0 <=? Z.of_N (n + 64) - Z.of_N 1) && (Z.of_N (n + 64) - Z.of_N 1 <=? Z.of_N usize_max))%Z
            with true by lia.
          cbn [bind]. unfold udiv. replace (64 =? 0) with false by reflexivity. cbn [bind].
          eexists. split; [reflexivity|]. unfold llen at 1. rewrite repeat_length. split.
          + replace (Z.to_N (Z.of_N (n + 64) - Z.of_N 1)) with (n + 63) by lia. unfold wcount. lia.
          + destruct ws as [|w ws]; [|unfold llen in E; cbn [length] in E; lia].
            apply (@words_ok_ext _ ms_empty); [|apply zeros_ok]. intros x.
            destruct (bij_to HO x) as (i & Hi & _). rewrite <- (H3 _ _ Hi). unfold word_mem.
            destruct (N.to_nat (i / 64)); symmetry; apply N.bits_0.
        - exists ws. split; [reflexivity|]. split; [|exact H3]. tauto. }
      destruct Halloc as (ws1 & E1 & Hl & Hw). rewrite E1. cbn [bind].
      rewrite (mut_new_law Hl). cbn [bind].
      destruct (insert_law eqd t Hw Hl) as (ws' & E & Hw' & Hl'). rewrite E. cbn [bind].
      exists (Large ws'). split; [reflexivity|]. split; [exact H1|]. auto.
  Qed.

  Lemma set_new_law : exists s, OrdinalSet_new O = Val s /\ set_inv s ms_empty.
  Proof.
    unfold OrdinalSet_new. rewrite is_small_eq. cbn [bind]. eexists. split; [reflexivity|].
    destruct (N.leb_spec n 64) as [H|H].
    - split; [exact H|]. apply (@zeros_ok 1).
    - split; [exact H|]. split; [left; reflexivity|]. apply (@zeros_ok 0).
  Qed.

  Lemma set_inv_ext s m m' : (forall t, m t = m' t) -> set_inv s m -> set_inv s m'.
  Proof.
    intros E. destruct s; cbn [set_inv]; intros H; decompose [and] H; repeat split; eauto using words_ok_ext.
  Qed.

  Definition adds eqd (l : list T) m : mset T := fold_left (ms_add eqd) l m.

  Lemma adds_mem eqd l : forall m t, adds eqd l m t = true <-> m t = true \/ In t l.
  Proof.
    induction l as [|x l IH]; intros m t; cbn [adds fold_left In]; [tauto|].
    fold (adds eqd l (ms_add eqd m x)). rewrite IH. unfold ms_add. destruct (eqd x t); tauto.
  Qed.

  Lemma adds_set_of eqd l t : adds eqd l ms_empty t = set_of eqd l t.
  Proof.
    unfold set_of. apply eq_true_iff_eq. rewrite adds_mem. unfold ms_empty.
    destruct (in_dec eqd t l) as [H|H]; split; auto.
    intros [E|E]; [discriminate E|contradiction].
  Qed.

  Lemma set_insert_all_law eqd l : n <= usize_max - 64 \/ n <= 64 -> forall s m, set_inv s m ->
    exists s', OrdinalSet_insert_all O l s = Val s' /\ set_inv s' (adds eqd l m).
  Proof.
    intros Hn. induction l as [|t l IH]; intros s m H; cbn [OrdinalSet_insert_all adds fold_left].
    - eauto.
    - destruct (set_insert_law eqd t Hn H) as (s' & E & H'). rewrite E. cbn [bind]. now apply IH.
  Qed.

  Lemma set_from_iter_law eqd l : n <= usize_max - 64 \/ n <= 64 ->
    exists s, OrdinalSet_from_iter O l = Val s /\ set_inv s (set_of eqd l).
  Proof.
    intros Hn. destruct set_new_law as (s0 & E0 & H0). unfold OrdinalSet_from_iter. rewrite E0. cbn [bind].
    destruct (set_insert_all_law eqd l Hn H0) as (s & E & H). exists s. split; [exact E|].
    apply (set_inv_ext (adds_set_of eqd l) H).
  Qed.

  Lemma set_iter_law s m ks : inhabited_or_release -> set_inv s m -> enumeration O ks ->
    exists it, OrdinalSet_iter O s = Val it /\ set_rem m it (members ks m).
  Proof.
    intros Hn H He. destruct (as_ref_law Hn H) as (ws & E & Hw). unfold OrdinalSet_iter. rewrite E. cbn [bind].
    now apply set_iter_start.
  Qed.

  Lemma set_debug_law s m ks : inhabited_or_release -> set_inv s m -> enumeration O ks ->
    OrdinalSet_debug O s = Val (members ks m).
  Proof.
    intros Hn H He. destruct (as_ref_law Hn H) as (ws & E & Hw). unfold OrdinalSet_debug. rewrite E. cbn [bind].
    now apply ref_debug_law.
  Qed.

  Lemma set_step_law eqd ks op s m : n <= usize_max - 64 \/ n <= 64 -> inhabited_or_release -> enumeration O ks ->
    set_inv s m -> exists s', set_step O op s = Val (fst (sspec_step eqd ks op m), s') /\
      set_inv s' (snd (sspec_step eqd ks op m)).
  Proof.
    intros Hn Hi He H. destruct op as [t|t|sched|l| |]; cbn [set_step sspec_step fst snd].
    - destruct (set_insert_law eqd t Hn H) as (s' & E & H'). rewrite E. cbn [bind]. eauto.
    - rewrite (set_contains_law t H). cbn [bind]. eauto.
    - destruct (set_iter_law Hi H He) as (it & E & Hr). rewrite E. cbn [bind].
      destruct (@drive_refines _ _ _ _ (@set_refines m) sched _ _ Hr) as (it' & E' & _). rewrite E'. cbn [bind]. eauto.
    - destruct (set_from_iter_law eqd l Hn) as (s' & E & H'). rewrite E. cbn [bind]. eauto.
    - eexists. split; [reflexivity|]. destruct s; exact H.
    - rewrite (set_debug_law Hi H He). cbn [bind]. eauto.
  Qed.

  (** ** OrdinalArraySet *)

  Definition array_set_inv {S : nat} (s : OrdinalArraySet S) m : Prop :=
    N.of_nat S = wcount n /\ words_ok (arr_list s) m.

  Lemma array_assert S : N.of_nat S = wcount n -> ArraySet_ASSERT O S = Val tt.
  Proof.
    intros H. unfold ArraySet_ASSERT. rewrite array_set_s_eq. cbn [bind]. rewrite H, N.eqb_refl. reflexivity.
  Qed.

  Lemma array_llen {S : nat} (s : OrdinalArraySet S) : llen (arr_list s) = N.of_nat S.
  Proof. unfold llen. rewrite arr_length. reflexivity. Qed.

  Lemma array_as_ref_law {S : nat} (s : OrdinalArraySet S) m : array_set_inv s m ->
    OrdinalArraySet_as_ref O s = Val (arr_list s).
  Proof.
    intros [H1 H2]. unfold OrdinalArraySet_as_ref. rewrite (array_assert H1). cbn [bind].
    apply ref_new_law. unfold ref_fits. rewrite array_llen. auto.
  Qed.

  Lemma array_contains_law {S : nat} (s : OrdinalArraySet S) m t : array_set_inv s m ->
    OrdinalArraySet_contains O s t = Val (m t).
  Proof.
    intros H. unfold OrdinalArraySet_contains. rewrite (array_as_ref_law H). cbn [bind].
    apply contains_law, H.
  Qed.

  Lemma array_insert_law eqd {S : nat} (s : OrdinalArraySet S) m t : array_set_inv s m ->
    exists s', OrdinalArraySet_insert O s t = Val (negb (m t), s') /\ array_set_inv s' (ms_add eqd m t).
  Proof.
    intros [H1 H2]. unfold OrdinalArraySet_insert. rewrite (array_assert H1). cbn [bind].
    assert (Hl : llen (arr_list s) = wcount n) by (rewrite array_llen; exact H1).
    rewrite (mut_new_law Hl). cbn [bind].
    destruct (insert_law eqd t H2 Hl) as (ws' & E & Hw & Hl'). rewrite E. cbn [bind].
    unfold as_array. destruct (@try_arr_ok _ S ws') as (a & Ea & La).
    { unfold llen in Hl'. lia. }
    rewrite Ea. cbn [bind]. exists a. split; [reflexivity|]. split; [exact H1|]. rewrite La. exact Hw.
  Qed.

  Lemma array_new_law S : N.of_nat S = wcount n ->
    exists s, OrdinalArraySet_new O S = Val s /\ array_set_inv s ms_empty.
  Proof.
    intros H. unfold OrdinalArraySet_new, OrdinalArraySet_default, as_array. rewrite (array_assert H). cbn [bind].
    destruct (@try_arr_ok _ S (repeat 0 S)) as (a & Ea & La); [apply repeat_length|].
    rewrite Ea. exists a. split; [reflexivity|]. split; [exact H|]. rewrite La. apply zeros_ok.
  Qed.

  Lemma array_insert_all_law eqd {S : nat} l : forall (s : OrdinalArraySet S) m, array_set_inv s m ->
    exists s', OrdinalArraySet_insert_all O l s = Val s' /\ array_set_inv s' (adds eqd l m).
  Proof.
    induction l as [|t l IH]; intros s m H; cbn [OrdinalArraySet_insert_all adds fold_left].
    - eauto.
    - destruct (array_insert_law eqd t H) as (s' & E & H'). rewrite E. cbn [bind]. now apply IH.
  Qed.

  Lemma array_from_iter_law eqd S l : N.of_nat S = wcount n ->
    exists s, OrdinalArraySet_from_iter O S l = Val s /\ array_set_inv s (set_of eqd l).
  Proof.
    intros Hn. destruct (array_new_law Hn) as (s0 & E0 & H0). unfold OrdinalArraySet_from_iter. rewrite E0. cbn [bind].
    destruct (array_insert_all_law eqd l H0) as (s & E & H1 & H2). exists s. split; [exact E|].
    split; [exact H1|]. apply (words_ok_ext (adds_set_of eqd l) H2).
  Qed.

  Lemma array_debug_law {S : nat} (s : OrdinalArraySet S) m ks : array_set_inv s m -> enumeration O ks ->
    OrdinalArraySet_debug O s = Val (members ks m).
  Proof.
    intros H He. unfold OrdinalArraySet_debug. rewrite (array_as_ref_law H). cbn [bind].
    apply ref_debug_law; [apply H|exact He].
  Qed.

  Lemma array_step_law eqd ks {S : nat} op (s : OrdinalArraySet S) m : enumeration O ks -> not_iter op = true ->
    array_set_inv s m -> exists s', array_set_step O op s = Val (fst (sspec_step eqd ks op m), s') /\
      array_set_inv s' (snd (sspec_step eqd ks op m)).
  Proof.
    intros He Hop H. destruct op as [t|t|sched|l| |]; cbn [array_set_step sspec_step fst snd]; try discriminate Hop.
    - destruct (array_insert_law eqd t H) as (s' & E & H'). rewrite E. cbn [bind]. eauto.
    - rewrite (array_contains_law t H). cbn [bind]. eauto.
    - destruct (array_from_iter_law eqd l (proj1 H)) as (s' & E & H'). rewrite E. cbn [bind]. eauto.
    - eauto.
    - rewrite (array_debug_law H He). cbn [bind]. eauto.
  Qed.

  (** ** OrdinalSet64 *)

  Definition set64_inv (w : N) m : Prop :=
    n <= 64 /\ (forall i, N.testbit w i = true -> i < n) /\ (forall t i, ordinal O t = Val i -> N.testbit w i = m t).

  Lemma set64_words w m : set64_inv w m -> words_ok [w] m.
  Proof.
    intros (H1 & H2 & H3) t i Hi. destruct (bij_to HO t) as (j & Hj & Hlt & _).
    assert (i = j) by congruence. subst j. unfold word_mem.
    rewrite N.div_small, N.mod_small by lia. cbn. now apply H3.
  Qed.

  Lemma set64_assert : n <= 64 -> Set64_ASSERT O = Val tt.
  Proof.
    intros H. unfold Set64_ASSERT. rewrite (bij_size HO). cbn [bind].
    replace (n <=? 64) with true by lia. reflexivity.
  Qed.

  Lemma set64_contains_law w m t : set64_inv w m -> OrdinalSet64_contains O w t = Val (m t).
  Proof.
    intros (H1 & H2 & H3). destruct (bij_to HO t) as (i & Hi & Hlt & _). unfold OrdinalSet64_contains.
    rewrite (set64_assert H1). cbn [bind]. rewrite Hi. cbn [bind]. rewrite shl_one by lia. cbn [bind].
    rewrite mask_test, (H3 _ _ Hi). reflexivity.
  Qed.

  Lemma set64_add_law eqd w m t i : set64_inv w m -> ordinal O t = Val i ->
    set64_inv (N.lor w (2 ^ i)) (ms_add eqd m t).
  Proof.
    intros (H1 & H2 & H3) Hi. split; [exact H1|]. split.
    - intros j. rewrite set_bit. intros H. apply orb_true_iff in H as [H|H]; [now apply H2|].
      apply N.eqb_eq in H. subst j. destruct (bij_to HO t) as (j & Hj & Hlt & _). congruence.
    - intros t' j Hj. rewrite set_bit, (H3 _ _ Hj). unfold ms_add. destruct (eqd t t') as [<-|Hne].
      + assert (i = j) by congruence. subst j. rewrite N.eqb_refl. apply orb_true_r.
      + destruct (N.eqb_spec i j) as [->|_]; [|apply orb_false_r].
        exfalso. apply Hne. eapply bij_inj; eassumption.
  Qed.

  Lemma set64_insert_law eqd w m t : set64_inv w m ->
    exists w', OrdinalSet64_insert O w t = Val (negb (m t), w') /\ set64_inv w' (ms_add eqd m t).
  Proof.
    intros H. unfold OrdinalSet64_insert. rewrite (set64_assert (proj1 H)). cbn [bind].
    rewrite (set64_contains_law t H). cbn [bind].
    destruct (bij_to HO t) as (i & Hi & Hlt & _). rewrite Hi. cbn [bind].
    pose proof (proj1 H). rewrite shl_one by lia. cbn [bind].
    eexists. split; [reflexivity|]. now apply set64_add_law.
  Qed.

  Lemma set64_new_law : n <= 64 -> OrdinalSet64_new O = Val 0 /\ set64_inv 0 ms_empty.
  Proof.
    intros H. unfold OrdinalSet64_new. rewrite (set64_assert H). split; [reflexivity|].
    split; [exact H|]. split; [intros i; rewrite N.bits_0; discriminate|]. intros t i _. apply N.bits_0.
  Qed.

  Lemma set64_or_all_law eqd l : forall w m, set64_inv w m ->
    exists w', OrdinalSet64_or_all O l w = Val w' /\ set64_inv w' (adds eqd l m).
  Proof.
    induction l as [|t l IH]; intros w m H; cbn [OrdinalSet64_or_all adds fold_left].
    - eauto.
    - destruct (bij_to HO t) as (i & Hi & Hlt & _). rewrite Hi. cbn [bind].
      pose proof (proj1 H). rewrite shl_one by lia. cbn [bind]. apply IH. now apply set64_add_law.
  Qed.

  Lemma set64_from_iter_law eqd l : n <= 64 ->
    exists w, OrdinalSet64_from_iter O l = Val w /\ set64_inv w (set_of eqd l).
  Proof.
    intros Hn. destruct (set64_new_law Hn) as (E0 & H0). unfold OrdinalSet64_from_iter. rewrite E0. cbn [bind].
    destruct (set64_or_all_law eqd l H0) as (w & E & H1 & H2 & H3). exists w. split; [exact E|].
    split; [exact H1|]. split; [exact H2|]. intros t i Hi. rewrite <- adds_set_of. now apply H3.
  Qed.

  Definition i64_rem (w : N) (l : list T) : Prop :=
    n <= 64 /\ (forall i, N.testbit w i = true -> i < n) /\ Forall2 (fun i t => ordinal O t = Val i) (bits w) l.

  Lemma bits64 w : n <= 64 -> (forall i, N.testbit w i = true -> i < n) -> forall k, N.testbit w k = true -> k < 64.
  Proof. intros H1 H2 k Hk. apply H2 in Hk. lia. Qed.

  Lemma cleared_small w i : n <= 64 -> i < 64 -> (forall k, N.testbit w k = true -> k < n) ->
    forall k, N.testbit (N.land w (u64_not (2 ^ i))) k = true -> k < n.
  Proof.
    intros H1 Hi H2 k Hk. rewrite clear_bit in Hk; [|now apply bits64|exact Hi].
    apply andb_true_iff in Hk as [Hk _]. now apply H2.
  Qed.

  Lemma decode_bit t i : ordinal O t = Val i -> from_ordinal O i = Val (Some t).
  Proof. intros H. destruct (bij_to HO t) as (j & Hj & _ & Hf). congruence. Qed.

  Lemma i64_refines : refines (Iter64_step O) i64_rem.
  Proof.
    intros d w l (H1 & H2 & H3). pose proof (bits64 H1 H2) as Hb. destruct d; cbn [Iter64_step].
    - unfold Iter64_next. pose proof (trailing_zeros_bits Hb) as Ht. cbv zeta.
      destruct (trailing_zeros w =? 64).
      + rewrite Ht in H3. inversion H3; subst. exists w. split; [reflexivity|].
        split; [exact H1|]. split; [exact H2|]. rewrite Ht. constructor.
      + destruct Ht as (H64 & Ht). rewrite Ht in H3. inversion H3 as [|i t is l' Hi Hrest]; subst.
        rewrite shl_one by exact H64. cbn [bind]. rewrite (decode_bit Hi). cbn [bind unwrap deque_step fst snd].
        eexists. split; [reflexivity|]. split; [exact H1|]. split; [now apply cleared_small|exact Hrest].
    - unfold Iter64_next_back. pose proof (leading_zeros_bits Hb) as Ht.
      destruct (checked_sub (64 - 1) (leading_zeros w)) as [i|].
      + destruct Ht as (H64 & Ht). rewrite Ht in H3. apply Forall2_app_inv_l in H3 as (l1 & l2 & F1 & F2 & ->).
        inversion F2 as [|i' t is l' Hi Hrest]; subst. inversion Hrest; subst.
        rewrite shl_one by exact H64. cbn [bind]. rewrite (decode_bit Hi). cbn [bind unwrap].
        rewrite deque_back. eexists. split; [reflexivity|]. split; [exact H1|].
        split; [now apply cleared_small|exact F1].
      + rewrite Ht in H3. inversion H3; subst. exists w. split; [reflexivity|].
        split; [exact H1|]. split; [exact H2|]. rewrite Ht. constructor.
  Qed.

  Lemma i64_len w l : i64_rem w l -> Iter64_len w = llen l.
  Proof.
    intros (H1 & H2 & H3). unfold Iter64_len. rewrite (count_ones_bits (bits64 H1 H2)). unfold llen.
    rewrite (Forall2_length H3). reflexivity.
  Qed.

  Lemma bits_bound w : (length (bits w) <= 64)%nat.
  Proof.
    unfold bits. assert (H : length (slots 64) = 64%nat) by reflexivity.
    revert H. generalize (slots 64) as l. intros l H. rewrite <- H. clear H.
    induction l as [|x l IH]; [auto|]. cbn. destruct (N.testbit w x); cbn; lia.
  Qed.

  Lemma i64_debug w l : i64_rem w l -> Iter64_debug O w = Val l.
  Proof.
    intros H. unfold Iter64_debug, Iter64_clone.
    destruct (@collect_refines _ _ _ _ i64_refines 65 w l H) as (s' & E & _).
    { destruct H as (_ & _ & H3). rewrite <- (Forall2_length H3). pose proof (bits_bound w). lia. }
    rewrite E. reflexivity.
  Qed.

  Lemma numbered_Forall2 a l : numbered O a l ->
    Forall2 (fun i t => ordinal O t = Val i) (map (fun k => a + N.of_nat k) (seq 0 (length l))) l.
  Proof.
    induction 1 as [a|a t l H1 H2 H IH]; [constructor|]. cbn [length seq map]. constructor.
    - rewrite N.add_0_r. exact H2.
    - rewrite <- seq_shift, map_map. replace (map (fun k => a + N.of_nat (Datatypes.S k)) (seq 0 (length l)))
        with (map (fun k => a + 1 + N.of_nat k) (seq 0 (length l))); [exact IH|].
      apply map_ext. intros k. lia.
  Qed.

  Lemma i64_start w m ks : set64_inv w m -> enumeration O ks -> i64_rem w (members ks m).
  Proof.
    intros (H1 & H2 & H3) He. split; [exact H1|]. split; [exact H2|].
    destruct (enumeration_numbered HO He) as [Hnum Hlen].
    apply numbered_Forall2 in Hnum.
    assert (E : bits w = filter (N.testbit w) (map (fun k => 0 + N.of_nat k) (seq 0 (length ks)))).
    { unfold bits, slots. replace 64%nat with (length ks + (64 - length ks))%nat by (unfold llen in Hlen; lia).
      rewrite seq_app, map_app, filter_app. cbn [Nat.add].
      rewrite (@filter_none _ (N.testbit w) (map N.of_nat (seq (length ks) (64 - length ks)))).
      - rewrite app_nil_r. f_equal.
      - intros x Hx. apply in_map_iff in Hx as (k & <- & Hk). apply in_seq in Hk.
        destruct (N.testbit w (N.of_nat k)) eqn:E; [|reflexivity]. apply H2 in E. unfold llen in Hlen. lia. }
    rewrite E. unfold members. eapply filter_Forall2; [exact Hnum|].
    intros i t _ _ Hi. now apply H3.
  Qed.

  Lemma set64_iter_law w m ks : set64_inv w m -> enumeration O ks ->
    OrdinalSet64_iter O w = Val w /\ i64_rem w (members ks m).
  Proof.
    intros H He. unfold OrdinalSet64_iter. rewrite (set64_assert (proj1 H)). split; [reflexivity|].
    now apply i64_start.
  Qed.

  Lemma set64_debug_law w m ks : inhabited_or_release -> set64_inv w m -> enumeration O ks ->
    OrdinalSet64_debug O w = Val (members ks m).
  Proof.
    intros Hn H He. unfold OrdinalSet64_debug, OrdinalSet64_as_ref. rewrite ref_new_law.
    - cbn [bind]. apply ref_debug_law; [now apply set64_words|exact He].
    - unfold ref_fits. destruct Hn as [Hn|Hn]; [|auto]. rewrite (wcount_small Hn (proj1 H)). auto.
  Qed.

  Lemma set64_step_law eqd ks op w m : not_debug op = true \/ inhabited_or_release -> enumeration O ks ->
    set64_inv w m -> exists w', set64_step O op w = Val (fst (sspec_step eqd ks op m), w') /\
      set64_inv w' (snd (sspec_step eqd ks op m)).
  Proof.
    intros Hop He H. destruct op as [t|t|sched|l| |]; cbn [set64_step sspec_step fst snd].
    - destruct (set64_insert_law eqd t H) as (w' & E & H'). rewrite E. cbn [bind]. eauto.
    - rewrite (set64_contains_law t H). cbn [bind]. eauto.
    - destruct (set64_iter_law H He) as (E & Hr). rewrite E. cbn [bind].
      destruct (@drive_refines _ _ _ _ i64_refines sched _ _ Hr) as (it' & E' & _). rewrite E'. cbn [bind]. eauto.
    - destruct (set64_from_iter_law eqd l (proj1 H)) as (w' & E & H'). rewrite E. cbn [bind]. eauto.
    - eauto.
    - destruct Hop as [Hop|Hop]; [discriminate Hop|]. rewrite (set64_debug_law Hop H He). cbn [bind]. eauto.
  Qed.
End Sets.
