(** * OverrideProofs2: overridden [all_values] on otherwise lawful key types (C97). *)
From Verif Require Import Base Spec SpecMap SpecMem SpecTotal SpecSafety SpecOverride SpecIter SpecSet ModelOrdinal ModelValues
  ModelArrayBuilder ModelIter ModelTotal ModelMap MapMachine ModelSet ModelOverride BaseProofs IterLib ValuesProofs ArrayProofs
  MapLib MapProofs3 TotalProofs SetMachine SetProofs SetProofs2 OverrideProofs.
From Coq Require Import List. Import ListNotations.
Set Implicit Arguments.
Unset Strict Implicit.

Section Lawful.
  Context {cfg : Config} {K : Type} (O : Ordinal K) (n : N) (HL : lawful O n).
  Context (ks : list K) (He : enumeration O ks).
  Let HO : ordinal_bijection O n := proj1 HL.

  Definition range (lo hi : N) : OrdinalValues := {| r_start := lo; r_end := hi |}.

  Lemma nth_numbered a l : numbered O a l -> forall i t, nth_error l i = Some t ->
    from_ordinal O (a + N.of_nat i) = Val (Some t) /\ ordinal O t = Val (a + N.of_nat i).
  Proof.
    induction 1 as [a|a u l H1 H2 H IH]; intros [|i] t Ht; try discriminate Ht.
    - injection Ht as <-. rewrite N.add_0_r. auto.
    - replace (a + N.of_nat (S i)) with (a + 1 + N.of_nat i) by lia. apply IH, Ht.
  Qed.
  Lemma ks_nth i t : nth_error ks (N.to_nat i) = Some t <-> ordinal O t = Val i.
  Proof.
    destruct (enumeration_numbered HO He) as [Hn Hl]. split.
    - intros H. destruct (nth_numbered Hn H) as [_ G]. rewrite G. f_equal. lia.
    - intros H. destruct (bij_to HO t) as (j & Hj & Hlt & _). assert (i = j) by congruence. subst j.
      destruct (nth_error ks (N.to_nat i)) as [u|] eqn:Eu.
      + destruct (nth_numbered Hn Eu) as [_ G]. f_equal. eapply bij_inj; [exact HO|exact G|]. rewrite H. f_equal. lia.
      + apply nth_error_None in Eu. unfold llen in Hl. lia.
  Qed.
  Lemma ks_length : length ks = N.to_nat n.
  Proof. destruct (enumeration_numbered HO He) as [_ Hl]. unfold llen in Hl. lia. Qed.

  Lemma skipn_nth {A} (l : list A) : forall i x, nth_error l i = Some x -> skipn i l = x :: skipn (S i) l.
  Proof.
    induction l as [|y l IH]; intros [|i] x H; try discriminate H.
    - now injection H as ->.
    - cbn [skipn]. now apply IH.
  Qed.
  Lemma slice_cons {A} (l : list A) lo hi x : lo < hi -> nth_error l (N.to_nat lo) = Some x ->
    slice l lo hi = x :: slice l (lo + 1) hi.
  Proof.
    intros Hl Hx. unfold slice. rewrite (skipn_nth Hx).
    replace (N.to_nat (hi - lo)) with (S (N.to_nat (hi - (lo + 1)))) by lia.
    replace (N.to_nat (lo + 1)) with (S (N.to_nat lo)) by lia. reflexivity.
  Qed.
  Lemma slice_empty {A} (l : list A) lo hi : hi <= lo -> slice l lo hi = [].
  Proof. intros H. unfold slice. replace (N.to_nat (hi - lo)) with 0%nat by lia. reflexivity. Qed.
  Lemma slice_past {A} (l : list A) lo hi : (length l <= N.to_nat lo)%nat -> slice l lo hi = [].
  Proof. intros H. unfold slice. rewrite skipn_all2 by exact H. apply firstn_nil. Qed.
  Lemma slice_all {A} (l : list A) : slice l 0 (llen l) = l.
  Proof. unfold slice, llen. cbn [skipn]. rewrite N.sub_0_r, Nat2N.id. apply firstn_all. Qed.
  Lemma slice_length lo hi : length (slice ks lo hi) = N.to_nat (N.min hi n - lo).
  Proof. unfold slice. rewrite firstn_length, skipn_length, ks_length. lia. Qed.

  Lemma lawful_runs lo hi : hi <= usize_max ->
    runs (values_next O) (range lo hi) (slice ks lo hi) (if all_decode n lo hi then None else Some PUnwrap).
  Proof.
    intros Hu. remember (N.to_nat (hi - lo)) as c eqn:Ec. revert lo Ec. induction c as [|c IH]; intros lo Ec.
    - rewrite slice_empty by lia. unfold all_decode. replace (hi <=? lo) with true by lia. rewrite orb_true_r.
      eapply runs_end. unfold values_next, range_next, range. cbn [r_start r_end].
      replace (lo <? hi) with false by lia. reflexivity.
    - destruct (N.lt_ge_cases lo n) as [Hlo|Hlo].
      + destruct (bij_from HO Hlo) as (t & H1 & H2).
        rewrite (@slice_cons _ ks lo hi t) by (try lia; now apply ks_nth).
        eapply runs_cons.
        * unfold values_next, range_next, range. cbn [r_start r_end]. replace (lo <? hi) with true by lia.
          rewrite H1. reflexivity.
        * replace (all_decode n lo hi) with (all_decode n (lo + 1) hi).
          -- apply IH. lia.
          -- unfold all_decode. destruct (N.leb_spec hi n); cbn; [reflexivity|]. lia.
      + rewrite slice_past by (rewrite ks_length; lia). unfold all_decode.
        replace (hi <=? n) with false by lia. replace (hi <=? lo) with false by lia. cbn.
        apply runs_panic. unfold values_next, range_next, range. cbn [r_start r_end]. replace (lo <? hi) with true by lia.
        rewrite (proj2 HL lo) by lia. reflexivity.
  Qed.

  (** *** OrdinalTotalMap *)
  Lemma then_panics_finished {A E} f (r : res (result (list A) E)) :
    finished [] f r = match f with None => r | Some w => then_panics w r end.
  Proof. destruct f; destruct r as [[a|e]| | | |]; reflexivity. Qed.

  Lemma with_try_new_law {V E St} (init : St -> K -> St * res (result V E)) st lo hi : hi <= usize_max ->
    OrdinalTotalMap_try_new_with O (Val (range lo hi)) init st =
    (fst (calls init (slice ks lo hi) st),
     if all_decode n lo hi then snd (calls init (slice ks lo hi) st)
     else then_panics PUnwrap (snd (calls init (slice ks lo hi) st))).
  Proof.
    intros Hu. unfold OrdinalTotalMap_try_new_with. rewrite (bij_size HO). cbn [bind].
    rewrite (@try_new_runs _ O V E St init _ _ [] _ st _ (@lawful_runs lo hi Hu)).
    - rewrite then_panics_finished. destruct (all_decode n lo hi); reflexivity.
    - rewrite slice_length. unfold range_len, range. cbn [r_start r_end]. lia.
  Qed.

  Lemma calls_ok_infallible {V St} (init : St -> K -> St * res V) l st :
    (x <- snd (calls (infallible_init init) l st) ;; Val (into_ok x)) = snd (calls_ok init l st) /\
    fst (calls (infallible_init init) l st) = fst (calls_ok init l st).
  Proof.
    rewrite calls_infallible. cbn [fst snd]. split; [|reflexivity]. destruct (snd (calls_ok init l st)); reflexivity.
  Qed.

  Lemma with_new_law {V St} (init : St -> K -> St * res V) st lo hi : hi <= usize_max ->
    OrdinalTotalMap_new_with O (Val (range lo hi)) init st =
    (fst (calls_ok init (slice ks lo hi) st),
     if all_decode n lo hi then snd (calls_ok init (slice ks lo hi) st)
     else snd (calls_ok init (slice ks lo hi) st) ;;; Panic PUnwrap).
  Proof.
    intros Hu. unfold OrdinalTotalMap_new_with. rewrite with_try_new_law by exact Hu. rewrite calls_infallible.
    cbn [fst snd]. f_equal. destruct (all_decode n lo hi); destruct (snd (calls_ok init (slice ks lo hi) st)); reflexivity.
  Qed.

  Lemma calls_ok_length {V St} (init : St -> K -> St * res V) l : forall st vs,
    snd (calls_ok init l st) = Val vs -> length vs = length l.
  Proof.
    induction l as [|a l IH]; intros st vs H; cbn [calls_ok] in H.
    - now injection H as <-.
    - destruct (init st a) as [st1 r]. destruct r as [b| | | |]; try discriminate H.
      specialize (IH st1). destruct (calls_ok init l st1) as [st2 r2]. cbn [snd] in *.
      destruct r2 as [bs| | | |]; cbn [bind] in H; try discriminate H. injection H as <-. cbn. f_equal. now apply IH.
  Qed.

  Lemma index_nth {A} (l : list A) i :
    index l i = match nth_error l (N.to_nat i) with Some x => Val x | None => Panic PIndex end.
  Proof. reflexivity. Qed.

  Lemma nth_firstn {A} (l : list A) : forall c i, (i < c)%nat -> nth_error (firstn c l) i = nth_error l i.
  Proof.
    induction l as [|x l IH]; intros [|c] [|i] H; try lia; try reflexivity. cbn. apply IH. lia.
  Qed.
  Lemma nth_skipn {A} (l : list A) : forall c i, nth_error (skipn c l) i = nth_error l (c + i).
  Proof.
    induction l as [|x l IH]; intros [|c] i; try reflexivity.
    - cbn. destruct i; reflexivity.
    - cbn. apply IH.
  Qed.
  Lemma nth_slice {A} (l : list A) lo hi i : i < hi - lo ->
    nth_error (slice l lo hi) (N.to_nat i) = nth_error l (N.to_nat (lo + i)).
  Proof.
    intros Hi. unfold slice. rewrite nth_firstn by lia. rewrite nth_skipn.
    f_equal. lia.
  Qed.

  (** A lookup reads the value made for the key [lo] places further on. *)
  Lemma with_new_lookup {V} (f : K -> V) lo hi : lo <= hi -> hi <= n ->
    exists m, OrdinalTotalMap_new_with O (Val (range lo hi)) (fun st k => (st, Val (f k))) tt = (tt, Val m) /\
      OrdinalTotalMap_len O m = Val n /\
      (forall k k' i, ordinal O k = Val i -> ordinal O k' = Val (lo + i) -> lo + i < hi ->
         OrdinalTotalMap_get O m k = Val (f k')) /\
      (forall k i, ordinal O k = Val i -> hi <= lo + i -> OrdinalTotalMap_get O m k = Panic PIndex).
  Proof.
    intros Hl Hh. pose proof (bij_fits HO) as Hu. exists (map f (slice ks lo hi)).
    rewrite with_new_law by lia. rewrite calls_ok_pure. cbn [fst snd].
    replace (all_decode n lo hi) with true by (unfold all_decode; replace (hi <=? n) with true by lia; reflexivity).
    split; [reflexivity|]. split; [apply (bij_size HO)|]. split.
    - intros k k' i Hk Hk' Hi. unfold OrdinalTotalMap_get. rewrite Hk. cbn [bind]. rewrite index_nth.
      rewrite nth_error_map, nth_slice by lia. apply ks_nth in Hk'. rewrite Hk'. reflexivity.
    - intros k i Hk Hi. unfold OrdinalTotalMap_get. rewrite Hk. cbn [bind]. rewrite index_nth.
      replace (nth_error (map f (slice ks lo hi)) (N.to_nat i)) with (@None V); [reflexivity|].
      symmetry. apply nth_error_None. rewrite map_length, slice_length. lia.
  Qed.

  (** Every key finds its own value exactly if the range is the right one. *)
  Lemma with_new_right lo hi : hi <= usize_max ->
    ((exists m, snd (OrdinalTotalMap_new_with O (Val (range lo hi)) (fun st k => (st, Val k)) tt) = Val m /\
        forall k, OrdinalTotalMap_get O m k = Val k) <-> right_range n lo hi).
  Proof.
    intros Hu. split.
    - intros (m & Hm & Hg). rewrite with_new_law in Hm by exact Hu. rewrite calls_ok_pure in Hm. cbn [snd] in Hm.
      rewrite map_id in Hm. destruct (all_decode n lo hi) eqn:Ed; [|discriminate Hm]. injection Hm as <-.
      unfold all_decode in Ed. unfold right_range. destruct (N.eq_dec n 0) as [->|Hn0].
      { destruct (N.leb_spec hi 0); [lia|]. cbn in Ed. apply N.leb_le in Ed. auto. }
      assert (Hlast : exists k, ordinal O k = Val (n - 1)).
      { destruct (@bij_from _ _ _ _ HO (n - 1)) as (t & _ & Ht); [lia|]. eauto. }
      destruct Hlast as (k & Hk). pose proof (Hg k) as G. unfold OrdinalTotalMap_get in G. rewrite Hk in G. cbn [bind] in G.
      rewrite index_nth in G. destruct (nth_error (slice ks lo hi) (N.to_nat (n - 1))) as [u|] eqn:Eu; [|discriminate G].
      assert (Hlt : (N.to_nat (n - 1) < length (slice ks lo hi))%nat).
      { apply nth_error_Some. congruence. }
      rewrite slice_length in Hlt. destruct (N.leb_spec hi n); [|cbn in Ed; apply N.leb_le in Ed; lia]. lia.
    - intros Hr. exists ks. rewrite with_new_law by exact Hu. rewrite calls_ok_pure. cbn [snd]. rewrite map_id.
      assert (El : llen ks = n) by (unfold llen; rewrite ks_length; lia).
      assert (Es : slice ks lo hi = ks).
      { destruct Hr as [[-> ->]|[E H]]; [rewrite <- El; apply slice_all|].
        rewrite slice_empty by exact H. destruct ks as [|x l]; [reflexivity|]. unfold llen in El. cbn in El. lia. }
      rewrite Es. replace (all_decode n lo hi) with true.
      2:{ unfold all_decode. destruct Hr as [[-> ->]|[E H]]; [rewrite N.leb_refl; reflexivity|].
          replace (hi <=? lo) with true by lia. now rewrite orb_true_r. }
      split; [reflexivity|]. intros k. destruct (bij_to HO k) as (i & Hi & _). unfold OrdinalTotalMap_get. rewrite Hi.
      cbn [bind]. rewrite index_nth. apply ks_nth in Hi. rewrite Hi. reflexivity.
  Qed.

  (** *** The array maps *)
  Section Arrays.
    Context (S : nat) (HS : N.of_nat S = n).

    Lemma assert_law : ASSERT O S = Val tt.
    Proof. unfold ASSERT. rewrite (bij_size HO). cbn [bind]. rewrite HS, N.eqb_refl. reflexivity. Qed.

    Lemma with_array_right {V E St} (init : St -> K -> St * res (result V E)) st lo hi : right_range n lo hi ->
      OrdinalTotalArrayMap_try_new_with O (Val (range lo hi)) S init st = OrdinalTotalArrayMap_try_new O S init st.
    Proof.
      intros Hr. unfold OrdinalTotalArrayMap_try_new_with, OrdinalTotalArrayMap_try_new, values_new.
      rewrite assert_law, (bij_size HO). cbn [bind]. destruct Hr as [[-> ->]|[E1 H]]; [reflexivity|].
      assert (S = 0%nat) by lia. subst S. cbn [fill Nat.add]. unfold values_next, range_next, range. cbn [r_start r_end].
      replace (lo <? hi) with false by lia. rewrite E1. reflexivity.
    Qed.

    Lemma list_of_then_panics {V E} w (r : res (result (arr V S) E)) (x : res (result (list V) E)) :
      list_of r = then_panics w x -> r = then_panics w x.
    Proof.
      destruct x as [[a|e]| | | |]; destruct r as [[b|e']| | | |]; cbn; intros H; try discriminate H; try reflexivity;
        congruence.
    Qed.

    Lemma with_array_wrong {V E St} (init : St -> K -> St * res (result V E)) st lo hi : hi <= usize_max ->
      ~ right_range n lo hi ->
      fst (OrdinalTotalArrayMap_try_new_with O (Val (range lo hi)) S init st) = fst (calls init (slice ks lo hi) st) /\
      returned (snd (OrdinalTotalArrayMap_try_new_with O (Val (range lo hi)) S init st)) =
        then_panics PUnwrap (snd (calls init (slice ks lo hi) st)).
    Proof.
      intros Hu Hr. unfold OrdinalTotalArrayMap_try_new_with. rewrite assert_law. cbn [bind]. rewrite builder_new_of.
      destruct (@fill_runs _ _ V E St S (values_next O) init _ (S + 2) [] _ st _ (@lawful_runs lo hi Hu)) as [G1 G2].
      { rewrite slice_length. cbn. lia. }
      { rewrite slice_length. lia. }
      split; [exact G1|]. apply list_of_then_panics. etransitivity; [exact G2|]. rewrite then_panics_finished.
      destruct (all_decode n lo hi) eqn:Ed; [|reflexivity].
      destruct (Nat.eqb_spec (length (@nil V) + length (slice ks lo hi)) S) as [E1|E1]; [|reflexivity].
      exfalso. apply Hr. rewrite slice_length in E1. cbn in E1. unfold all_decode in Ed. unfold right_range.
      destruct (N.leb_spec hi n); cbn in Ed; [|apply N.leb_le in Ed]; lia.
    Qed.

    Lemma with_array_new_right {V St} (init : St -> K -> St * res V) st lo hi : right_range n lo hi ->
      OrdinalTotalArrayMap_new_with O (Val (range lo hi)) S init st = OrdinalTotalArrayMap_new O S init st.
    Proof. intros Hr. unfold OrdinalTotalArrayMap_new_with. rewrite with_array_right by exact Hr. now rewrite new_is_try_new. Qed.

    Lemma with_array_new_wrong {V St} (init : St -> K -> St * res V) st lo hi : hi <= usize_max ->
      ~ right_range n lo hi ->
      fst (OrdinalTotalArrayMap_new_with O (Val (range lo hi)) S init st) = fst (calls_ok init (slice ks lo hi) st) /\
      returned (snd (OrdinalTotalArrayMap_new_with O (Val (range lo hi)) S init st)) =
        (snd (calls_ok init (slice ks lo hi) st) ;;; Panic PUnwrap).
    Proof.
      intros Hu Hr. destruct (@with_array_wrong V Empty_set St (infallible_init init) st lo hi Hu Hr) as [G1 G2].
      unfold OrdinalTotalArrayMap_new_with.
      destruct (OrdinalTotalArrayMap_try_new_with O (Val (range lo hi)) S (infallible_init init) st) as [st' o].
      cbn [fst snd returned] in *. rewrite G2, G1, calls_infallible. cbn [fst snd]. split; [reflexivity|].
      destruct (snd (calls_ok init (slice ks lo hi) st)); reflexivity.
    Qed.

    Lemma with_pure_wrong {V} (f : K -> V) lo hi : hi <= usize_max -> ~ right_range n lo hi ->
      returned (snd (OrdinalTotalArrayMap_new_with O (Val (range lo hi)) S (fun st k => (st, Val (f k))) tt)) = Panic PUnwrap.
    Proof.
      intros Hu Hr. destruct (@with_array_new_wrong V unit (fun st k => (st, Val (f k))) tt lo hi Hu Hr) as [_ G].
      rewrite G, calls_ok_pure. reflexivity.
    Qed.

    Lemma slots_called {V} (m : OrdinalTotalArrayMap S V) l : exists r,
      snd (calls_ok (fun (st : unit) k => (st, i <- ordinal O k ;; index_slot (arr_list m) i)) l tt) = Val r.
    Proof.
      induction l as [|k l (r & IH)]; [eexists; reflexivity|]. cbn [calls_ok].
      destruct (bij_to HO k) as (i & Hi & Hlt & _). rewrite Hi. cbn [bind]. unfold index_slot. rewrite index_nth.
      destruct (nth_error (arr_list m) (N.to_nat i)) as [v|] eqn:Ev.
      - cbn [bind]. destruct (calls_ok _ l tt) as [st2 r2]. cbn [snd] in *. rewrite IH. eexists. reflexivity.
      - apply nth_error_None in Ev. rewrite arr_length in Ev. lia.
    Qed.

    Lemma with_arrays_right lo hi : right_range n lo hi ->
      (forall V E St (init : St -> K -> St * res (result V E)) st,
         OrdinalTotalArrayMap_try_new_with O (Val (range lo hi)) S init st = OrdinalTotalArrayMap_try_new O S init st) /\
      (forall V St (init : St -> K -> St * res V) st,
         OrdinalTotalArrayMap_new_with O (Val (range lo hi)) S init st = OrdinalTotalArrayMap_new O S init st) /\
      (forall V (d : V), OrdinalTotalArrayMap_default_with O (Val (range lo hi)) S d = OrdinalTotalArrayMap_default O S d) /\
      (forall V (m : OrdinalTotalArrayMap S V),
         OrdinalTotalArrayMap_as_ref_with O (Val (range lo hi)) m = OrdinalTotalArrayMap_as_ref O m) /\
      (forall V, OrdinalArrayMap_new_with O (Val (range lo hi)) S V = OrdinalArrayMap_new O S) /\
      (forall V (l : list (K * V)),
         OrdinalArrayMap_from_iter_with O (Val (range lo hi)) S l = OrdinalArrayMap_from_iter O S l).
    Proof.
      intros Hr. split; [intros; now apply with_array_right|]. split; [intros; now apply with_array_new_right|].
      assert (A : forall V, OrdinalArrayMap_new_with O (Val (range lo hi)) S V = OrdinalArrayMap_new O S).
      { intros V. unfold OrdinalArrayMap_new_with. rewrite with_array_new_right by exact Hr. reflexivity. }
      repeat split; intros.
      - unfold OrdinalTotalArrayMap_default_with. rewrite with_array_new_right by exact Hr. reflexivity.
      - unfold OrdinalTotalArrayMap_as_ref_with. rewrite with_array_new_right by exact Hr. reflexivity.
      - apply A.
      - unfold OrdinalArrayMap_from_iter_with. rewrite A. reflexivity.
    Qed.

    Lemma with_arrays_wrong lo hi : hi <= usize_max -> ~ right_range n lo hi ->
      (forall V E St (init : St -> K -> St * res (result V E)) st,
         fst (OrdinalTotalArrayMap_try_new_with O (Val (range lo hi)) S init st) = fst (calls init (slice ks lo hi) st) /\
         returned (snd (OrdinalTotalArrayMap_try_new_with O (Val (range lo hi)) S init st)) =
           then_panics PUnwrap (snd (calls init (slice ks lo hi) st))) /\
      (forall V St (init : St -> K -> St * res V) st,
         fst (OrdinalTotalArrayMap_new_with O (Val (range lo hi)) S init st) = fst (calls_ok init (slice ks lo hi) st) /\
         returned (snd (OrdinalTotalArrayMap_new_with O (Val (range lo hi)) S init st)) =
           (snd (calls_ok init (slice ks lo hi) st) ;;; Panic PUnwrap)) /\
      (forall V (d : V), OrdinalTotalArrayMap_default_with O (Val (range lo hi)) S d = Panic PUnwrap) /\
      (forall V (m : OrdinalTotalArrayMap S V),
         OrdinalTotalArrayMap_as_ref_with O (Val (range lo hi)) m = Panic PUnwrap) /\
      (forall V, OrdinalArrayMap_new_with O (Val (range lo hi)) S V = Panic PUnwrap) /\
      (forall V (l : list (K * V)), OrdinalArrayMap_from_iter_with O (Val (range lo hi)) S l = Panic PUnwrap).
    Proof.
      intros Hu Hr. split; [intros; now apply with_array_wrong|]. split; [intros; now apply with_array_new_wrong|].
      assert (A : forall V, OrdinalArrayMap_new_with O (Val (range lo hi)) S V = Panic PUnwrap).
      { intros V. apply (@with_pure_wrong (option V) (fun _ => None) lo hi Hu Hr). }
      repeat split; intros.
      - apply (@with_pure_wrong V (fun _ => d) lo hi Hu Hr).
      - unfold OrdinalTotalArrayMap_as_ref_with.
        destruct (@with_array_new_wrong N unit (fun st k => (st, i <- ordinal O k ;; index_slot (arr_list m) i)) tt lo hi Hu Hr)
          as [_ G]. rewrite G. destruct (slots_called m (slice ks lo hi)) as (r & E1). rewrite E1. reflexivity.
      - apply A.
      - unfold OrdinalArrayMap_from_iter_with. rewrite A. reflexivity.
    Qed.
  End Arrays.

  (** *** Keys and sets *)
  Lemma remaining_slice lo hi : lo <= hi -> hi <= n -> remaining O n (range lo hi) (slice ks lo hi).
  Proof.
    intros Hl Hh. destruct (enumeration_numbered HO He) as [Hn Hk].
    assert (El : llen (slice ks lo hi) = hi - lo) by (unfold llen; rewrite slice_length; lia).
    split; [|split; cbn [range r_start r_end]; rewrite ?El; lia].
    cbn [range r_start]. rewrite <- (firstn_skipn (N.to_nat lo) ks) in Hn.
    apply numbered_app in Hn as [_ Hn].
    replace (0 + llen (firstn (N.to_nat lo) ks)) with lo in Hn.
    2:{ unfold llen. rewrite firstn_length, ks_length. lia. }
    unfold slice. rewrite <- (firstn_skipn (N.to_nat (hi - lo)) (skipn (N.to_nat lo) ks)) in Hn.
    apply numbered_app in Hn as [Hn _]. exact Hn.
  Qed.

  Lemma with_keys {V} (m : @OrdinalTotalMap V) lo hi : lo <= hi -> hi <= n ->
    OrdinalTotalMap_keys_with (Val (range lo hi)) m = Val (range lo hi) /\
    double_ended (values_step O) (range lo hi) (slice ks lo hi) (fun it r => values_len it = llen r).
  Proof.
    intros Hl Hh. split; [reflexivity|].
    eapply double_ended_from; [exact (@values_refines _ O n)|exact (remaining_slice Hl Hh)|].
    intros s l H. exact (remaining_len H).
  Qed.

  Lemma within_filter m lo hi : within O lo hi (members ks m) = filter m (slice ks lo hi).
  Proof.
    destruct (enumeration_numbered HO He) as [Hn _]. unfold members, within.
    assert (Ec : forall p q (l : list K), filter p (filter q l) = filter q (filter p l)).
    { intros p q l. induction l as [|x l IH]; [reflexivity|]. cbn. destruct (p x) eqn:Ep; destruct (q x) eqn:Eq; cbn;
        rewrite ?Ep, ?Eq, IH; reflexivity. }
    rewrite Ec. f_equal.
    assert (G : forall a l, numbered O a l ->
      filter (fun t => match ordinal O t with Val i => (lo <=? i) && (i <? hi) | _ => false end) l =
      firstn (N.to_nat (hi - N.max lo a)) (skipn (N.to_nat (lo - a)) l)).
    { induction 1 as [a|a t l H1 H2 H IH]; [rewrite skipn_nil, firstn_nil; reflexivity|]. cbn [filter]. rewrite H2, IH.
      destruct (N.leb_spec lo a) as [Ha|Ha]; cbn.
      - replace (N.to_nat (lo - a)) with 0%nat by lia. replace (N.to_nat (lo - (a + 1))) with 0%nat by lia. cbn [skipn].
        destruct (N.ltb_spec a hi) as [Hb|Hb].
        + replace (N.to_nat (hi - N.max lo a)) with (S (N.to_nat (hi - N.max lo (a + 1)))) by lia. reflexivity.
        + replace (N.to_nat (hi - N.max lo a)) with 0%nat by lia.
          replace (N.to_nat (hi - N.max lo (a + 1))) with 0%nat by lia. reflexivity.
      - replace (N.to_nat (lo - a)) with (S (N.to_nat (lo - (a + 1)))) by lia. cbn [skipn].
        replace (N.max lo (a + 1)) with (N.max lo a) by lia. reflexivity. }
    rewrite (G 0 ks Hn). unfold slice. rewrite N.sub_0_r, N.max_0_r. reflexivity.
  Qed.

  Lemma ref_iter_within ws m lo hi : words_ok O ws m -> lo <= hi -> hi <= n ->
    exists it, OrdinalSetRef_iter_with (Val (range lo hi)) ws = Val it /\
      set_rem O n m it (within O lo hi (members ks m)).
  Proof.
    intros Hw Hl Hh. eexists. split; [reflexivity|]. exists (slice ks lo hi). cbn [si_iter si_set].
    split; [exact (remaining_slice Hl Hh)|]. split; [apply within_filter|exact Hw].
  Qed.
  Lemma ref_debug_within ws m lo hi : words_ok O ws m -> lo <= hi -> hi <= n ->
    OrdinalSetRef_debug_with O (Val (range lo hi)) ws = Val (within O lo hi (members ks m)).
  Proof.
    intros Hw Hl Hh. destruct (ref_iter_within Hw Hl Hh) as (it & E & H).
    unfold OrdinalSetRef_debug_with, OrdinalSetRef_clone. rewrite E. cbn [bind].
    destruct (set_rem_collect HO H) as (s' & E'). rewrite E'. reflexivity.
  Qed.

  (** A range that runs past the last ordinal. *)
  Lemma runs_len it l f : runs (values_next O) it l f -> (length l <= N.to_nat (range_len it))%nat.
  Proof.
    induction 1 as [it it' E|it w E|it it' a l f E H IH]; cbn [length]; try lia.
    unfold values_next, range_next in E. destruct (N.ltb_spec (r_start it) (r_end it)) as [Hl|Hl]; [|discriminate E].
    destruct (from_ordinal O (r_start it)) as [[t|]| | | |]; cbn in E; try discriminate E. injection E as <- <-.
    unfold range_len in *. cbn [r_start r_end] in IH. lia.
  Qed.
  Lemma set_loop_runs ws m l : words_ok O ws m -> forall it f fuel, runs (values_next O) it l f -> (length l < fuel)%nat ->
    match filter m l with
    | [] => match f with
            | None => exists it', set_loop O (values_step O Front) ws fuel it = Val (None, it')
            | Some w => set_loop O (values_step O Front) ws fuel it = Panic w
            end
    | t :: r => exists it' l', set_loop O (values_step O Front) ws fuel it = Val (Some t, it') /\
                  runs (values_next O) it' l' f /\ filter m l' = r
    end.
  Proof.
    intros Hw. induction l as [|t l IH]; intros it f fuel Hr Hf; (destruct fuel as [|fuel]; [cbn in Hf; lia|]);
      inversion Hr as [? it' E|? w E|? it' ? ? ? E H]; subst; cbn [set_loop values_step filter]; rewrite E; cbn [bind].
    - eexists. reflexivity.
    - reflexivity.
    - rewrite (contains_law HO t Hw). cbn [bind]. destruct (m t).
      + exists it', l. auto.
      + apply IH; [exact H|cbn in Hf; lia].
  Qed.
  Lemma collect_runs m w fuel : forall it l, words_ok O (si_set it) m -> runs (values_next O) (si_iter it) l (Some w) ->
    (length l < fuel)%nat -> collect (SetIter_step O Front) fuel it = Panic w.
  Proof.
    induction fuel as [|fuel IH]; intros it l Hw Hr Hf; [lia|]. cbn [collect]. unfold SetIter_step at 1.
    pose proof (@set_loop_runs (si_set it) m l Hw (si_iter it) (Some w) (S (N.to_nat (range_len (si_iter it)))) Hr) as G.
    pose proof (runs_len Hr) as Hlen.
    destruct (filter m l) as [|t r] eqn:El.
    - rewrite G by lia. reflexivity.
    - destruct G as (it' & l' & E & Hr' & El'); [lia|]. rewrite E. cbn [bind].
      assert (Hlt : (length l' < length l)%nat).
      { clear -E Hr Hr' Hw HO. revert E. generalize (S (N.to_nat (range_len (si_iter it)))) as fu. intros fu. revert l Hr. generalize (si_iter it) as i0.
        induction fu as [|fu IH]; intros i0 l Hr E; [discriminate E|]. cbn [set_loop values_step] in E.
        inversion Hr as [? ? E0|? ? E0|? i1 a l1 ? E0 H1]; subst; rewrite E0 in E; cbn [bind] in E; try discriminate E.
        rewrite (contains_law HO a Hw) in E. cbn [bind] in E. cbn [length]. destruct (m a).
        - injection E as <- <-. assert (G : forall j l1 l2, runs (values_next O) j l1 (Some w) -> runs (values_next O) j l2 (Some w) -> length l1 = length l2).
          { clear. intros j l1 l2 H. revert l2. remember (Some w) as f eqn:Ef. induction H as [j j' E|j w0 E|j j' a l f E H IH]; intros l2 H2; inversion H2 as [|? ? E2|? ? ? ? ? E2 H3]; subst; try congruence; try reflexivity.
            cbn. f_equal. apply IH; [reflexivity|]. congruence. }
          rewrite (G _ _ _ Hr' H1). lia.
        - specialize (IH _ _ H1 E). lia. }
      rewrite (IH {| si_iter := it'; si_set := si_set it |} l'); [reflexivity|exact Hw|exact Hr'|lia].
  Qed.
  Lemma ref_debug_past ws m lo hi : words_ok O ws m -> lo < hi -> n < hi -> hi <= usize_max ->
    OrdinalSetRef_debug_with O (Val (range lo hi)) ws = Panic PUnwrap.
  Proof.
    intros Hw Hl Hh Hu. unfold OrdinalSetRef_debug_with, OrdinalSetRef_iter_with, SetIter_new_with, OrdinalSetRef_clone. cbn [bind].
    pose proof (@lawful_runs lo hi Hu) as Hr. unfold all_decode in Hr. replace (hi <=? n) with false in Hr by lia.
    replace (hi <=? lo) with false in Hr by lia. cbn in Hr. pose proof (runs_len Hr) as Hlen.
    rewrite (@collect_runs m PUnwrap _ {| si_iter := range lo hi; si_set := ws |} _ Hw Hr); [reflexivity|].
    cbn [si_iter]. lia.
  Qed.
  Lemma with_debug_past lo hi : lo < hi -> n < hi -> hi <= usize_max ->
    (forall s, 1 <= n \/ debug_assertions = false -> set_reachable O s ->
       OrdinalSet_debug_with O (Val (range lo hi)) s = Panic PUnwrap) /\
    (forall S (s : OrdinalArraySet S), array_set_reachable O s ->
       OrdinalArraySet_debug_with O (Val (range lo hi)) s = Panic PUnwrap) /\
    (forall s, 1 <= n \/ debug_assertions = false -> set64_reachable O s ->
       OrdinalSet64_debug_with O (Val (range lo hi)) s = Panic PUnwrap).
  Proof.
    intros Hl Hh Hu. split; [|split].
    - intros s Hn Hs. destruct (set_reach HO Hs) as (m & H & _). destruct (as_ref_law HO Hn H) as (ws & E & Hw).
      unfold OrdinalSet_debug_with. rewrite E. cbn [bind]. now apply (@ref_debug_past ws m).
    - intros S s Hs. destruct (array_reach HO Hs) as (m & H).
      unfold OrdinalArraySet_debug_with. rewrite (array_as_ref_law HO H). cbn [bind].
      apply (@ref_debug_past (arr_list s) m); try assumption. apply H.
    - intros s Hn Hs. destruct (set64_reach HO Hs) as (m & H). unfold OrdinalSet64_debug_with, OrdinalSet64_as_ref.
      rewrite (ref_new_law HO).
      + cbn [bind]. apply (@ref_debug_past [s] m); try assumption. now apply (set64_words HO).
      + destruct Hn as [Hn|Hn]; [|right; right; exact Hn]. right. left. rewrite (wcount_small Hn (proj1 H)). reflexivity.
  Qed.

  Lemma with_set_law s l lo hi : 1 <= n \/ debug_assertions = false -> set_reachable O s ->
    lists_members O (OrdinalSet_contains O s) l -> lo <= hi -> hi <= n ->
    (exists it, OrdinalSet_iter_with O (Val (range lo hi)) s = Val it /\
       double_ended (SetIter_step O) it (within O lo hi l) (fun it r => hint_ok (SetIter_size_hint it) (llen r))) /\
    OrdinalSet_debug_with O (Val (range lo hi)) s = Val (within O lo hi l).
  Proof.
    intros Hn Hs Hl Hlo Hhi. destruct (set_reach HO Hs) as (m & H & _).
    destruct (as_ref_law HO Hn H) as (ws & E & Hw).
    assert (El : l = members ks m).
    { apply (listed_unique Hl). apply members_listed; [exact He|]. intros t. now apply (set_contains_law HO). }
    subst l. unfold OrdinalSet_iter_with, OrdinalSet_debug_with. rewrite E. cbn [bind]. split.
    - destruct (ref_iter_within Hw Hlo Hhi) as (it & E' & Hr). exists it. split; [exact E'|].
      eapply double_ended_from; [exact (@set_refines _ _ O n HO m)|exact Hr|]. intros s' l'. apply set_rem_hint.
    - now apply ref_debug_within.
  Qed.
  Lemma with_array_set_law S (s : OrdinalArraySet S) l lo hi : array_set_reachable O s ->
    lists_members O (OrdinalArraySet_contains O s) l -> lo <= hi -> hi <= n ->
    OrdinalArraySet_debug_with O (Val (range lo hi)) s = Val (within O lo hi l).
  Proof.
    intros Hs Hl Hlo Hhi. destruct (array_reach HO Hs) as (m & H).
    assert (El : l = members ks m).
    { apply (listed_unique Hl). apply members_listed; [exact He|]. intros t. now apply (array_contains_law HO). }
    subst l. unfold OrdinalArraySet_debug_with. rewrite (array_as_ref_law HO H). cbn [bind].
    apply ref_debug_within; [apply H|exact Hlo|exact Hhi].
  Qed.
  Lemma with_set64_law s l lo hi : 1 <= n \/ debug_assertions = false -> set64_reachable O s ->
    lists_members O (OrdinalSet64_contains O s) l -> lo <= hi -> hi <= n ->
    OrdinalSet64_debug_with O (Val (range lo hi)) s = Val (within O lo hi l).
  Proof.
    intros Hn Hs Hl Hlo Hhi. destruct (set64_reach HO Hs) as (m & H).
    assert (El : l = members ks m).
    { apply (listed_unique Hl). apply members_listed; [exact He|]. intros t. now apply (set64_contains_law HO). }
    subst l. unfold OrdinalSet64_debug_with, OrdinalSet64_as_ref. rewrite (ref_new_law HO).
    - cbn [bind]. apply ref_debug_within; [now apply (set64_words HO)|exact Hlo|exact Hhi].
    - destruct Hn as [Hn|Hn]; [|right; right; exact Hn]. right. left.
      rewrite (wcount_small Hn (proj1 H)). reflexivity.
  Qed.
End Lawful.
