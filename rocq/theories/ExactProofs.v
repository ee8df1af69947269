(** * ExactProofs: what exactly happens where the literal statement of a property fails. *)
From Verif Require Import Base Spec SpecMap SpecDerive SpecIter SpecSet SpecTotal ModelOrdinal ModelValues ModelArrayBuilder
  ModelDerive ModelIter ModelMap ModelTotal ModelSet MapMachine SetMachine
  BaseProofs OrdinalProofs DeriveProofs DeriveProofs2 DeriveProofs3 ArrayProofs IterLib BitProofs MapProofs5 SetProofs SetProofs2.
From Coq Require Import String List Lia. Import ListNotations.
Unset Strict Implicit.

(** ** C04 *)
Section Char.
  Context {cfg : Config}.
  Lemma char_exact i c : 1112064 <= i ->
    (from_ordinal Ordinal_char i = Val (Some c) <-> char_val c = i mod 4294967296 + 2048).
  Proof.
    intros Hi. pose proof (char_scalar c) as Hc. cbn [from_ordinal Ordinal_char]. unfold SURROGATE_START, as_u32.
    destruct (N.ltb_spec i 55296); [lia|]. set (j := i mod 4294967296).
    destruct (N.leb_spec (j + 2048) 4294967295).
    - split.
      + intros E. destruct (N.lt_ge_cases (j + 2048) 55296) as [L|L];
          [destruct (@char_from_some (j + 2048)) as (x & E1 & E2); [lia|rewrite E1 in E; injection E as <-; exact E2]|].
        destruct (N.lt_ge_cases (j + 2048) 57344) as [L1|L1]; [rewrite char_from_none in E by lia; discriminate E|].
        destruct (N.le_gt_cases (j + 2048) 1114111) as [L2|L2]; [|rewrite char_from_none in E by lia; discriminate E].
        destruct (@char_from_some (j + 2048)) as (x & E1 & E2); [lia|]. rewrite E1 in E. injection E as <-. exact E2.
      + intros E. destruct (@char_from_some (j + 2048)) as (x & E1 & E2); [lia|]. rewrite E1.
        do 2 f_equal. apply char_ext. congruence.
    - split; [discriminate|lia].
  Qed.

  Lemma char_returns i : exists r, from_ordinal Ordinal_char i = Val r.
  Proof.
    cbn [from_ordinal Ordinal_char]. destruct (_ <? _); [eauto|]. destruct (_ <=? _); eauto.
  Qed.
End Char.

(** ** C19 *)
Section Names.
  Context {cfg : Config}.

  Lemma branches_rem vs : forall all i bs v x, enum_branches all i vs = Val bs -> In v vs ->
    In x reserved_names -> In x (field_vars (v_fields v)) -> branches_resolve vs bs = false.
  Proof.
    induction vs as [|v0 vs IH]; intros all i bs v x E Hv Hx Hr; [destruct Hv|].
    cbn [enum_branches] in E.
    destruct (size_of_first_variants all i); cbn [bind] in E; try discriminate E.
    destruct (const_expr _); cbn [bind] in E; try discriminate E.
    destruct (size_of_first_variants all (S i)); cbn [bind] in E; try discriminate E.
    destruct (const_expr _); cbn [bind] in E; try discriminate E.
    destruct (struct_from_ordinal _ _ _) as [block| | | |] eqn:Hb; cbn [bind] in E; try discriminate E.
    destruct (enum_branches all (S i) vs) as [bs'| | | |] eqn:Hbs; cbn [bind] in E; try discriminate E.
    injection E as <-. cbn [branches_resolve]. destruct Hv as [->|Hv].
    - rewrite (resolves_rem _ _ _ (field_vars_length _) Hx Hr Hb). reflexivity.
    - rewrite (IH _ _ _ _ _ Hbs Hv Hx Hr). apply Bool.andb_false_r.
  Qed.

  Lemma derive_enum_rem vs v x : In v vs -> In x reserved_names -> In x (field_vars (v_fields v)) ->
    derive_enum vs = rejected _.
  Proof.
    intros Hv Hx Hr. unfold derive_enum.
    destruct (enum_size vs); try reflexivity. destruct (enum_arms vs 0 vs); try reflexivity.
    destruct (enum_branches vs 0 vs) as [bs| | | |] eqn:E; try reflexivity.
    rewrite (branches_rem E Hv Hx Hr). reflexivity.
  Qed.

  Lemma struct_names_exact (f : fields) ns : NoDup (field_vars f) ->
    fields_lawful (field_types f) ns -> Forall (fun n => 0 < n) ns -> product_of ns <= usize_max ->
    ((exists n, ORDINAL_SIZE (derive_struct f) = Val n) <-> forall x, In x reserved_names -> ~ In x (field_vars f)) /\
    ((exists x, In x reserved_names /\ In x (field_vars f)) ->
       ORDINAL_SIZE (derive_struct f) = NoCompile /\ (forall t, ordinal (derive_struct f) t = NoCompile) /\
       forall i, from_ordinal (derive_struct f) i = NoCompile).
  Proof.
    intros Hn Hl Hp Hm. split; [split|].
    - intros [n E] x Hx Hr. rewrite (@derive_struct_rem _ _ x Hx Hr) in E. discriminate E.
    - intros Hr. eexists. apply struct_compiles; [split; assumption|exact Hl|exact Hp|exact Hm].
    - intros (x & Hx & Hr). rewrite (@derive_struct_rem _ _ x Hx Hr). auto.
  Qed.

  Lemma enum_names_exact (vs : list variant) nss : Forall (fun v => NoDup (field_vars (v_fields v))) vs ->
    variants_lawful (variant_types vs) nss -> Forall (Forall (fun n => 0 < n)) nss ->
    sum_of (map product_of nss) <= usize_max ->
    ((exists n, ORDINAL_SIZE (derive_enum vs) = Val n) <->
       forall v x, In v vs -> In x reserved_names -> ~ In x (field_vars (v_fields v))) /\
    ((exists v x, In v vs /\ In x reserved_names /\ In x (field_vars (v_fields v))) ->
       ORDINAL_SIZE (derive_enum vs) = NoCompile /\ (forall t, ordinal (derive_enum vs) t = NoCompile) /\
       forall i, from_ordinal (derive_enum vs) i = NoCompile).
  Proof.
    intros Hn Hl Hp Hm. split; [split|].
    - intros [n E] v x Hv Hx Hr. rewrite (derive_enum_rem Hv Hx Hr) in E. discriminate E.
    - intros Hr. eexists. apply enum_compiles; [|exact Hl|exact Hp|exact Hm].
      rewrite Forall_forall in *. intros v Hv. split; [auto|]. intros x. exact (Hr v x Hv).
    - intros (v & x & Hv & Hx & Hr). rewrite (derive_enum_rem Hv Hx Hr). auto.
  Qed.
End Names.

(** ** C27 *)
Section Contains.
  Context {cfg : Config} {K V : Type} (O : Ordinal K) (n : N) (HO : ordinal_bijection O n).
  Lemma contains_key_exact (st : @OrdinalMap V) : heap_reachable O st ->
    ((forall k, exists v, OrdinalMap_get O st k = Val v /\
        OrdinalMap_contains_key O st k = Val (match v with Some _ => true | None => false end)) <->
     ((forall k, OrdinalMap_contains_key O st k = Val false) \/
      forall k, exists v, OrdinalMap_get O st k = Val (Some v))).
  Proof.
    intros H. pose proof (contains_key_slots HO H) as E. split.
    - intros A. destruct (llen st =? 0) eqn:Z; [left; intros k; rewrite E; reflexivity|right].
      intros k. destruct (A k) as (v & G & C). rewrite E in C. destruct v as [v|]; [eauto|discriminate C].
    - intros [A|A] k.
      + assert (G : exists v, OrdinalMap_get O st k = Val v).
        { destruct (bij_to HO k) as (i & Hi & _). unfold OrdinalMap_get. rewrite Hi. cbn [bind]. destruct (slice_get st i) as [[v|]|]; eexists; reflexivity. }
        destruct G as (v & G). exists v. split; [exact G|]. destruct v as [v|]; [|apply A].
        apply (contains_key_sound HO H G).
      + destruct (A k) as (v & G). exists (Some v). split; [exact G|]. apply (contains_key_sound HO H G).
  Qed.
End Contains.

(** ** C44 *)
Section FromArray.
  Context {cfg : Config} {K V : Type} (O : Ordinal K) (n : N) (HO : lawful O n).

  Lemma from_array_any (S : nat) (array : arr V S) :
    exists m, OrdinalTotalArrayMap_from_array array = Val m /\ OrdinalTotalArrayMap_len m = N.of_nat S /\
      (forall k, exists i, ordinal O k = Val i /\
         OrdinalTotalArrayMap_get O m k =
           match nth_error (arr_list array) (N.to_nat i) with Some v => Val v | None => Panic PIndex end) /\
      ((forall k, exists v, OrdinalTotalArrayMap_get O m k = Val v) <-> n <= N.of_nat S) /\
      ((exists k, OrdinalTotalArrayMap_get O m k = Panic PIndex) <-> N.of_nat S < n).
  Proof.
    exists array. split; [reflexivity|]. split; [reflexivity|].
    assert (G : forall k, exists i, ordinal O k = Val i /\ i < n /\
         OrdinalTotalArrayMap_get O array k =
           match nth_error (arr_list array) (N.to_nat i) with Some v => Val v | None => Panic PIndex end).
    { intros k. destruct (bij_to (proj1 HO) k) as (i & Hi & L & _). exists i. split; [exact Hi|]. split; [exact L|].
      unfold OrdinalTotalArrayMap_get. rewrite Hi. reflexivity. }
    pose proof (arr_length array) as Hlen.
    split; [|split; split].
    - intros k. destruct (G k) as (i & Hi & _ & E). eauto.
    - intros A. destruct (N.le_gt_cases n (N.of_nat S)) as [L|L]; [exact L|exfalso].
      destruct (bij_from (proj1 HO) L) as (k & _ & Ek). destruct (A k) as (v & Ev).
      destruct (G k) as (i & Hi & _ & E). assert (i = N.of_nat S) by congruence. subst i.
      rewrite Nnat.Nat2N.id, E in Ev || (rewrite E, Nnat.Nat2N.id in Ev).
      destruct (nth_error (arr_list array) S) eqn:En; [|discriminate Ev].
      assert (nth_error (arr_list array) S <> None) as Hn by congruence. apply nth_error_Some in Hn. lia.
    - intros L k. destruct (G k) as (i & Hi & Hn & E). rewrite E.
      destruct (nth_error (arr_list array) (N.to_nat i)) eqn:En; [eauto|]. apply nth_error_None in En. lia.
    - intros (k & Ek). destruct (G k) as (i & Hi & Hn & E). rewrite E in Ek.
      destruct (nth_error (arr_list array) (N.to_nat i)) eqn:En; [discriminate Ek|]. apply nth_error_None in En. lia.
    - intros L. destruct (bij_from (proj1 HO) L) as (k & _ & Ek). exists k.
      destruct (G k) as (i & Hi & _ & E). assert (i = N.of_nat S) by congruence. subst i.
      rewrite E, Nnat.Nat2N.id. destruct (nth_error (arr_list array) S) eqn:En; [|reflexivity].
      assert (nth_error (arr_list array) S <> None) as Hn by congruence. apply nth_error_Some in Hn. lia.
  Qed.

  Lemma enumerate_overrun {A} j : forall (items : list A) i, N.of_nat j + i = n -> (j < List.length items)%nat ->
    drive (enumerate_step O) (repeat Front (j + 1)) {| e_next := i; e_items := items |} = Panic PUnwrap.
  Proof.
    pose proof (bij_fits (proj1 HO)) as Hf.
    induction j as [|j IH]; intros [|a items] i Hi Hl; cbn [List.length] in Hl; try lia; cbn [Nat.add repeat drive].
    - unfold enumerate_step, enumerate_next. cbn [e_items pop_front e_next].
      rewrite (proj2 HO) by lia. reflexivity.
    - unfold enumerate_step at 1, enumerate_next at 1. cbn [e_items pop_front e_next].
      destruct (bij_from (proj1 HO) (i := i)) as (k & Ek & _); [lia|]. rewrite Ek. cbn [bind unwrap].
      rewrite uadd_ok by lia. cbn [bind]. rewrite IH by lia. reflexivity.
  Qed.

  Lemma from_array_overrun (S : nat) (array : arr V S) : n < N.of_nat S -> N.of_nat S <= usize_max ->
    drive (TIter_step O) (repeat Front (N.to_nat n + 1)) (OrdinalTotalArrayMap_iter array) = Panic PUnwrap /\
    TIter_step O Back (OrdinalTotalArrayMap_iter array) = Panic PUnwrap.
  Proof.
    intros L HS. pose proof (arr_length array) as Hlen. split.
    - apply enumerate_overrun; [lia|]. lia.
    - unfold TIter_step, OrdinalTotalArrayMap_iter, TIter_new, enumerate_new, enumerate_step, enumerate_next_back.
      cbn [e_items e_next].
      destruct (arr_list array) as [|a l] eqn:E using rev_ind; [cbn in Hlen; lia|].
      clear IHl. rewrite pop_back_rev. rewrite app_length in Hlen. cbn [List.length] in Hlen. unfold llen.
      rewrite uadd_ok by lia. cbn [bind]. rewrite (proj2 HO) by lia. reflexivity.
  Qed.
End FromArray.

(** ** C53, C55, C57 - C59, C61, C62: sets *)
Section Sets.
  Context {cfg : Config} {T : Type} (O : Ordinal T) (n : N) (HO : ordinal_bijection O n).

  Lemma all_exact :
    OrdinalSet64_all O =
      (if n <? 64 then Val (2 ^ n - 1)
       else if n =? 64 then (if overflow_checks then Panic POverflow else Val 0)
       else NoCompile).
  Proof.
    destruct (N.ltb_spec n 64) as [L|L].
    - unfold OrdinalSet64_all. rewrite (set64_assert HO) by lia. cbn [bind]. rewrite (bij_size HO). cbn [bind].
      rewrite shl_one by exact L. cbn [bind]. unfold u64_sub.
      assert (2 ^ n <> 0) by (apply N.pow_nonzero; lia). replace (1 <=? 2 ^ n) with true by lia. reflexivity.
    - destruct (N.eqb_spec n 64) as [E|E].
      + unfold OrdinalSet64_all. rewrite (set64_assert HO) by lia. cbn [bind]. rewrite (bij_size HO), E. cbn [bind].
        unfold u64_shl, u64_sub. destruct overflow_checks; reflexivity.
      + unfold OrdinalSet64_all, Set64_ASSERT. rewrite (bij_size HO). cbn [bind].
        replace (n <=? 64) with false by lia. reflexivity.
  Qed.

  Lemma huge_exact (s : OrdinalSet) : usize_max - 64 < n -> set_reachable O s ->
    (forall t, OrdinalSet_insert O s t = Panic PUnwrap) /\
    (forall t, OrdinalSet_contains O s t = Val false) /\
    (forall t l, OrdinalSet_from_iter O (t :: l) = Panic PUnwrap) /\
    exists s0, OrdinalSet_from_iter O [] = Val s0 /\ OrdinalSet_new O = Val s0.
  Proof.
    intros Hn Hr. destruct (set_reach HO Hr) as (m & Hm & E). specialize (E Hn). subst s.
    split; [intros t; apply (insert_huge HO); auto|].
    split.
    { intros t. destruct (set_new_law HO) as (s & E & H). rewrite (new_huge HO Hn) in E. injection E as <-.
      apply (set_contains_law HO t H). }
    split; [intros t l; apply (set_collects_huge HO); auto|].
    exists (Large []). unfold OrdinalSet_from_iter. rewrite (new_huge HO Hn). split; reflexivity.
  Qed.

  Lemma empty_exact : n = 0 -> debug_assertions = true ->
    (forall s, set_reachable O s -> OrdinalSet_iter O s = Panic PDebugAssert /\ OrdinalSet_debug O s = Panic PDebugAssert) /\
    (forall w, set64_reachable O w -> OrdinalSet64_debug O w = Panic PDebugAssert).
  Proof.
    intros Hn D.
    assert (R : forall w : N, OrdinalSetRef_new O [w] = Panic PDebugAssert).
    { intros w. unfold OrdinalSetRef_new. rewrite (array_set_s_eq HO), Hn. cbn. unfold debug_assert. rewrite D. reflexivity. }
    split.
    - intros s Hr. destruct (set_reach HO Hr) as (m & Hm & _).
      assert (E : OrdinalSet_as_ref O s = Panic PDebugAssert).
      { unfold OrdinalSet_as_ref. rewrite (is_small_eq HO). cbn [bind]. destruct s as [w|ws].
        - replace (n <=? 64) with true by lia. apply R.
        - exfalso. destruct Hm as [Hm _] || idtac. cbn in Hm. lia. }
      unfold OrdinalSet_iter, OrdinalSet_debug. rewrite E. split; reflexivity.
    - intros w _. unfold OrdinalSet64_debug, OrdinalSet64_as_ref. rewrite R. reflexivity.
  Qed.

  Lemma default_exact (S : nat) : exists s : OrdinalArraySet S, OrdinalArraySet_default S = Val s /\
    (forall i, (i < S)%nat -> nth_error (arr_list s) i = Some 0).
  Proof.
    unfold OrdinalArraySet_default, as_array. destruct (@ArrayProofs.try_arr_ok _ S (repeat 0 S)) as (a & E & L).
    - apply repeat_length.
    - rewrite E. exists a. split; [reflexivity|]. intros i Hi. rewrite L. apply nth_error_repeat. exact Hi.
  Qed.
End Sets.

(** ** C46 *)
Lemma into_iter_array_exact (V : Type) (it : @TIntoIterArray V) :
  TIntoIterArray_size_hint it = (0, None) /\ ~ hint_exact (TIntoIterArray_size_hint it) (TIntoIterArray_len it).
Proof. split; [reflexivity|]. discriminate. Qed.
