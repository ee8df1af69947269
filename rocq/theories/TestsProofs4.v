(** * TestsProofs4: the quickcheck tests of the project, and the example of the crate's documentation. *)
From Coq Require Import String.
From Verif Require Import Base Spec SpecAtomic SpecValues SpecDerive SpecMap SpecTotal SpecSet SpecIter SpecUniverse SpecTests ModelOrdinal
  ModelValues ModelArrayBuilder ModelIter ModelTotal ModelMap ModelSet ModelDerive ModelUniverse ModelTests MapMachine TotalMachine BaseProofs
  IterLib OrdinalProofs OrdinalProofs2 ValuesProofs UniverseProofs DeriveProofs3 MapLib MapProofs MapProofs4 TotalProofs
  TestsProofs1 TestsProofs2 TestsProofs3.
From Coq Require Import List Lia. Import ListNotations.
Set Implicit Arguments. Unset Strict Implicit.

Section Instances.
  Context {cfg : Config}.

  Lemma u8_bij : ordinal_bijection Ordinal_u8 256.
  Proof. apply u8_lawful. Qed.
  Lemma i8_bij : ordinal_bijection Ordinal_i8 256.
  Proof. apply i8_lawful. Qed.
  Lemma nzu16_bij : ordinal_bijection Ordinal_NonZeroU16 65535.
  Proof. apply NonZeroU16_lawful. Qed.
  Lemma nzu16_lt : ordinal_monotone Ordinal_NonZeroU16 (fun a b => c_lt Cmp_nonzero a b = true).
  Proof.
    pose proof (@usize_max_ge cfg). intros a b i j Hi Hj. cbn. rewrite Z.ltb_lt.
    assert (G : ordinal_monotone Ordinal_NonZeroU16 nonzero_lt) by (apply nz_unsigned_mono; [lia|reflexivity]).
    exact (G a b i j Hi Hj).
  Qed.

  Lemma unit_enum_bij k n :
    ORDINAL_SIZE (derive_enum (repeat (V FUnit) k)) = Val n -> ordinal_bijection (derive_enum (repeat (V FUnit) k)) n.
  Proof.
    intros E. apply (@derive_enum_lawful _ (repeat (V FUnit) k) (repeat [] k) n); [|exact E].
    clear E. unfold variants_lawful, variant_types. induction k; cbn; constructor; [constructor|assumption].
  Qed.
  Lemma example4_bij : ordinal_bijection (derive_enum Example4) 4.
  Proof. apply (@unit_enum_bij 4). destruct cfg as [[] [] []]; reflexivity. Qed.
  Lemma color_bij : ordinal_bijection (derive_enum Color) 3.
  Proof. apply (@unit_enum_bij 3). destruct cfg as [[] [] []]; reflexivity. Qed.

  Ltac values4 x := destruct x as [[]|[[]|[[]|[[]|[]]]]].
  Lemma example4_decides : decides_eq (c_eq Cmp_Example4).
  Proof. intros a b. values4 a; values4 b; cbn; split; congruence. Qed.
  Lemma example4_lt : ordinal_monotone (derive_enum Example4) (fun a b => c_lt Cmp_Example4 a b = true).
  Proof.
    intros a b i j Hi Hj.
    assert (H : forall t, ordinal (derive_enum Example4) t =
      Val (match t with inl _ => 0 | inr (inl _) => 1 | inr (inr (inl _)) => 2 | inr (inr (inr _)) => 3 end)).
    { intros t. values4 t; destruct cfg as [[] [] []]; reflexivity. }
    rewrite H in Hi, Hj. injection Hi as <-. injection Hj as <-.
    values4 a; values4 b; cbn; split; intros G; try reflexivity; try discriminate G; try lia.
  Qed.

  Lemma fits n : n <= 65536 -> n <= usize_max - 64 \/ n <= 64.
  Proof. pose proof (@usize_max_ge cfg). lia. Qed.
  Lemma pass_true r : r = Val true -> returns_true r = Val tt.
  Proof. intros ->. reflexivity. Qed.

  Lemma qc_maps_pass values check : map_qc values check = Val tt /\ array_map_qc values check = Val tt /\ array_map_qc_retain values check = Val tt.
  Proof.
    split; [|split].
    - apply (qc_map_passes u8_bij); apply int_decides.
    - apply (qc_array_map_passes u8_bij); apply int_decides.
    - apply pass_true. apply (qc_retain_passes u8_bij); apply int_decides.
  Qed.
  Lemma qc_array_set_pass values check : array_set_qc_insert values check = Val tt.
  Proof. apply (qc_array_set_insert_passes i8_bij). apply int_decides. Qed.
  Lemma qc_small_pass values check : set_qc_insert_small values check = Val tt /\ set_qc_iter_small values = Val tt /\
    set64_qc_iterator values = Val tt /\ set64_qc_double_ended_iterator values = Val tt /\ set64_qc_exact_size_iterator values = Val tt.
  Proof.
    split; [apply (qc_set_insert_passes example4_bij example4_decides); apply fits; lia|].
    split; [apply pass_true; apply (qc_set_iter_passes example4_bij example4_decides example4_lt); [apply fits; lia|left; lia]|].
    split; [apply pass_true; apply (qc_iterator_passes example4_bij example4_decides example4_lt); lia|].
    split; [apply pass_true; apply (qc_double_ended_passes example4_bij example4_decides example4_lt); lia|].
    apply (qc_exact_size_passes example4_bij); lia.
  Qed.
  Lemma qc_large_pass values check : set_qc_insert_large values check = Val tt /\ set_qc_iter_large values = Val tt.
  Proof.
    split; [apply (qc_set_insert_passes nzu16_bij (@nonzero_decides _ _)); apply fits; lia|].
    apply pass_true. apply (qc_set_iter_passes nzu16_bij (@nonzero_decides _ _) nzu16_lt); [apply fits; lia|left; lia].
  Qed.

  (** ** Counting errors *)
  Context (classify : string -> enum_val (variant_types Color)).
  Context (eqd : forall a b : enum_val (variant_types Color), {a = b} + {a <> b}).
  Definition of_category k (errors : list string) : list string := filter (fun e => if eqd (classify e) k then true else false) errors.

  Lemma count_loop ks (He : enumeration (derive_enum Color) ks) errors : forall m : tmap _ N,
    doc_count classify errors (map m ks) = Val (map (fun k => m k + llen (of_category k errors)) ks).
  Proof.
    induction errors as [|e errors IH]; intros m; cbn [doc_count].
    - f_equal. apply map_ext. intros k. cbn. unfold llen. cbn. lia.
    - pose proof (htotal_step_ok color_bij He eqd (TIndexMut (classify e) (N.succ (m (classify e)))) m) as E.
      cbn [htotal_step total_step fst snd] in E.
      destruct (OrdinalTotalMap_index_mut (derive_enum Color) (map m ks) (classify e)) as [i| | | |]; cbn [bind] in E |- *; try discriminate E.
      destruct (deref (map m ks) i) as [v| | | |]; cbn [bind] in E |- *; try discriminate E.
      injection E as -> E.
      change (store_at (map m ks) i (N.succ (m (classify e))) = map (tm_set eqd m (classify e) (N.succ (m (classify e)))) ks) in E.
      rewrite E, IH. f_equal. apply map_ext. intros k. unfold tm_set.
      destruct (eqd (classify e) k) as [<-|Hn].
      + unfold of_category. cbn [filter]. destruct (eqd (classify e) (classify e)); [|congruence]. unfold llen. cbn [List.length]. lia.
      + unfold of_category. cbn [filter]. destruct (eqd (classify e) k); [congruence|reflexivity].
  Qed.

  Lemma count_errors errors : exists m,
    (error_counts <- OrdinalTotalMap_default (derive_enum Color) 0 ;; doc_count classify errors error_counts) = Val m /\
    forall k, OrdinalTotalMap_index (derive_enum Color) m k = Val (llen (of_category k errors)).
  Proof.
    destruct (keys_exist color_bij) as (ks & He).
    assert (E : OrdinalTotalMap_default (derive_enum Color) 0 = Val (map (fun _ => 0) ks)).
    { destruct (enumeration_numbered color_bij He) as [_ Hl]. destruct ks as [|a [|b [|d [|? ?]]]]; unfold llen in Hl; cbn [List.length] in Hl; try lia.
      destruct cfg as [[] [] []]; reflexivity. }
    rewrite E. cbn [bind]. rewrite (count_loop He). eexists. split; [reflexivity|]. intros k.
    pose proof (htotal_step_ok color_bij He eqd (TIndex k) (fun k => 0 + llen (of_category k errors))) as E0.
    cbn [htotal_step total_step fst snd] in E0.
    destruct (OrdinalTotalMap_index (derive_enum Color) _ k) as [v| | | |]; cbn [bind] in E0; try discriminate E0.
    injection E0 as ->. f_equal.
  Qed.
End Instances.

(** ** What the test of an [Ordinal] type does not see *)
Section Blind.
  Context {cfg : Config}.
  Lemma char_blind : usize_width = W64 -> test_char = Val tt /\ ~ lawful Ordinal_char 1112064.
  Proof.
    intros W. split; [exact char_passes|]. intros [_ HR]. destruct (char_rejects_64_false W) as (i & c & Hi & E & _).
    rewrite (HR i (proj1 Hi) (proj2 Hi)) in E. discriminate E.
  Qed.

  (** [None] and [Some true] share an ordinal. *)
  Definition shared : Ordinal (option bool) := {|
    ORDINAL_SIZE := Val 2;
    ordinal := fun t => Val (match t with Some false => 1 | _ => 0 end);
    from_ordinal := fun i => Val (if i =? 0 then Some None else if i =? 1 then Some (Some false) else None) |}.
  Lemma missing_blind : test_ordinal shared (Cmp_option Cmp_bool) [None; Some false] = Val tt /\
    forall n, ~ ordinal_bijection shared n.
  Proof.
    split; [destruct cfg as [[] [] []]; reflexivity|]. intros n H.
    assert (E : None = Some true :> option bool) by (eapply bij_inj; [exact H| |]; reflexivity). discriminate E.
  Qed.
  Lemma expected_matters : exists (O : Ordinal (option bool)) (l : list (option bool)),
    test_ordinal O (Cmp_option Cmp_bool) l = Val tt /\ forall n, ~ ordinal_bijection O n.
  Proof. exact (ex_intro _ shared (ex_intro _ _ missing_blind)). Qed.

  Lemma unit_tests_named name t : In (name, t) unit_tests ->
    t = (if (String.eqb name "test_non_zero_u32" || String.eqb name "test_non_zero_i32")%bool
         then match usize_width with W64 => Val tt | W32 => NoCompile end else Val tt).
  Proof.
    intros H. apply unit_tests_pass in H. unfold needs_64_bit in H. cbn [existsb] in H.
    destruct (String.eqb name "test_non_zero_u32"), (String.eqb name "test_non_zero_i32"); exact H.
  Qed.
End Blind.
