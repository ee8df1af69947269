(** * UseProofs2: OrdinalTotalArrayMap::from_array over types with too many values. *)
From Verif Require Import Base Spec SpecMap SpecTotal SpecMem SpecIter ModelOrdinal ModelValues
  ModelArrayBuilder ModelIter ModelTotal SpecUniverse ModelUniverse ModelMono TotalMachine ModelUse
  BaseProofs IterLib ValuesProofs MapLib SafetyProofs UniverseProofs4 MonoProofs.
From Coq Require Import List Lia Sorted.
Import ListNotations.
Set Implicit Arguments.
Unset Strict Implicit.

Section FromArray.
  Context {cfg : Config} (t : ty) (C : overflow_checks = true) (A : inst_ordinal t = Val tt).
  Notation O := (impl_of t).

  Lemma ordinal_apart k k' i : ordinal O k = Val i -> ordinal O k' = Val i -> k = k'.
  Proof.
    intros H H'. apply (inst_round_trip C A) in H. apply (inst_round_trip C A) in H'.
    destruct H as [_ H]. destruct H' as [_ H']. rewrite H in H'. injection H' as ->. reflexivity.
  Qed.

  Section One.
    Context (V : Type) (S : nat) (m : OrdinalTotalArrayMap S V).

    Lemma get_safe k : safe (OrdinalTotalArrayMap_get O m k).
    Proof.
      unfold OrdinalTotalArrayMap_get. pose proof (inst_safe A k) as H.
      destruct (ordinal O k) as [i|w| | |]; try contradiction H; [|exact I].
      cbn [bind]. unfold index. destruct (nth_error _ _); exact I.
    Qed.

    Lemma insert_there k v : (exists old, OrdinalTotalArrayMap_get O m k = Val old) ->
      exists old m', OrdinalTotalArrayMap_insert O m k v = Val (old, m').
    Proof.
      unfold OrdinalTotalArrayMap_get, OrdinalTotalArrayMap_insert. intros [old H].
      apply bind_inv in H. destruct H as (i & -> & H). cbn [bind]. rewrite H. cbn [bind]. eauto.
    Qed.

    Lemma insert_apart k v old m' : OrdinalTotalArrayMap_insert O m k v = Val (old, m') ->
      OrdinalTotalArrayMap_get O m k = Val old /\ OrdinalTotalArrayMap_get O m' k = Val v /\
      forall k', k' <> k -> OrdinalTotalArrayMap_get O m' k' = OrdinalTotalArrayMap_get O m k'.
    Proof.
      unfold OrdinalTotalArrayMap_get, OrdinalTotalArrayMap_insert. intros H.
      apply bind_inv in H. destruct H as (i & Hi & H). apply bind_inv in H. destruct H as (o & Ho & H).
      injection H as <- <-. rewrite Hi. cbn [bind]. split; [exact Ho|].
      assert (N : forall j, index (arr_list (arr_store m i v)) j =
        if (j =? i) then Val v else index (arr_list m) j).
      { intros j. unfold index in *. cbn [arr_list arr_store]. unfold store_at. rewrite list_set_nth.
        destruct (N.eqb_spec j i) as [->|D].
        - rewrite PeanoNat.Nat.eqb_refl. destruct (nth_error _ _); [reflexivity|discriminate Ho].
        - destruct (PeanoNat.Nat.eqb_spec (N.to_nat i) (N.to_nat j)) as [E|E]; [|reflexivity].
          exfalso. apply D. lia. }
      split; [rewrite N, N.eqb_refl; reflexivity|].
      intros k' D. destruct (ordinal O k') as [j|w| | |] eqn:Hj; cbn [bind]; try reflexivity.
      rewrite N. destruct (N.eqb_spec j i) as [->|_]; [|reflexivity].
      exfalso. apply D. exact (ordinal_apart Hj Hi).
    Qed.

    (** Iteration. *)
    Lemma first_keys n k a : has_values (type_of t) n -> a + N.of_nat k <= n -> a + N.of_nat k <= usize_max ->
      exists l, numbered O a l /\ length l = k.
    Proof.
      intros Hn. revert a. induction k as [|k IH]; intros a H1 H2; [exists []; split; [constructor|reflexivity]|].
      destruct (@decodes_count _ t n a A Hn) as (v & E1 & E2); [lia|lia|].
      destruct (IH (a + 1)) as (l & Hl & El); [lia|lia|].
      exists (v :: l). split; [constructor; assumption|]. cbn. rewrite El. reflexivity.
    Qed.

    Definition pend B (s : enumerate B) (l : list (type_of t * B)) : Prop :=
      numbered O (e_next s) (map fst l) /\ e_items s = map snd l /\ e_next s + llen l <= usize_max.

    Lemma pend_refines B : refines (enumerate_step O (A := B)) (@pend B).
    Proof.
      intros d s l (H1 & H2 & H3). destruct d; cbn [enumerate_step].
      - unfold enumerate_next. rewrite H2. destruct l as [|[k a] l]; cbn [map pop_front snd fst].
        + exists s. split; [reflexivity|]. split; [exact H1|]. split; [exact H2|exact H3].
        + cbn [map fst] in H1. inversion H1 as [|? ? ? Ha Hb H]; subst. rewrite Ha. cbn [bind unwrap].
          unfold llen in H3. cbn [length] in H3.
          rewrite uadd_ok by lia. cbn [bind].
          exists {| e_next := e_next s + 1; e_items := map snd l |}. cbn [deque_step fst snd].
          split; [reflexivity|]. split; [exact H|]. split; [reflexivity|]. cbn [e_next]. unfold llen. lia.
      - unfold enumerate_next_back. rewrite H2. destruct l as [|[k a] l _] using rev_ind; cbn [map pop_back].
        + exists s. split; [reflexivity|]. split; [exact H1|]. split; [exact H2|exact H3].
        + rewrite map_app in *. cbn [map snd fst] in *. rewrite pop_back_rev. rewrite deque_back. cbn [fst snd].
          apply numbered_app in H1. destruct H1 as [H1 H4].
          inversion H4 as [|? ? ? Ha Hb H]; subst. unfold llen in *. rewrite app_length in H3.
          cbn [length] in H3. rewrite map_length in *.
          rewrite uadd_ok by lia. cbn [bind]. rewrite Ha. cbn [bind unwrap].
          exists {| e_next := e_next s; e_items := map snd l |}.
          split; [reflexivity|]. split; [exact H1|]. split; [reflexivity|]. cbn [e_next]. unfold llen. lia.
    Qed.

    Lemma numbered_nth a l k i : numbered O a l -> (ordinal O k = Val (a + N.of_nat i) /\ (i < length l)%nat <-> nth_error l i = Some k).
    Proof.
      intros H. revert i. induction H as [a|a u l H1 H2 H IH]; intros i.
      - cbn. split; [intros [_ G]; inversion G|]. destruct i; discriminate.
      - destruct i as [|i]; cbn [nth_error length].
        + rewrite N.add_0_r. split.
          * intros [E _]. f_equal. exact (ordinal_apart H2 E).
          * intros [= ->]. split; [exact H2|lia].
        + rewrite <- IH. replace (a + N.of_nat (Datatypes.S i)) with (a + 1 + N.of_nat i) by lia.
          split; intros [E G]; (split; [exact E|lia]).
    Qed.

    Lemma iteration n : has_values (type_of t) n -> N.of_nat S <= n -> N.of_nat S <= usize_max ->
      exists l, (forall k v, In (k, v) l <-> OrdinalTotalArrayMap_get O m k = Val v) /\
        StronglySorted (ordinal_before O) (map fst l) /\ map snd l = arr_list m /\
        double_ended (TIter_step O) (OrdinalTotalArrayMap_iter m) l (fun s r => TIter_len s = llen r) /\
        OrdinalTotalArrayMap_debug O m = Val l.
    Proof.
      intros Hn H1 H2. destruct (@first_keys n S 0 Hn) as (ks & Hk & Lk); [lia|lia|].
      assert (Lm : length (arr_list m) = S) by (apply PeanoNat.Nat.eqb_eq; exact (arr_ok m)).
      assert (L : length ks = length (arr_list m)) by lia.
      set (l := combine ks (arr_list m)).
      assert (F : map fst l = ks).
      { clear -L. unfold l. revert L. generalize (arr_list m). induction ks as [|k ks IH]; intros [|v vs] L; try discriminate L; [reflexivity|].
        cbn. f_equal. apply IH. injection L as L. exact L. }
      assert (G : map snd l = arr_list m).
      { clear -L. unfold l. revert L. generalize (arr_list m). induction ks as [|k ks IH]; intros [|v vs] L; try discriminate L; [reflexivity|].
        cbn. f_equal. apply IH. injection L as L. exact L. }
      assert (LL : length l = S) by (rewrite <- (map_length snd), G; exact Lm).
      assert (P : pend (OrdinalTotalArrayMap_iter m) l).
      { split; [rewrite F; exact Hk|]. split; [symmetry; exact G|]. cbn. unfold llen. rewrite LL. lia. }
      exists l. split; [|split; [|split; [exact G|split]]].
      - intros k v. unfold OrdinalTotalArrayMap_get. split.
        + intros Hin. apply In_nth_error in Hin. destruct Hin as [i Hi].
          assert (Ek : nth_error ks i = Some k) by (rewrite <- F; exact (map_nth_error fst _ _ Hi)).
          assert (Ev : nth_error (arr_list m) i = Some v) by (rewrite <- G; exact (map_nth_error snd _ _ Hi)).
          apply (@numbered_nth 0 ks k i Hk) in Ek. destruct Ek as [Ek _]. rewrite Ek. cbn [bind]. unfold index.
          replace (N.to_nat (0 + N.of_nat i)) with i by lia. rewrite Ev. reflexivity.
        + intros H. apply bind_inv in H. destruct H as (i & Hi & H). unfold index in H.
          destruct (nth_error (arr_list m) (N.to_nat i)) as [v'|] eqn:Ev; [|discriminate H]. injection H as ->.
          assert (B : (N.to_nat i < S)%nat).
          { rewrite <- Lm. apply nth_error_Some. rewrite Ev. discriminate. }
          assert (Ek : nth_error ks (N.to_nat i) = Some k).
          { apply (@numbered_nth 0 ks k _ Hk). split; [|lia]. rewrite Hi. f_equal. lia. }
          clear - F G Ek Ev. generalize dependent ks. intros ks l F G Ek.
          rewrite <- F in Ek. rewrite <- G in Ev. clear F G.
          rewrite nth_error_map in Ek, Ev. apply nth_error_In with (n := N.to_nat i).
          destruct (nth_error l (N.to_nat i)) as [[k' v']|]; [|discriminate Ek].
          injection Ek as ->. injection Ev as ->. reflexivity.
      - rewrite F. exact (numbered_sorted Hk).
      - intros sched. destruct (@drive_refines _ _ _ _ (@pend_refines V) sched _ _ P) as (s' & E & P').
        exists s'. split; [exact E|]. destruct P' as (_ & E' & _). unfold TIter_len, enumerate_len, llen.
        rewrite E', map_length. reflexivity.
      - unfold OrdinalTotalArrayMap_debug.
        destruct (@collect_refines _ _ _ _ (@pend_refines V) (Datatypes.S (length (arr_list m))) _ _ P) as (s' & E & _); [lia|].
        assert (E' : collect (TIter_step O Front) (Datatypes.S (length (arr_list m))) (OrdinalTotalArrayMap_iter m) = Val (l, s')) by exact E.
        rewrite E'. reflexivity.
    Qed.
  End One.
End FromArray.
