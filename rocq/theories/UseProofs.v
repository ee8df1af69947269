(** * UseProofs: programs over collections, built and run. *)
From Verif Require Import Base Spec SpecMap SpecTotal SpecSet SpecAtomic SpecMem ModelOrdinal ModelValues
  ModelArrayBuilder ModelIter ModelTotal ModelMap ModelSet ModelAtomic SpecUniverse ModelUniverse
  ModelMono MapMachine TotalMachine SetMachine ModelUse SpecUse BaseProofs ArrayProofs AtomicProofs SetProofs2 UniverseProofs4
  UniverseProofs5 UniverseProofs6 UniverseProofs7 MonoProofs.
From Coq Require Import List Lia.
Import ListNotations.
Set Implicit Arguments.
Unset Strict Implicit.

Lemma nth_none A (i : nat) : nth_error (@nil A) i = None.
Proof. destruct i; reflexivity. Qed.

Lemma write_entries_none K V (f : K -> V -> V) (sched : list dir) l :
  write_entries f (map (fun _ => None) sched) l = Val (map (fun _ => None) sched, l).
Proof. induction sched as [|d sched IH]; cbn; [reflexivity|]. rewrite IH. reflexivity. Qed.

Lemma write_values_none V (f : V -> V) (sched : list dir) l :
  write_values f (map (fun _ => None) sched) l = Val (map (fun _ => None) sched, l).
Proof. induction sched as [|d sched IH]; cbn; [reflexivity|]. rewrite IH. reflexivity. Qed.

Section Use.
  Context {cfg : Config}.

  Lemma needs_cons t n l : inst_needs t (n :: l) = (inst_need t n ;;; inst_needs t l).
  Proof. reflexivity. Qed.

  Lemma need_settled t n : settled (inst_need t n).
  Proof.
    destruct n as [| | |s|s| |]; cbn [inst_need].
    - apply mentions_settled.
    - apply inst_settled.
    - apply from_settled.
    - unfold ASSERT. destruct (size_dichotomy t) as [[n ->]| ->]; [|right; reflexivity].
      cbn [bind]. unfold assert_const. destruct (n =? N.of_nat s); [left|right]; reflexivity.
    - unfold ArraySet_ASSERT, ordinal_array_set_s. destruct (size_dichotomy t) as [[n ->]| ->]; [|right; reflexivity].
      cbn [bind]. assert (C : (exists w, cdiv_ceil n 64 = Val w) \/ cdiv_ceil n 64 = NoCompile).
      { unfold cdiv_ceil. change (64 =? 0) with false. cbv iota. destruct (0 <? n mod 64); [|eauto].
        unfold cadd, usize_const. destruct (_ && _)%bool; eauto. }
      destruct C as [[w ->]| ->]; [|right; reflexivity].
      cbn [bind]. unfold assert_const. destruct (N.of_nat s =? w); [left|right]; reflexivity.
    - unfold Set64_ASSERT. destruct (size_dichotomy t) as [[n ->]| ->]; [|right; reflexivity].
      cbn [bind]. unfold assert_const. destruct (n <=? 64); [left|right]; reflexivity.
    - right. reflexivity.
  Qed.

  Lemma needs_settled t l : settled (inst_needs t l).
  Proof. apply inst_all_settled, Forall_map, Forall_forall. intros n _. apply need_settled. Qed.

  Lemma needs_val t l : inst_needs t l = Val tt <-> Forall (fun n => inst_need t n = Val tt) l.
  Proof. unfold inst_needs. rewrite inst_all_val, Forall_map. reflexivity. Qed.

  Lemma needs_fail t l n : In n l -> inst_need t n = NoCompile -> inst_needs t l = NoCompile.
  Proof.
    intros Hn Hf. destruct (needs_settled t l) as [H|H]; [|exact H].
    rewrite needs_val, Forall_forall in H. rewrite (H n Hn) in Hf. discriminate Hf.
  Qed.

  (** *** Types without an ORDINAL_SIZE *)
  Section Unsized.
    Context (t : ty) (U : ORDINAL_SIZE (impl_of t) = NoCompile).

    Lemma unsized_need n : match n with NOrdinal | NFrom => True | _ => inst_need t n = NoCompile end.
    Proof.
      destruct n; cbn [inst_need]; try exact I; unfold mentions_size, ASSERT, ArraySet_ASSERT, Set64_ASSERT, ordinal_array_set_s;
        try rewrite U; reflexivity.
    Qed.

    Lemma unsized_fail l n : In n l -> match n with NOrdinal | NFrom => False | _ => True end ->
      inst_needs t l = NoCompile.
    Proof. intros H Hn. apply (needs_fail H). generalize (unsized_need n). destruct n; tauto. Qed.

    Lemma unsized_map_from V l ops : @compiled_map_from cfg V t l ops = NoCompile.
    Proof. unfold compiled_map_from. rewrite (@unsized_fail _ NSize); cbn; auto. Qed.
    Lemma unsized_array_map V s ops : @compiled_array_map cfg V t s ops = NoCompile.
    Proof. unfold compiled_array_map. rewrite (@unsized_fail _ NSize); cbn; auto. Qed.
    Lemma unsized_array_map_from V s l ops : @compiled_array_map_from cfg V t s l ops = NoCompile.
    Proof. unfold compiled_array_map_from. rewrite (@unsized_fail _ NSize); cbn; auto. Qed.
    Lemma unsized_total V St init st ops : @compiled_total cfg V St t init st ops = NoCompile.
    Proof. unfold compiled_total. rewrite (@unsized_fail _ NSize); cbn; auto. Qed.
    Lemma unsized_total_array V St s init st ops : @compiled_total_array cfg V St t s init st ops = NoCompile.
    Proof. unfold compiled_total_array. rewrite (@unsized_fail _ NSize); cbn; auto. Qed.
    Lemma unsized_set ops : compiled_set t ops = NoCompile.
    Proof. unfold compiled_set. rewrite (@unsized_fail _ NSize); cbn; auto. Qed.
    Lemma unsized_array_set s ops : compiled_array_set t s ops = NoCompile.
    Proof. unfold compiled_array_set. rewrite (@unsized_fail _ (NWords s)); cbn; auto. Qed.
    Lemma unsized_set64 ops : compiled_set64 t ops = NoCompile.
    Proof. unfold compiled_set64. rewrite (@unsized_fail _ NAtMost64); cbn; auto. Qed.

    Lemma unsized_array_set_default s ops r : compiled_array_set_default t s ops = r ->
      r = NoCompile \/ Forall (fun op => op = SClone) ops /\
        exists a, r = Val (map (fun _ => SUnit_) ops, a).
    Proof.
      unfold compiled_array_set_default. intros <-.
      destruct (needs_settled t (needs_array_set_default ++ flat_map (needs_array_set s) ops)) as [H|H];
        rewrite H; [|left; reflexivity]. right. cbn [bind].
      rewrite needs_val, Forall_forall in H.
      assert (F : Forall (fun op => op = SClone) ops).
      { apply Forall_forall. intros op Hop.
        assert (W : op <> SClone -> In (NWords s) (flat_map (needs_array_set s) ops) \/ In NMissing (flat_map (needs_array_set s) ops)).
        { intros Ho. destruct op; try (exfalso; apply Ho; reflexivity);
            [left|left|right|left|left]; apply in_flat_map; eexists; (split; [exact Hop|cbn; auto]). }
        destruct op; try reflexivity; exfalso;
          (destruct W as [W|W]; [discriminate|specialize (H (NWords s) W); rewrite (unsized_need (NWords s)) in H; discriminate H
            |specialize (H NMissing W); discriminate H]). }
      split; [exact F|]. destruct (default_any_size s) as [a ->]. cbn [bind]. exists a.
      unfold array_set_run. clear H.
      induction F as [|op ops -> _ IH]; cbn; [reflexivity|].
      unfold OrdinalArraySet_clone. rewrite IH. reflexivity.
    Qed.

    (** *** OrdinalMap stays empty *)
    Lemma drive_stuck A St (step : dir -> St -> res (option A * St)) s sched :
      (forall d, step d s = Val (None, s)) -> drive step sched s = Val (map (fun _ => None) sched, s).
    Proof. intros H. induction sched as [|d sched IH]; cbn; [reflexivity|]. rewrite H. cbn. rewrite IH. reflexivity. Qed.

    Lemma ordinal_two k : inst_ordinal t = Val tt ->
      (exists i, ordinal (impl_of t) k = Val i) \/ exists w, ordinal (impl_of t) k = Panic w.
    Proof.
      intros H. pose proof (inst_safe H k) as S. destruct (ordinal (impl_of t) k) as [i|w| | |]; try contradiction S; eauto.
    Qed.

    Lemma empty_step V (op : map_op (type_of t) V) :
      Forall (fun n => inst_need t n = Val tt) (needs_map op) ->
      heap_step (impl_of t) op OrdinalMap_new = Val (empty_answer op, OrdinalMap_new) \/
      exists w, heap_step (impl_of t) op OrdinalMap_new = Panic w.
    Proof.
      intros F.
      assert (NS : ~ In NSize (needs_map op)).
      { intros G. rewrite Forall_forall in F. specialize (F NSize G). rewrite (unsized_need NSize) in F. discriminate F. }
      assert (NM : ~ In NMissing (needs_map op)).
      { intros G. rewrite Forall_forall in F. specialize (F NMissing G). discriminate F. }
      destruct op; try (exfalso; apply NS; cbn; auto; fail); try (exfalso; apply NM; cbn; auto; fail);
        cbn [needs_map] in F; try apply Forall_inv in F; cbn [inst_need] in F;
        try (destruct (ordinal_two k F) as [[i Hi]|[w Hi]];
          [left|right; exists w]; cbn [heap_step];
          unfold OrdinalMap_get, OrdinalMap_get_mut, OrdinalMap_contains_key, OrdinalMap_remove, OrdinalMap_new;
          rewrite Hi; cbn [bind]; try reflexivity).
      all: try (unfold slice_get; rewrite nth_none; reflexivity).
      all: left.
      all: cbn [heap_step].
      all: try reflexivity.
      all: rewrite drive_stuck by (intros []; reflexivity); cbn [bind].
      all: try reflexivity.
      - destruct leak; reflexivity.
      - rewrite write_entries_none. reflexivity.
      - rewrite write_values_none. reflexivity.
    Qed.

    Lemma empty_run V (ops : list (map_op (type_of t) V)) :
      Forall (fun n => inst_need t n = Val tt) (flat_map needs_map ops) ->
      heap_run (impl_of t) ops OrdinalMap_new = Val (map empty_answer ops, OrdinalMap_new) \/
      exists w, heap_run (impl_of t) ops OrdinalMap_new = Panic w.
    Proof.
      induction ops as [|op ops IH]; cbn [flat_map heap_run map]; [left; reflexivity|].
      intros F. apply Forall_app in F. destruct F as [F1 F2].
      destruct (empty_step F1) as [-> |[w ->]]; [|right; exists w; reflexivity]. cbn [bind].
      destruct (IH F2) as [-> |[w ->]]; [left|right; exists w]; reflexivity.
    Qed.

    Lemma unsized_map V (ops : list (map_op (type_of t) V)) :
      compiled_map t ops = NoCompile \/
      compiled_map t ops = Val (map empty_answer ops, OrdinalMap_new) \/
      exists w, compiled_map t ops = Panic w.
    Proof.
      unfold compiled_map. destruct (needs_settled t (flat_map needs_map ops)) as [H|H]; rewrite H; [|left; reflexivity].
      right. apply needs_val in H. exact (empty_run H).
    Qed.

  End Unsized.

  (** *** Types with an ORDINAL_SIZE *)
  Section Sized.
    Context (t : ty) (n : N) (Z : ORDINAL_SIZE (impl_of t) = Val n).

    Lemma sized_need m :
      match m with NSize | NOrdinal | NFrom => inst_need t m = Val tt | _ => True end.
    Proof.
      destruct m; try exact I; cbn [inst_need].
      - unfold mentions_size. rewrite Z. reflexivity.
      - apply (sized_both Z).
      - apply (sized_both Z).
    Qed.

    Definition plain (m : need) : Prop := match m with NSize | NOrdinal | NFrom => True | _ => False end.

    Lemma plain_needs l : Forall plain l -> inst_needs t l = Val tt.
    Proof.
      intros F. apply needs_val. apply Forall_forall. intros m Hm. rewrite Forall_forall in F.
      specialize (F m Hm). generalize (sized_need m). destruct m; cbn in F; tauto.
    Qed.

    Lemma plain_flat A (f : A -> list need) l : Forall (fun x => Forall plain (f x)) l -> Forall plain (flat_map f l).
    Proof. intros F. induction F as [|x l Hx _ IH]; cbn; [constructor|]. apply Forall_app. auto. Qed.

    Ltac plain_all := intros; repeat first [apply Forall_nil | apply Forall_cons; [exact I|]].

    Lemma plain_map V (ops : list (map_op (type_of t) V)) : Forall map_method ops -> Forall plain (flat_map needs_map ops).
    Proof.
      intros F. apply plain_flat. eapply Forall_impl; [|exact F]. intros [] H; try contradiction H; cbn [needs_map]; plain_all.
    Qed.
    Lemma plain_array_map V (ops : list (map_op (type_of t) V)) : Forall plain (flat_map needs_array_map ops).
    Proof. apply plain_flat, Forall_forall. intros [] _; cbn [needs_array_map]; plain_all. Qed.
    Lemma plain_total V (ops : list (total_op (type_of t) V)) : Forall plain (flat_map needs_total ops).
    Proof. apply plain_flat, Forall_forall. intros [] _; cbn [needs_total]; plain_all. Qed.
    Lemma plain_total_array V (ops : list (total_op (type_of t) V)) : Forall plain (flat_map needs_total_array ops).
    Proof. apply plain_flat, Forall_forall. intros [] _; cbn [needs_total_array needs_total]; plain_all. Qed.
    Lemma plain_set (ops : list (set_op (type_of t))) : Forall plain (flat_map needs_set ops).
    Proof. apply plain_flat, Forall_forall. intros [] _; cbn [needs_set]; plain_all. Qed.

    Lemma sized_map V (ops : list (map_op (type_of t) V)) : Forall map_method ops ->
      compiled_map t ops = heap_run (impl_of t) ops OrdinalMap_new.
    Proof. intros F. unfold compiled_map. rewrite plain_needs by (apply plain_map, F). reflexivity. Qed.

    Lemma sized_map_from V l (ops : list (map_op (type_of t) V)) : Forall map_method ops ->
      compiled_map_from t l ops =
      (m <- OrdinalMap_from_iter (impl_of t) l ;; heap_run (impl_of t) ops m).
    Proof.
      intros F. unfold compiled_map_from. rewrite plain_needs; [reflexivity|].
      apply Forall_app. split; [plain_all|apply plain_map, F].
    Qed.

    (** When the assertion fails the constructor does not compile either. *)
    Lemma asserted_needs m l : settled (inst_need t m) -> Forall plain l ->
      inst_needs t (m :: l) = inst_need t m.
    Proof.
      intros S F. rewrite needs_cons. destruct S as [-> | ->]; cbn [bind]; [apply plain_needs, F|reflexivity].
    Qed.

    Lemma seq_absorb A (r : res unit) (k : res A) : settled r -> (r = NoCompile -> k = NoCompile) -> (r ;;; k) = k.
    Proof. intros [-> | ->] H; cbn [bind]; [reflexivity|]. symmetry. apply H. reflexivity. Qed.

    Lemma sized_array_map V s (ops : list (map_op (type_of t) V)) :
      compiled_array_map t s ops =
      (m <- OrdinalArrayMap_new (impl_of t) s ;; array_run (impl_of t) (S := s) ops m).
    Proof.
      unfold compiled_array_map. cbn [needs_array_map_new app].
      rewrite asserted_needs; [|apply need_settled|do 2 (constructor; [exact I|]); apply plain_array_map].
      apply seq_absorb; [apply need_settled|]. cbn [inst_need]. intros H.
      unfold OrdinalArrayMap_new, OrdinalTotalArrayMap_new, OrdinalTotalArrayMap_try_new. rewrite H. reflexivity.
    Qed.

    Lemma sized_array_map_from V s l (ops : list (map_op (type_of t) V)) :
      compiled_array_map_from t s l ops =
      (m <- OrdinalArrayMap_from_iter (impl_of t) s l ;; array_run (impl_of t) (S := s) ops m).
    Proof.
      unfold compiled_array_map_from. cbn [needs_array_map_new app].
      rewrite asserted_needs; [|apply need_settled|do 3 (constructor; [exact I|]); apply plain_array_map].
      apply seq_absorb; [apply need_settled|]. cbn [inst_need]. intros H.
      unfold OrdinalArrayMap_from_iter, OrdinalArrayMap_new, OrdinalTotalArrayMap_new. rewrite H. reflexivity.
    Qed.

    Lemma sized_total V St init (st : St) (ops : list (total_op (type_of t) V)) :
      compiled_total t init st ops =
      (m <- snd (OrdinalTotalMap_new (impl_of t) init st) ;; htotal_run (impl_of t) ops m).
    Proof.
      unfold compiled_total. rewrite plain_needs; [reflexivity|].
      apply Forall_app. split; [plain_all|apply plain_total].
    Qed.

    Lemma sized_total_array V St s init (st : St) (ops : list (total_op (type_of t) V)) :
      compiled_total_array t s init st ops =
      (m <- returned (snd (OrdinalTotalArrayMap_new (impl_of t) s init st)) ;;
       atotal_run (S := s) (impl_of t) ops m).
    Proof.
      unfold compiled_total_array. cbn [needs_total_array_new app].
      rewrite asserted_needs; [|apply need_settled|do 2 (constructor; [exact I|]); apply plain_total_array].
      apply seq_absorb; [apply need_settled|]. cbn [inst_need]. intros H.
      unfold OrdinalTotalArrayMap_new. rewrite H. reflexivity.
    Qed.

    Lemma sized_from_array V s (a : arr V s) (ops : list (total_op (type_of t) V)) :
      compiled_from_array t a ops = atotal_run (S := s) (impl_of t) ops a.
    Proof. unfold compiled_from_array. rewrite plain_needs by apply plain_total_array. reflexivity. Qed.

    Lemma sized_set (ops : list (set_op (type_of t))) :
      compiled_set t ops = (s <- OrdinalSet_new (impl_of t) ;; set_run (impl_of t) ops s).
    Proof.
      unfold compiled_set. rewrite plain_needs; [reflexivity|]. constructor; [exact I|apply plain_set].
    Qed.

    (** Lists that repeat one assertion. *)
    Definition mixed (m x : need) : Prop := plain x \/ x = m.

    Lemma mixed_needs m l : Forall (mixed m) l -> In m l -> inst_needs t l = inst_need t m.
    Proof.
      intros F Hm. destruct (need_settled t m) as [H|H]; rewrite H.
      - apply needs_val, Forall_forall. intros x Hx. rewrite Forall_forall in F.
        destruct (F x Hx) as [Hp|Hp]; [|rewrite Hp; exact H].
        generalize (sized_need x). destruct x; cbn in Hp; tauto.
      - exact (needs_fail Hm H).
    Qed.

    Lemma mixed_flat A m (f : A -> list need) l : Forall (fun x => Forall (mixed m) (f x)) l -> Forall (mixed m) (flat_map f l).
    Proof. intros F. induction F as [|x l Hx _ IH]; cbn; [constructor|]. apply Forall_app. auto. Qed.

    Ltac mixed_all := repeat first [apply Forall_nil | apply Forall_cons; [first [left; exact I | right; reflexivity]|]].

    Lemma mixed_set64 (ops : list (set_op (type_of t))) : Forall (mixed NAtMost64) (flat_map needs_set64 ops).
    Proof. apply mixed_flat, Forall_forall. intros [] _; cbn [needs_set64]; mixed_all. Qed.
    Lemma mixed_array_set s (ops : list (set_op (type_of t))) : Forall array_set_method ops ->
      Forall (mixed (NWords s)) (flat_map (needs_array_set s) ops).
    Proof.
      intros F. apply mixed_flat. eapply Forall_impl; [|exact F].
      intros [] H; try contradiction H; cbn [needs_array_set]; mixed_all.
    Qed.

    Lemma sized_set64 (ops : list (set_op (type_of t))) :
      compiled_set64 t ops = (s <- OrdinalSet64_new (impl_of t) ;; set64_run (impl_of t) ops s).
    Proof.
      unfold compiled_set64. cbn [needs_set64_new app].
      rewrite (@mixed_needs NAtMost64); [|constructor; [right; reflexivity|apply mixed_set64]|left; reflexivity].
      apply seq_absorb; [apply need_settled|]. cbn [inst_need]. intros H.
      unfold OrdinalSet64_new. rewrite H. reflexivity.
    Qed.

    Lemma sized_array_set s (ops : list (set_op (type_of t))) : Forall array_set_method ops ->
      compiled_array_set t s ops =
      (a <- OrdinalArraySet_new (impl_of t) s ;; array_set_run (S := s) (impl_of t) ops a).
    Proof.
      intros F. unfold compiled_array_set. cbn [needs_array_set_new app].
      rewrite (@mixed_needs (NWords s)); [|constructor; [right; reflexivity|apply mixed_array_set, F]|left; reflexivity].
      apply seq_absorb; [apply need_settled|]. cbn [inst_need]. intros H.
      unfold OrdinalArraySet_new. rewrite H. reflexivity.
    Qed.

    (** [OrdinalArraySet::default] of the wrong length is accepted until it is used. *)
    Lemma default_unusable s (ops : list (set_op (type_of t))) a :
      ArraySet_ASSERT (impl_of t) s = NoCompile -> Forall array_set_method ops ->
      In (NWords s) (flat_map (needs_array_set s) ops) ->
      array_set_run (S := s) (impl_of t) ops a = NoCompile.
    Proof.
      intros H F. revert a. unfold array_set_run. induction F as [|op ops Hop F IH]; intros a Hin; [contradiction Hin|].
      cbn [run_ops]. destruct op; try contradiction Hop; cbn [array_set_step].
      - unfold OrdinalArraySet_insert. rewrite H. reflexivity.
      - unfold OrdinalArraySet_contains, OrdinalArraySet_as_ref. rewrite H. reflexivity.
      - unfold OrdinalArraySet_from_iter, OrdinalArraySet_new. rewrite H. reflexivity.
      - cbn [bind]. rewrite IH by exact Hin. reflexivity.
      - unfold OrdinalArraySet_debug, OrdinalArraySet_as_ref. rewrite H. reflexivity.
    Qed.

    Lemma need_dec (m : need) l : {In m l} + {~ In m l}.
    Proof. apply in_dec. decide equality; apply PeanoNat.Nat.eq_dec. Qed.

    Lemma sized_array_set_default s (ops : list (set_op (type_of t))) : Forall array_set_method ops ->
      compiled_array_set_default t s ops =
      (a <- OrdinalArraySet_default s ;; array_set_run (S := s) (impl_of t) ops a).
    Proof.
      intros F. unfold compiled_array_set_default. cbn [needs_array_set_default app].
      destruct (need_dec (NWords s) (flat_map (needs_array_set s) ops)) as [Hin|Hout].
      - rewrite (@mixed_needs (NWords s)); [|apply mixed_array_set, F|exact Hin].
        apply seq_absorb; [apply need_settled|]. cbn [inst_need]. intros H.
        destruct (default_any_size s) as [a ->]. cbn [bind]. apply default_unusable; assumption.
      - rewrite plain_needs; [reflexivity|]. generalize (mixed_array_set s F). rewrite !Forall_forall.
        intros G x Hx. destruct (G x Hx) as [Hp|Hp]; [exact Hp|]. subst x. contradiction (Hout Hx).
    Qed.

    Lemma sized_atomic v (cs : list (call (type_of t))) :
      compiled_atomic t v cs =
      (cell <- AtomicOrdinal_new (impl_of t) v ;; calls_alone (impl_of t) cs cell).
    Proof.
      unfold compiled_atomic. rewrite plain_needs; [reflexivity|].
      constructor; [exact I|]. apply plain_flat, Forall_forall. intros [] _; cbn [needs_atomic]; plain_all.
    Qed.
  End Sized.

  (** *** AtomicOrdinal, with overflow checks *)
  Section Atomic.
    Context (t : ty) (C : overflow_checks = true) (A : inst_ordinal t = Val tt)
      (eqd : forall a b : type_of t, {a = b} + {a <> b}).

    Definition has_number (v : type_of t) : Prop := exists i, ordinal (impl_of t) v = Val i.

    Lemma decode_back v i : ordinal (impl_of t) v = Val i -> decode (impl_of t) i = Val v.
    Proof. intros H. unfold decode. rewrite (proj2 (inst_round_trip C A H)). reflexivity. Qed.

    Lemma same_number v w i j : ordinal (impl_of t) v = Val i -> ordinal (impl_of t) w = Val j ->
      (i =? j) = if eqd v w then true else false.
    Proof.
      intros Hv Hw. destruct (eqd v w) as [->|D].
      - rewrite Hv in Hw. injection Hw as ->. apply N.eqb_refl.
      - apply N.eqb_neq. intros ->. apply D. apply (decode_back) in Hv. apply decode_back in Hw.
        rewrite Hv in Hw. injection Hw as ->. reflexivity.
    Qed.

    Lemma atomic_call c v i : ordinal (impl_of t) v = Val i -> legal c = true -> Forall has_number (given c) ->
      exists j, call_alone (impl_of t) c i = (Val (fst (reg_step eqd c v)), j) /\
        ordinal (impl_of t) (snd (reg_step eqd c v)) = Val j.
    Proof.
      intros Hv L G. destruct c as [o|w o|old new s f|].
      - exists i. destruct o; try discriminate L; cbn; rewrite (decode_back Hv); auto.
      - cbn [given] in G. apply Forall_inv in G. destruct G as [j Hj]. exists j.
        unfold call_alone, call_method, AtomicOrdinal_store. rewrite Hj.
        destruct o; try discriminate L; cbn; auto.
      - cbn [given] in G. pose proof (Forall_inv G) as [a Ha].
        apply Forall_inv_tail, Forall_inv in G. destruct G as [b Hb].
        unfold call_alone, call_method, AtomicOrdinal_compare_exchange. rewrite Ha, Hb.
        assert (E := same_number Hv Ha). cbn [reg_step].
        destruct f; try discriminate L; cbn; rewrite E; (destruct (eqd v old); cbn; rewrite (decode_back Hv); eauto).
      - exists i. cbn. rewrite (decode_back Hv). auto.
    Qed.

    Lemma numbered_two v : has_number v \/ exists w, ordinal (impl_of t) v = Panic w.
    Proof.
      pose proof (inst_safe A v) as S. unfold has_number.
      destruct (ordinal (impl_of t) v) as [i|w| | |]; try contradiction S; eauto.
    Qed.

    (** A value without a number or an ordering that is not allowed: a panic, and the
        variable is as it was. *)
    Lemma atomic_call_bad c i : legal c = false \/ ~ Forall has_number (given c) ->
      exists w, call_alone (impl_of t) c i = (Panic w, i).
    Proof.
      intros H. destruct c as [o|u o|old new s f|].
      - destruct H as [H|H]; [|exfalso; apply H; constructor].
        exists POrdering. destruct o; try discriminate H; reflexivity.
      - unfold call_alone, call_method, AtomicOrdinal_store. destruct (numbered_two u) as [[j Hj]|[w Hw]].
        + rewrite Hj. destruct H as [H|H]; [|exfalso; apply H; constructor; [exists j; exact Hj|constructor]].
          exists POrdering. destruct o; try discriminate H; reflexivity.
        + rewrite Hw. exists w. reflexivity.
      - unfold call_alone, call_method, AtomicOrdinal_compare_exchange.
        destruct (numbered_two old) as [[a Ha]|[w Hw]]; [rewrite Ha|rewrite Hw; exists w; reflexivity].
        destruct (numbered_two new) as [[b Hb]|[w Hw]]; [rewrite Hb|rewrite Hw; exists w; reflexivity].
        destruct H as [H|H]; [|exfalso; apply H; repeat constructor; [exists a|exists b]; assumption].
        exists POrdering. destruct f; try discriminate H; reflexivity.
      - destruct H as [H|H]; [discriminate H|exfalso; apply H; constructor].
    Qed.

    Lemma atomic_run_good cs : forall v i, ordinal (impl_of t) v = Val i ->
      Forall (fun c => legal c = true /\ Forall has_number (given c)) cs ->
      exists j, calls_alone (impl_of t) cs i = Val (fst (reg_run eqd cs v), j) /\
        ordinal (impl_of t) (snd (reg_run eqd cs v)) = Val j.
    Proof.
      induction cs as [|c cs IH]; intros v i Hv F; [exists i; split; [reflexivity|exact Hv]|].
      pose proof (Forall_inv F) as [L G]. apply Forall_inv_tail in F.
      destruct (atomic_call Hv L G) as (j & E & Hj). cbn [calls_alone reg_run]. rewrite E.
      destruct (reg_step eqd c v) as [o v']. cbn [fst snd] in *. cbn [bind].
      destruct (IH v' j Hj F) as (j' & E' & Hj'). rewrite E'.
      destruct (reg_run eqd cs v') as [os v'']. cbn [fst snd bind] in *. eauto.
    Qed.

    Lemma call_two c : (legal c = true /\ Forall has_number (given c)) \/ (legal c = false \/ ~ Forall has_number (given c)).
    Proof.
      destruct (legal c); [|auto].
      assert (D : forall l, Forall has_number l \/ ~ Forall has_number l).
      { induction l as [|x l IH]; [left; constructor|].
        destruct (numbered_two x) as [Hx|[w Hw]].
        - destruct IH as [IH|IH]; [left; constructor; assumption|right]. intros F. apply IH. exact (Forall_inv_tail F).
        - right. intros F. destruct (Forall_inv F) as [j Hj]. rewrite Hw in Hj. discriminate Hj. }
      destruct (D (given c)); auto.
    Qed.

    Lemma atomic_run_any cs : forall v i, ordinal (impl_of t) v = Val i ->
      (Forall (fun c => legal c = true /\ Forall has_number (given c)) cs) \/
      exists w, calls_alone (impl_of t) cs i = Panic w.
    Proof.
      induction cs as [|c cs IH]; intros v i Hv; [left; constructor|].
      destruct (call_two c) as [[L G]|B].
      - destruct (atomic_call Hv L G) as (j & E & Hj). destruct (IH _ _ Hj) as [F|[w Hw]].
        + left. constructor; auto.
        + right. exists w. cbn [calls_alone]. rewrite E. cbn [bind]. rewrite Hw. reflexivity.
      - destruct (atomic_call_bad i B) as [w E]. right. exists w. cbn [calls_alone]. rewrite E. reflexivity.
    Qed.
  End Atomic.

  Lemma atomic_good t (eqd : forall a b : type_of t, {a = b} + {a <> b}) v cs :
    overflow_checks = true -> inst_needs t (needs_atomic_new ++ flat_map needs_atomic cs) = Val tt ->
    Forall (fun x => exists i, ordinal (impl_of t) x = Val i) (v :: flat_map given cs) -> Forall (fun c => legal c = true) cs ->
    exists cell, compiled_atomic t v cs = Val (fst (reg_run eqd cs v), cell).
  Proof.
    intros C H F L. assert (A : inst_ordinal t = Val tt).
    { rewrite needs_val in H. exact (Forall_inv H). }
    unfold compiled_atomic. rewrite H. cbn [bind]. unfold AtomicOrdinal_new.
    pose proof (Forall_inv F) as [i Hi]. apply Forall_inv_tail in F. rewrite Hi. cbn [bind].
    edestruct (@atomic_run_good t C A eqd cs) as (j & E & _); [exact Hi| |exists j; exact E].
    rewrite Forall_forall in *. intros c Hc. split; [apply L, Hc|].
    rewrite Forall_forall. intros x Hx. apply F, in_flat_map. eauto.
  Qed.

  Lemma atomic_any t (eqd : forall a b : type_of t, {a = b} + {a <> b}) v cs :
    overflow_checks = true ->
    compiled_atomic t v cs = NoCompile \/ (exists w, compiled_atomic t v cs = Panic w) \/
    exists cell, compiled_atomic t v cs = Val (fst (reg_run eqd cs v), cell).
  Proof.
    intros C. unfold compiled_atomic. destruct (needs_settled t (needs_atomic_new ++ flat_map needs_atomic cs)) as [H|H];
      rewrite H; [|left; reflexivity]. right. cbn [bind]. unfold AtomicOrdinal_new.
    assert (A : inst_ordinal t = Val tt). { rewrite needs_val in H. exact (Forall_inv H). }
    destruct (numbered_two A v) as [[i Hi]|[w Hw]]; [rewrite Hi|rewrite Hw; left; exists w; reflexivity].
    cbn [bind]. destruct (@atomic_run_any t C A eqd cs _ _ Hi) as [F|[w Hw]]; [right|left; exists w; exact Hw].
    destruct (@atomic_run_good t C A eqd cs _ _ Hi F) as (j & E & _). exists j. exact E.
  Qed.
End Use.
