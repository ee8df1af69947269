(** * CatchProofs2: lemmas for C96, programs over maps. *)
From Verif Require Import Base Spec SpecMap SpecTotal SpecSet SpecCatch ModelOrdinal ModelValues ModelArrayBuilder
  ModelIter ModelTotal ModelMap ModelSet ModelResume ModelUnwind MapMachine TotalMachine SetMachine ModelCatch
  OrdinalProofs MapLib ArrayProofs MapProofs MapProofs2 MapProofs5 TotalProofs TotalProofs3 ResumeProofs UnwindProofs2
  SpecResume CatchProofs.
From Coq Require Import List. Import ListNotations.
Set Implicit Arguments. Unset Strict Implicit.

Section Versions.
  Context {cfg : Config} {K V : Type} (O O0 : Ordinal K) (HP : panicking_version O O0).
  Context (n : N) (HO : ordinal_bijection O0 n).
  Context (eqd : forall a b : K, {a = b} + {a <> b}).
  Context (ks : list K) (He : enumeration O0 ks).

  Lemma version_size : ORDINAL_SIZE O = Val n.
  Proof. rewrite (proj1 HP). exact (bij_size HO). Qed.
  Lemma version_init (m : @OrdinalMap V) : OrdinalMap_init_full_map O m = OrdinalMap_init_full_map O0 m.
  Proof. unfold OrdinalMap_init_full_map. now rewrite (proj1 HP). Qed.
  Lemma key_cases key : (forall k, key = Some k -> ordinal O k = ordinal O0 k) /\ key_returns O key \/
    exists k w, key = Some k /\ ordinal O k = Panic w.
  Proof.
    destruct key as [k|]; [|left; split; [discriminate|exact I]].
    destruct (proj2 (proj2 HP) k) as [E|(w & E)]; [left|right; eauto]. split; [intros ? [= <-]; exact E|].
    cbn. rewrite E. destruct (bij_to HO k) as (i & Ei & _). eauto.
  Qed.

  (** *** OrdinalMap *)
  Lemma heap_same op (m : @OrdinalMap V) : (forall k, map_key op = Some k -> ordinal O k = ordinal O0 k) ->
    heap_step O op m = heap_step O0 op m.
  Proof.
    intros H. pose proof version_init as Hi. destruct op; cbn [map_key] in H; try specialize (H _ eq_refl); cbn [heap_step];
      unfold OrdinalMap_insert, OrdinalMap_get, OrdinalMap_get_mut, OrdinalMap_contains_key, OrdinalMap_remove, OrdinalMap_entry;
      rewrite ?Hi, ?H; try reflexivity; clear H Hi;
      destruct HP as (Hs & Hf & _); clear HP HO He; destruct O as [s1 o1 f1], O0 as [s2 o2 f2]; cbn in *; subst; reflexivity.
  Qed.
  Lemma heap_panics op (st : @OrdinalMap V) m k w : heap_rep O0 n ks st m -> map_key op = Some k -> ordinal O k = Panic w ->
    heap_step O op st = Panic w.
  Proof.
    intros H Hk Hw. destruct op; cbn [map_key] in Hk; try discriminate Hk; injection Hk as ->; cbn [heap_step];
      unfold OrdinalMap_insert, OrdinalMap_get, OrdinalMap_get_mut, OrdinalMap_contains_key, OrdinalMap_remove, OrdinalMap_entry;
      rewrite ?version_init, ?(init_ok HO He H), ?Hw; cbn [bind]; rewrite ?Hw; reflexivity.
  Qed.
  Lemma left_rep (st st' : @OrdinalMap V) m : left_slots O st st' -> heap_rep O0 n ks st m -> heap_rep O0 n ks st' m.
  Proof.
    intros [->|(-> & c & Ec & ->)] H; [exact H|]. rewrite version_size in Ec. injection Ec as <-.
    pose proof (init_ok HO He H) as E. unfold OrdinalMap_init_full_map in E. rewrite (bij_size HO) in E. cbn in E.
    injection E as ->. exact (full_rep HO He m).
  Qed.
  Lemma key_not_bulk (op : map_op K V) k : map_key op = Some k -> bulk op = false.
  Proof. destruct op; cbn; try discriminate; reflexivity. Qed.

  Lemma heap_catch_step op (st : @OrdinalMap V) m : heap_op op = true -> heap_rep O0 n ks st m ->
    (exists st', heap_act O op st = (st', Ended (fst (spec_step eqd ks op m))) /\ key_returns O (map_key op) /\
       heap_rep O0 n ks st' (snd (spec_step eqd ks op m))) \/
    (exists st' w, heap_act O op st = (st', Unwinds w) /\ key_panics O (map_key op) w /\ heap_rep O0 n ks st' m).
  Proof.
    intros Hop H. apply andb_prop in Hop as [H1 H2]. destruct (key_cases (map_key op)) as [[Hs Hr]|(k & w & Ek & Ew)].
    - left. destruct (heap_step_ok HO eqd He H1 H2 H) as (st' & E & H'). exists st'. split; [|auto].
      apply (heap_erases O op st). rewrite heap_same; [exact E|exact Hs].
    - right. destruct (heap_good O (op := op) (key_not_bulk Ek)) as (_ & P & L).
      destruct (proj1 (P st w) (heap_panics H Ek Ew)) as (st' & E). exists st', w. split; [exact E|].
      rewrite Ek. split; [exact Ew|]. exact (left_rep (L _ _ _ E) H).
  Qed.
  Lemma heap_catch_law (ops : list (map_op K V)) : forallb heap_op ops = true ->
    exists outs st m, catch_run (heap_act O) ops OrdinalMap_new = Some (outs, st) /\
      caught_program (spec_step eqd ks) (fun op => key_returns O (map_key op)) (fun op => key_panics O (map_key op))
        ops outs pm_empty m /\ heap_rep O0 n ks st m.
  Proof.
    intros H. apply (catch_law (inv := heap_rep O0 n ks) (ok := heap_op)); [|exact H|exact (heap_new_rep O0 n ks)].
    intros op s m. apply heap_catch_step.
  Qed.
  Lemma heap_rep_get (st : @OrdinalMap V) m k : heap_rep O0 n ks st m ->
    (exists i, ordinal O k = Val i) -> OrdinalMap_get O st k = Val (m k).
  Proof.
    intros H (i & Hi). rewrite <- (heap_get_ok HO He k H). unfold OrdinalMap_get.
    destruct (proj2 (proj2 HP) k) as [->|(w & Ew)]; [reflexivity|congruence].
  Qed.
  Lemma heap_rep_iter (st : @OrdinalMap V) m : heap_rep O0 n ks st m ->
    OrdinalMap_debug O st = Val (pm_entries ks m).
  Proof.
    intros H. pose proof (heap_step_ok HO eqd He (op := OpDebug) eq_refl eq_refl H) as (st' & E & _).
    rewrite <- (heap_same (op := OpDebug)) in E by discriminate. cbn [heap_step spec_step fst snd] in E.
    destruct (OrdinalMap_debug O st); cbn in E; congruence.
  Qed.

  Lemma heap_behaves (ops : list (map_op K V)) : forallb heap_op ops = true ->
    exists outs st m, catch_run (heap_act O) ops OrdinalMap_new = Some (outs, st) /\
      caught_program (spec_step eqd ks) (fun op => key_returns O (map_key op)) (fun op => key_panics O (map_key op))
        ops outs pm_empty m /\
      OrdinalMap_debug O st = Val (pm_entries ks m) /\
      forall k, (exists i, ordinal O k = Val i) -> OrdinalMap_get O st k = Val (m k).
  Proof.
    intros H. destruct (heap_catch_law H) as (outs & st & m & E & Hc & Hr). exists outs, st, m.
    split; [exact E|]. split; [exact Hc|]. split; [exact (heap_rep_iter Hr)|]. intros k. exact (heap_rep_get Hr).
  Qed.
  Lemma storage_seen k w (v : V) : ordinal O k = Panic w ->
    forall k', (exists i, ordinal O k' = Val i) ->
      catch_run (heap_act (V := V) O) [OpContainsKey k'] OrdinalMap_new = Some ([Seen (OutBool false)], OrdinalMap_new) /\
      catch_run (heap_act O) [OpInsert k v; OpContainsKey k'] OrdinalMap_new =
        Some ([Caught w; Seen (OutBool true)], repeat None (N.to_nat n)).
  Proof.
    clear He eqd. intros Hw k' (i & Hi).
    assert (Hlt : i < n). { destruct (bij_to HO k') as (j & Hj & Hlt & _). destruct (proj2 (proj2 HP) k') as [E|(w' & E)]; congruence. }
    assert (Es : slice_get (@nil (option V)) i = None) by (unfold slice_get; destruct (N.to_nat i); reflexivity).
    assert (En : slice_get (repeat (@None V) (N.to_nat n)) i = Some None) by (unfold slice_get; rewrite nth_error_repeat by lia; reflexivity).
    unfold catch_run, heap_act, OrdinalMap_insert_act, OrdinalMap_init_full_map_act, replaces, abind, look, put, ret, OrdinalMap_new,
      heap_step, OrdinalMap_contains_key. rewrite version_size, Hi. cbn [bind]. rewrite Es. cbn. rewrite Hw. cbn.
    rewrite En. split; reflexivity.
  Qed.

  (** *** OrdinalArrayMap *)
  Section Arrays.
  Context (S : nat).
  Lemma array_same op (m : @OrdinalArrayMap V S) : (forall k, map_key op = Some k -> ordinal O k = ordinal O0 k) ->
    array_step O op m = array_step O0 op m.
  Proof.
    intros H. destruct op; cbn [map_key] in H; try specialize (H _ eq_refl); cbn [array_step];
      unfold OrdinalArrayMap_insert, OrdinalArrayMap_contains_key, OrdinalArrayMap_remove, OrdinalArrayMap_entry,
        OrdinalArrayMap_get, OrdinalArrayMap_get_mut,
        OrdinalTotalArrayMap_get, OrdinalTotalArrayMap_index_mut, OrdinalTotalArrayMap_get_mut;
      rewrite ?H; try reflexivity; clear H;
      destruct HP as (Hs & Hf & _); clear HP HO He; destruct O as [s1 o1 f1], O0 as [s2 o2 f2]; cbn in *; subst; reflexivity.
  Qed.
  Lemma array_panics op (m : @OrdinalArrayMap V S) k w : map_key op = Some k -> ordinal O k = Panic w ->
    array_step O op m = Panic w.
  Proof.
    intros Hk Hw. destruct op; cbn [map_key] in Hk; try discriminate Hk; injection Hk as ->; cbn [array_step];
      unfold OrdinalArrayMap_insert, OrdinalArrayMap_contains_key, OrdinalArrayMap_remove, OrdinalArrayMap_entry,
        OrdinalArrayMap_get, OrdinalArrayMap_get_mut,
        OrdinalTotalArrayMap_get, OrdinalTotalArrayMap_index_mut, OrdinalTotalArrayMap_get_mut;
      rewrite ?Hw; reflexivity.
  Qed.
  Lemma array_catch_step op (a : @OrdinalArrayMap V S) m : array_rep ks a m ->
    (exists a', array_act O op a = (a', Ended (fst (spec_step eqd ks op m))) /\ key_returns O (map_key op) /\
       array_rep ks a' (snd (spec_step eqd ks op m))) \/
    (exists a' w, array_act O op a = (a', Unwinds w) /\ key_panics O (map_key op) w /\ array_rep ks a' m).
  Proof.
    intros H. destruct (key_cases (map_key op)) as [[Hs Hr]|(k & w & Ek & Ew)].
    - left. destruct (array_step_ok HO eqd He op H) as (a' & E & H'). exists a'. split; [|auto].
      apply (array_erases O op a). rewrite array_same; [exact E|exact Hs].
    - right. destruct (@array_good _ _ _ O S op (key_not_bulk Ek)) as (_ & P & L).
      destruct (proj1 (P a w) (array_panics a Ek Ew)) as (a' & E). exists a', w. split; [exact E|].
      rewrite Ek. split; [exact Ew|]. rewrite <- (L _ _ _ E). exact H.
  Qed.
  Lemma array_new_version : OrdinalArrayMap_new (V := V) O S = OrdinalArrayMap_new O0 S.
  Proof.
    destruct HP as (Hs & Hf & _); clear HP HO He; destruct O as [s1 o1 f1], O0 as [s2 o2 f2]; cbn in *; subst; reflexivity.
  Qed.
  Lemma array_catch_law (ops : list (map_op K V)) : N.of_nat S = n ->
    exists (a0 : @OrdinalArrayMap V S) outs a m, OrdinalArrayMap_new O S = Val a0 /\ catch_run (array_act O (S := S)) ops a0 = Some (outs, a) /\
      caught_program (spec_step eqd ks) (fun op => key_returns O (map_key op)) (fun op => key_panics O (map_key op))
        ops outs pm_empty m /\ array_rep ks a m.
  Proof.
    intros HS. destruct (array_new_rep (V := V) HO He HS) as (a0 & E0 & H0).
    destruct (@catch_law _ _ _ _ (array_act (V := V) O (S := S)) (spec_step eqd ks) (fun op => key_returns O (map_key op))
      (fun op => key_panics O (map_key op)) (array_rep ks (S := S)) (fun _ => true)) with (ops := ops) (s := a0) (m := @pm_empty K V)
      as (outs & a & m & E & Hc & Hr).
    - intros op s m _. apply array_catch_step.
    - clear. induction ops; auto.
    - exact H0.
    - exists a0, outs, a, m. rewrite array_new_version. auto.
  Qed.
  Lemma array_rep_get (a : @OrdinalArrayMap V S) m k : array_rep ks a m ->
    (exists i, ordinal O k = Val i) -> OrdinalArrayMap_get O a k = Val (m k).
  Proof.
    intros H (i & Hi). rewrite <- (array_get_ok HO He k H). unfold OrdinalArrayMap_get, OrdinalTotalArrayMap_get.
    destruct (proj2 (proj2 HP) k) as [->|(w & Ew)]; [reflexivity|congruence].
  Qed.
  Lemma array_behaves (ops : list (map_op K V)) : N.of_nat S = n ->
    exists (a0 : @OrdinalArrayMap V S) outs a m, OrdinalArrayMap_new O S = Val a0 /\
      catch_run (array_act O (S := S)) ops a0 = Some (outs, a) /\
      caught_program (spec_step eqd ks) (fun op => key_returns O (map_key op)) (fun op => key_panics O (map_key op))
        ops outs pm_empty m /\
      OrdinalArrayMap_debug O a = Val (pm_entries ks m) /\
      forall k, (exists i, ordinal O k = Val i) -> OrdinalArrayMap_get O a k = Val (m k).
  Proof.
    intros H. destruct (array_catch_law ops H) as (a0 & outs & a & m & E0 & E & Hc & Hr). exists a0, outs, a, m.
    split; [exact E0|]. split; [exact E|]. split; [exact Hc|]. split; [|intros k; exact (array_rep_get Hr)].
    pose proof (array_step_ok HO eqd He OpDebug Hr) as (a' & E' & _).
    rewrite <- (array_same (op := OpDebug)) in E' by discriminate. cbn [array_step spec_step fst snd] in E'.
    destruct (OrdinalArrayMap_debug O a); cbn in E'; congruence.
  Qed.
  End Arrays.

  (** *** Total maps *)
  Lemma htotal_same op (m : @OrdinalTotalMap V) : (forall k, total_key op = Some k -> ordinal O k = ordinal O0 k) ->
    htotal_step O op m = htotal_step O0 op m.
  Proof.
    intros H. destruct op; cbn [total_key] in H; try specialize (H _ eq_refl); cbn [htotal_step];
      unfold OrdinalTotalMap_insert, OrdinalTotalMap_index, OrdinalTotalMap_index_mut, OrdinalTotalMap_get, OrdinalTotalMap_get_mut;
      rewrite ?H; try reflexivity; clear H;
      destruct HP as (Hs & Hf & _); clear HP HO He; destruct O as [s1 o1 f1], O0 as [s2 o2 f2]; cbn in *; subst; reflexivity.
  Qed.
  Lemma htotal_panics op (m : @OrdinalTotalMap V) k w : total_key op = Some k -> ordinal O k = Panic w ->
    htotal_step O op m = Panic w.
  Proof.
    intros Hk Hw. destruct op; cbn [total_key] in Hk; try discriminate Hk; injection Hk as ->; cbn [htotal_step];
      unfold OrdinalTotalMap_insert, OrdinalTotalMap_index, OrdinalTotalMap_index_mut, OrdinalTotalMap_get, OrdinalTotalMap_get_mut;
      rewrite ?Hw; reflexivity.
  Qed.
  Lemma htotal_catch_law ops (m0 : K -> V) :
    exists outs m, catch_run (htotal_act O) ops (map m0 ks) = Some (outs, map m ks) /\
      caught_program (total_step eqd ks) (fun op => key_returns O (total_key op)) (fun op => key_panics O (total_key op))
        ops outs m0 m.
  Proof.
    destruct (@catch_law _ _ _ _ (htotal_act (V := V) O) (total_step eqd ks) (fun op => key_returns O (total_key op))
      (fun op => key_panics O (total_key op)) (fun l m => l = map m ks) (fun _ => true)) with (ops := ops) (s := map m0 ks) (m := m0)
      as (outs & a & m & E & Hc & ->).
    - intros op s m _ ->. destruct (key_cases (total_key op)) as [[Hs Hr]|(k & w & Ek & Ew)].
      + left. eexists. split; [|auto]. apply (htotal_good O op). rewrite htotal_same by exact Hs.
        exact (htotal_step_ok HO He eqd op m).
      + right. destruct (htotal_good (V := V) O op) as (_ & P & L).
        destruct (proj1 (P (map m ks) w) (htotal_panics _ Ek Ew)) as (st' & E). exists st', w. split; [exact E|].
        rewrite Ek. split; [exact Ew|]. now rewrite <- (L _ _ _ E).
    - clear. induction ops; auto.
    - reflexivity.
    - eauto.
  Qed.
  Section TArrays.
  Context (S : nat).
  Lemma atotal_same op (m : OrdinalTotalArrayMap S V) : (forall k, total_key op = Some k -> ordinal O k = ordinal O0 k) ->
    atotal_step O op m = atotal_step O0 op m.
  Proof.
    intros H. destruct op; cbn [total_key] in H; try specialize (H _ eq_refl); cbn [atotal_step];
      unfold OrdinalTotalArrayMap_insert, OrdinalTotalArrayMap_index, OrdinalTotalArrayMap_index_mut, OrdinalTotalArrayMap_get, OrdinalTotalArrayMap_get_mut;
      rewrite ?H; try reflexivity; clear H;
      destruct HP as (Hs & Hf & _); clear HP HO He; destruct O as [s1 o1 f1], O0 as [s2 o2 f2]; cbn in *; subst; reflexivity.
  Qed.
  Lemma atotal_panics op (m : OrdinalTotalArrayMap S V) k w : total_key op = Some k -> ordinal O k = Panic w ->
    atotal_step O op m = Panic w.
  Proof.
    intros Hk Hw. destruct op; cbn [total_key] in Hk; try discriminate Hk; injection Hk as ->; cbn [atotal_step];
      unfold OrdinalTotalArrayMap_insert, OrdinalTotalArrayMap_index, OrdinalTotalArrayMap_index_mut, OrdinalTotalArrayMap_get, OrdinalTotalArrayMap_get_mut;
      rewrite ?Hw; reflexivity.
  Qed.
  Lemma atotal_catch_law ops (a0 : OrdinalTotalArrayMap S V) (m0 : K -> V) : arr_list a0 = map m0 ks ->
    exists outs a m, catch_run (atotal_act O (S := S)) ops a0 = Some (outs, a) /\ arr_list a = map m ks /\
      caught_program (total_step eqd ks) (fun op => key_returns O (total_key op)) (fun op => key_panics O (total_key op))
        ops outs m0 m.
  Proof.
    intros H0.
    destruct (@catch_law _ _ _ _ (atotal_act (V := V) O (S := S)) (total_step eqd ks) (fun op => key_returns O (total_key op))
      (fun op => key_panics O (total_key op)) (fun l m => arr_list l = map m ks) (fun _ => true)) with (ops := ops) (s := a0) (m := m0)
      as (outs & a & m & E & Hc & Ha).
    - intros op s m _ Hs0. destruct (key_cases (total_key op)) as [[Hs Hr]|(k & w & Ek & Ew)].
      + left. destruct (atotal_step_ok HO He eqd op Hs0) as (a' & E & H'). exists a'. split; [|auto].
        apply (atotal_good O S op). now rewrite atotal_same.
      + right. destruct (atotal_good (V := V) O S op) as (_ & P & L).
        destruct (proj1 (P s w) (atotal_panics _ Ek Ew)) as (st' & E). exists st', w. split; [exact E|].
        rewrite Ek. split; [exact Ew|]. now rewrite <- (L _ _ _ E).
    - clear. induction ops; auto.
    - exact H0.
    - exists outs, a, m. auto.
  Qed.
  End TArrays.
End Versions.
