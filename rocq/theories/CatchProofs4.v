(** * CatchProofs4: lemmas for C96, programs over sets. *)
From Verif Require Import Base Spec SpecMap SpecTotal SpecSet SpecCatch ModelOrdinal ModelValues ModelArrayBuilder
  ModelIter ModelTotal ModelMap ModelSet MapMachine TotalMachine SetMachine ModelCatch
  OrdinalProofs ArrayProofs SetProofs CatchProofs CatchProofs3.
From Coq Require Import List. Import ListNotations.
Set Implicit Arguments. Unset Strict Implicit.

(** [r] is [r0], or a panic that [P] allows. *)
Definition below {A} (P : panic -> Prop) (r r0 : res A) : Prop := r = r0 \/ exists w, r = Panic w /\ P w.

Section Below.
  Context (P : panic -> Prop).
  Lemma below_refl A (r : res A) : below P r r.
  Proof. now left. Qed.
  Lemma below_bind A B (r r0 : res A) (k k0 : A -> res B) : below P r r0 -> (forall a, below P (k a) (k0 a)) ->
    below P (bind r k) (bind r0 k0).
  Proof.
    intros [->|(w & -> & Hw)] Hk; [|right; exists w; split; [reflexivity|exact Hw]].
    destruct r0; cbn; [apply Hk|left; reflexivity..].
  Qed.
  Lemma below_drive St A (step step0 : dir -> St -> res (option A * St)) :
    (forall d s, below P (step d s) (step0 d s)) -> forall sched s, below P (drive step sched s) (drive step0 sched s).
  Proof.
    intros H sched. induction sched as [|d ds IH]; intros s; cbn [drive]; [now left|].
    apply below_bind; [apply H|]. intros [x s1]. apply below_bind; [apply IH|]. intros [xs s2]. now left.
  Qed.
  Lemma below_collect St A (step step0 : St -> res (option A * St)) :
    (forall s, below P (step s) (step0 s)) -> forall fuel s, below P (collect step fuel s) (collect step0 fuel s).
  Proof.
    intros H fuel. induction fuel as [|fuel IH]; intros s; cbn [collect]; [now left|].
    apply below_bind; [apply H|]. intros [[x|] s1]; [|now left]. apply below_bind; [apply IH|]. intros [xs s2]. now left.
  Qed.
End Below.

Section Versions.
  Context {cfg : Config} {T : Type} (sz : res N) (o o0 : T -> res N) (fo : N -> res (option T)).
  Local Notation O := (Build_Ordinal sz o fo).
  Local Notation O0 := (Build_Ordinal sz o0 fo).
  Context (HV : forall t, o t = o0 t \/ exists w, o t = Panic w).
  Context (n : N) (HO : ordinal_bijection O0 n).
  Context (eqd : forall a b : T, {a = b} + {a <> b}).
  Context (ks : list T) (He : enumeration O0 ks).

  Definition some_panic (w : panic) : Prop := exists t, o t = Panic w.
  Lemma below_ordinal t : below some_panic (o t) (o0 t).
  Proof. destruct (HV t) as [E|(w & E)]; [now left|right]. exists w. split; [exact E|]. now exists t. Qed.
  Lemma ordinal_returns t : o t = o0 t -> exists i, o t = Val i.
  Proof. intros ->. destruct (bij_to HO t) as (i & E & _). eauto. Qed.

  Ltac below_step := first [apply below_ordinal | apply below_refl | apply below_bind; [|intros]].

  Lemma below_contains r t : below some_panic (OrdinalSetRef_contains O r t) (OrdinalSetRef_contains O0 r t).
  Proof.
    unfold OrdinalSetRef_contains. cbn [ordinal]. apply below_bind; [apply below_ordinal|]. intros i.
    apply below_bind; [apply below_refl|]. intros q. destruct (slice_get r q); [|apply below_refl].
    apply below_bind; [apply below_ordinal|]. intros j. apply below_refl.
  Qed.
  Lemma below_loop step set fuel : forall it, below some_panic (set_loop O step set fuel it) (set_loop O0 step set fuel it).
  Proof.
    induction fuel as [|fuel IH]; intros it; cbn [set_loop]; [apply below_refl|].
    apply below_bind; [apply below_refl|]. intros [[t|] it1]; [|apply below_refl].
    apply below_bind; [apply below_contains|]. intros [|]; [apply below_refl|apply IH].
  Qed.
  Lemma below_iter_step d s : below some_panic (SetIter_step O d s) (SetIter_step O0 d s).
  Proof. unfold SetIter_step. apply below_bind; [apply below_loop|]. intros [x it]. apply below_refl. Qed.
  Lemma below_ref_debug r : below some_panic (OrdinalSetRef_debug O r) (OrdinalSetRef_debug O0 r).
  Proof.
    unfold OrdinalSetRef_debug. apply below_bind; [apply below_refl|]. intros it.
    apply below_bind; [apply below_collect; intros s; apply below_iter_step|]. intros [l u]. apply below_refl.
  Qed.

  (** *** One insertion *)
  Lemma mut_insert_same ws t : o t = o0 t -> OrdinalSetMut_insert O ws t = OrdinalSetMut_insert O0 ws t.
  Proof. intros H. unfold OrdinalSetMut_insert, OrdinalSetRef_contains. cbn [ordinal]. now rewrite H. Qed.
  Lemma mut_insert_panics ws t w r : o t = Panic w -> OrdinalSetMut_insert O0 ws t = Val r -> OrdinalSetMut_insert O ws t = Panic w.
  Proof.
    intros H. unfold OrdinalSetMut_insert, OrdinalSetRef_contains. cbn [ordinal]. rewrite H.
    change (OrdinalSetRef_new O ws) with (OrdinalSetRef_new O0 ws). destruct (OrdinalSetRef_new O0 ws); try discriminate. reflexivity.
  Qed.

  (** A loop of insertions: it returns, or stops at the first element whose [ordinal] panics. *)
  Lemma insert_all_cases l : (forall t, In t l -> o t = o0 t) \/
    exists l1 t l2 w, l = l1 ++ t :: l2 /\ o t = Panic w /\ forall t', In t' l1 -> o t' = o0 t'.
  Proof.
    induction l as [|t l IH]; [left; intros t []|]. destruct (HV t) as [E|(w & E)].
    - destruct IH as [H|(l1 & t1 & l2 & w & -> & Ew & H1)]; [left|right].
      + intros t' [<-|H']; auto.
      + exists (t :: l1), t1, l2, w. split; [reflexivity|]. split; [exact Ew|]. intros t' [<-|H']; auto.
    - right. exists [], t, l, w. split; [reflexivity|]. split; [exact E|]. intros t' [].
  Qed.

  (** *** OrdinalSet *)
  Lemma set_insert_same s t : o t = o0 t -> OrdinalSet_insert O s t = OrdinalSet_insert O0 s t.
  Proof.
    intros H. unfold OrdinalSet_insert. change (IS_SMALL O) with (IS_SMALL O0). destruct (IS_SMALL O0) as [[|]| | | |]; try reflexivity; cbn [bind];
    destruct s as [x|ws]; try reflexivity.
    - change (OrdinalSetMut_new O [x]) with (OrdinalSetMut_new O0 [x]). destruct (OrdinalSetMut_new O0 [x]); try reflexivity. cbn [bind].
      now rewrite mut_insert_same.
    - cbn [ORDINAL_SIZE]. match goal with |- bind ?a _ = bind ?b _ => change b with a; destruct a as [ws1| | | |]; try reflexivity end. cbn [bind].
      change (OrdinalSetMut_new O ws1) with (OrdinalSetMut_new O0 ws1). destruct (OrdinalSetMut_new O0 ws1); try reflexivity. cbn [bind].
      now rewrite mut_insert_same.
  Qed.
  Lemma set_insert_panics s t w r : o t = Panic w -> OrdinalSet_insert O0 s t = Val r -> OrdinalSet_insert O s t = Panic w.
  Proof.
    intros H. unfold OrdinalSet_insert. change (IS_SMALL O) with (IS_SMALL O0). destruct (IS_SMALL O0) as [[|]| | | |]; try discriminate; cbn [bind];
    destruct s as [x|ws]; try discriminate.
    - change (OrdinalSetMut_new O [x]) with (OrdinalSetMut_new O0 [x]). destruct (OrdinalSetMut_new O0 [x]) as [ws| | | |]; try discriminate. cbn [bind].
      destruct (OrdinalSetMut_insert O0 ws t) as [y| | | |] eqn:E; try discriminate. rewrite (mut_insert_panics H E). reflexivity.
    - cbn [ORDINAL_SIZE]. match goal with |- bind ?a _ = _ -> bind ?b _ = _ => change b with a; destruct a as [ws1| | | |]; try discriminate end. cbn [bind].
      change (OrdinalSetMut_new O ws1) with (OrdinalSetMut_new O0 ws1). destruct (OrdinalSetMut_new O0 ws1) as [ws2| | | |]; try discriminate. cbn [bind].
      destruct (OrdinalSetMut_insert O0 ws2 t) as [y| | | |] eqn:E; try discriminate. rewrite (mut_insert_panics H E). reflexivity.
  Qed.
  Lemma set_insert_all_same l : (forall t, In t l -> o t = o0 t) -> forall s,
    OrdinalSet_insert_all O l s = OrdinalSet_insert_all O0 l s.
  Proof.
    induction l as [|t l IH]; intros H s; [reflexivity|]. cbn [OrdinalSet_insert_all].
    rewrite set_insert_same by (apply H; now left). destruct (OrdinalSet_insert O0 s t) as [[b s1]| | | |]; try reflexivity. cbn [bind].
    apply IH. intros t' H'. apply H. now right.
  Qed.
  Lemma set_insert_all_panics l1 t l2 w : o t = Panic w -> (forall t', In t' l1 -> o t' = o0 t') -> forall s s',
    OrdinalSet_insert_all O0 (l1 ++ t :: l2) s = Val s' -> OrdinalSet_insert_all O (l1 ++ t :: l2) s = Panic w.
  Proof.
    intros Hw. induction l1 as [|x l1 IH]; intros H s s'; cbn [app OrdinalSet_insert_all].
    - destruct (OrdinalSet_insert O0 s t) as [y| | | |] eqn:E; try discriminate. rewrite (set_insert_panics Hw E). reflexivity.
    - rewrite (@set_insert_same s x) by (apply H; now left). destruct (OrdinalSet_insert O0 s x) as [[b s1]| | | |]; try discriminate. cbn [bind].
      apply IH. intros t' H'. apply H. now right.
  Qed.

  (** Each call: as the implementation without panics, or the panic the specification names. *)
  Definition step_cases {M} (scans : set_op T -> bool) (op : set_op T) (r r0 : res (set_out T * M)) : Prop :=
    r = r0 /\ set_returns O op \/ exists w, r = Panic w /\ set_panics O scans op w.
  Lemma below_cases M scans op (r r0 : res (set_out T * M)) : scans op = true ->
    match op with SIter _ | SDebug => True | _ => False end -> below some_panic r r0 -> step_cases scans op r r0.
  Proof.
    intros Hs Hop [E|(w & E & t & Ht)]; [left|right].
    - split; [exact E|]. destruct op; try destruct Hop; exact I.
    - exists w. split; [exact E|]. destruct op; try destruct Hop; cbn; eauto.
  Qed.
  Lemma from_iter_cases M scans l (r r0 : res (set_out T * M)) :
    ((forall t, In t l -> o t = o0 t) -> r = r0) ->
    (forall l1 t l2 w, l = l1 ++ t :: l2 -> o t = Panic w -> (forall t', In t' l1 -> o t' = o0 t') -> r = Panic w) ->
    step_cases scans (SFromIter l) r r0.
  Proof.
    intros H1 H2. destruct (insert_all_cases l) as [H|(l1 & t & l2 & w & E & Ew & H)]; [left|right].
    - split; [auto|]. intros t Ht. apply ordinal_returns. auto.
    - exists w. split; [eauto|]. exists l1, t, l2. split; [exact E|]. split; [exact Ew|].
      intros t' H'. apply ordinal_returns. auto.
  Qed.

  Lemma set_step_cases op s m : n <= usize_max - 64 \/ n <= 64 -> set_inv O0 n s m ->
    step_cases scans_words op (set_step O op s) (set_step O0 op s).
  Proof.
    intros Hn H. destruct op as [t|t|sched|l| |].
    - destruct (HV t) as [E|(w & E)]; [left|right].
      + split; [|now apply ordinal_returns]. cbn [set_step]. now rewrite set_insert_same.
      + exists w. split; [|exact E]. destruct (set_insert_law HO eqd t Hn H) as (s' & E' & _). cbn [set_step].
        rewrite (set_insert_panics E E'). reflexivity.
    - destruct (HV t) as [E|(w & E)]; [left|right].
      + split; [|now apply ordinal_returns]. cbn [set_step]. unfold OrdinalSet_contains, OrdinalSetRef_contains. cbn [ordinal].
        rewrite E. reflexivity.
      + exists w. split; [|exact E]. pose proof (set_contains_law HO t H) as E'. cbn [set_step]. unfold OrdinalSet_contains in *.
        change (OrdinalSet_as_ref O s) with (OrdinalSet_as_ref O0 s). destruct (OrdinalSet_as_ref O0 s); try discriminate E'.
        unfold OrdinalSetRef_contains. cbn [bind ordinal]. rewrite E. reflexivity.
    - apply below_cases; [reflexivity|exact I|]. cbn [set_step]. apply below_bind; [apply below_refl|]. intros it.
      apply below_bind; [apply below_drive; intros; apply below_iter_step|]. intros [x y]. apply below_refl.
    - pose proof (set_from_iter_law HO eqd l Hn) as (s' & E' & _). cbn [set_step].
      unfold OrdinalSet_from_iter in *. change (OrdinalSet_new O) with (OrdinalSet_new O0).
      destruct (OrdinalSet_new O0) as [s0| | | |]; try discriminate E'. cbn [bind] in *.
      apply from_iter_cases.
      + intros Hl. now rewrite set_insert_all_same.
      + intros l1 t l2 w -> Ew Hl. rewrite (set_insert_all_panics Ew Hl E'). reflexivity.
    - left. split; [reflexivity|exact I].
    - apply below_cases; [reflexivity|exact I|]. cbn [set_step]. unfold OrdinalSet_debug. apply below_bind; [|intros; apply below_refl].
      apply below_bind; [apply below_refl|]. intros r. apply below_ref_debug.
  Qed.

  (** *** OrdinalArraySet *)
  Section Arrays.
  Context (S : nat).
  Implicit Type s : OrdinalArraySet S.
  Lemma array_insert_same s t : o t = o0 t -> OrdinalArraySet_insert O s t = OrdinalArraySet_insert O0 s t.
  Proof.
    intros H. unfold OrdinalArraySet_insert. change (ArraySet_ASSERT O S) with (ArraySet_ASSERT O0 S).
    destruct (ArraySet_ASSERT O0 S); try reflexivity. cbn [bind].
    change (OrdinalSetMut_new O (arr_list s)) with (OrdinalSetMut_new O0 (arr_list s)).
    destruct (OrdinalSetMut_new O0 (arr_list s)); try reflexivity. cbn [bind]. now rewrite mut_insert_same.
  Qed.
  Lemma array_insert_panics s t w r : o t = Panic w -> OrdinalArraySet_insert O0 s t = Val r -> OrdinalArraySet_insert O s t = Panic w.
  Proof.
    intros H. unfold OrdinalArraySet_insert. change (ArraySet_ASSERT O S) with (ArraySet_ASSERT O0 S).
    destruct (ArraySet_ASSERT O0 S); try discriminate. cbn [bind].
    change (OrdinalSetMut_new O (arr_list s)) with (OrdinalSetMut_new O0 (arr_list s)).
    destruct (OrdinalSetMut_new O0 (arr_list s)) as [ws| | | |]; try discriminate. cbn [bind].
    destruct (OrdinalSetMut_insert O0 ws t) as [y| | | |] eqn:E; try discriminate. rewrite (mut_insert_panics H E). reflexivity.
  Qed.
  Lemma array_insert_all_same l : (forall t, In t l -> o t = o0 t) -> forall s,
    OrdinalArraySet_insert_all O l s = OrdinalArraySet_insert_all O0 l s.
  Proof.
    induction l as [|t l IH]; intros H s; [reflexivity|]. cbn [OrdinalArraySet_insert_all].
    rewrite array_insert_same by (apply H; now left). destruct (OrdinalArraySet_insert O0 s t) as [[b s1]| | | |]; try reflexivity. cbn [bind].
    apply IH. intros t' H'. apply H. now right.
  Qed.
  Lemma array_insert_all_panics l1 t l2 w : o t = Panic w -> (forall t', In t' l1 -> o t' = o0 t') -> forall s s',
    OrdinalArraySet_insert_all O0 (l1 ++ t :: l2) s = Val s' -> OrdinalArraySet_insert_all O (l1 ++ t :: l2) s = Panic w.
  Proof.
    intros Hw. induction l1 as [|x l1 IH]; intros H s s'; cbn [app OrdinalArraySet_insert_all].
    - destruct (OrdinalArraySet_insert O0 s t) as [y| | | |] eqn:E; try discriminate. rewrite (array_insert_panics Hw E). reflexivity.
    - rewrite (@array_insert_same s x) by (apply H; now left).
      destruct (OrdinalArraySet_insert O0 s x) as [[b s1]| | | |]; try discriminate. cbn [bind].
      apply IH. intros t' H'. apply H. now right.
  Qed.
  Lemma array_step_cases op s m : not_iter op = true -> array_set_inv O0 n s m ->
    step_cases scans_words op (array_set_step O op s) (array_set_step O0 op s).
  Proof.
    intros Hop H. destruct op as [t|t|sched|l| |]; try discriminate Hop.
    - destruct (HV t) as [E|(w & E)]; [left|right].
      + split; [|now apply ordinal_returns]. cbn [array_set_step]. now rewrite array_insert_same.
      + exists w. split; [|exact E]. destruct (array_insert_law HO eqd t H) as (s' & E' & _). cbn [array_set_step].
        rewrite (array_insert_panics E E'). reflexivity.
    - destruct (HV t) as [E|(w & E)]; [left|right].
      + split; [|now apply ordinal_returns]. cbn [array_set_step]. unfold OrdinalArraySet_contains, OrdinalSetRef_contains. cbn [ordinal].
        rewrite E. reflexivity.
      + exists w. split; [|exact E]. pose proof (array_contains_law HO t H) as E'. cbn [array_set_step]. unfold OrdinalArraySet_contains in *.
        change (OrdinalArraySet_as_ref O s) with (OrdinalArraySet_as_ref O0 s). destruct (OrdinalArraySet_as_ref O0 s); try discriminate E'.
        unfold OrdinalSetRef_contains. cbn [bind ordinal]. rewrite E. reflexivity.
    - pose proof (array_from_iter_law HO eqd l (proj1 H)) as (s' & E' & _). cbn [array_set_step].
      unfold OrdinalArraySet_from_iter in *. change (OrdinalArraySet_new O S) with (OrdinalArraySet_new O0 S).
      destruct (OrdinalArraySet_new O0 S) as [s0| | | |]; try discriminate E'. cbn [bind] in *.
      apply from_iter_cases.
      + intros Hl. now rewrite array_insert_all_same.
      + intros l1 t l2 w -> Ew Hl. rewrite (array_insert_all_panics Ew Hl E'). reflexivity.
    - left. split; [reflexivity|exact I].
    - apply below_cases; [reflexivity|exact I|]. cbn [array_set_step]. unfold OrdinalArraySet_debug.
      apply below_bind; [|intros; apply below_refl].
      apply below_bind; [apply below_refl|]. intros r. apply below_ref_debug.
  Qed.
  End Arrays.

  (** *** OrdinalSet64 *)
  Lemma or_all_same l : (forall t, In t l -> o t = o0 t) -> forall s, OrdinalSet64_or_all O l s = OrdinalSet64_or_all O0 l s.
  Proof.
    induction l as [|t l IH]; intros H s; [reflexivity|]. cbn [OrdinalSet64_or_all ordinal].
    rewrite (H t) by now left. destruct (o0 t) as [i| | | |]; try reflexivity. cbn [bind].
    destruct (u64_shl 1 i); try reflexivity. cbn [bind]. apply IH. intros t' H'. apply H. now right.
  Qed.
  Lemma or_all_panics l1 t l2 w : o t = Panic w -> (forall t', In t' l1 -> o t' = o0 t') -> forall s s',
    OrdinalSet64_or_all O0 (l1 ++ t :: l2) s = Val s' -> OrdinalSet64_or_all O (l1 ++ t :: l2) s = Panic w.
  Proof.
    intros Hw. induction l1 as [|x l1 IH]; intros H s s'; cbn [app OrdinalSet64_or_all ordinal].
    - rewrite Hw. reflexivity.
    - rewrite (H x) by now left. destruct (o0 x) as [i| | | |]; try discriminate. cbn [bind].
      destruct (u64_shl 1 i); try discriminate. cbn [bind]. apply IH. intros t' H'. apply H. now right.
  Qed.
  Lemma set64_step_cases op s m : set64_inv O0 n s m ->
    step_cases scans_set64 op (set64_step O op s) (set64_step O0 op s).
  Proof.
    intros H. destruct op as [t|t|sched|l| |].
    - pose proof (set64_assert HO (proj1 H)) as Ha. destruct (HV t) as [E|(w & E)]; [left|right].
      + split; [|now apply ordinal_returns]. cbn [set64_step]. unfold OrdinalSet64_insert, OrdinalSet64_contains. cbn [ordinal].
        rewrite E. reflexivity.
      + exists w. split; [|exact E]. cbn [set64_step]. unfold OrdinalSet64_insert, OrdinalSet64_contains. cbn [ordinal].
        change (Set64_ASSERT O) with (Set64_ASSERT O0). rewrite Ha, E. reflexivity.
    - pose proof (set64_assert HO (proj1 H)) as Ha. destruct (HV t) as [E|(w & E)]; [left|right].
      + split; [|now apply ordinal_returns]. cbn [set64_step]. unfold OrdinalSet64_contains. cbn [ordinal].
        rewrite E. reflexivity.
      + exists w. split; [|exact E]. cbn [set64_step]. unfold OrdinalSet64_contains. cbn [ordinal].
        change (Set64_ASSERT O) with (Set64_ASSERT O0). rewrite Ha, E. reflexivity.
    - left. split; [reflexivity|exact I].
    - pose proof (set64_from_iter_law HO eqd l (proj1 H)) as (s' & E' & _). cbn [set64_step].
      unfold OrdinalSet64_from_iter in *. change (OrdinalSet64_new O) with (OrdinalSet64_new O0).
      destruct (OrdinalSet64_new O0) as [s0| | | |]; try discriminate E'. cbn [bind] in *.
      apply from_iter_cases.
      + intros Hl. now rewrite or_all_same.
      + intros l1 t l2 w -> Ew Hl. rewrite (or_all_panics Ew Hl E'). reflexivity.
    - left. split; [reflexivity|exact I].
    - apply below_cases; [reflexivity|exact I|]. cbn [set64_step]. unfold OrdinalSet64_debug.
      apply below_bind; [|intros; apply below_refl].
      apply below_bind; [apply below_refl|]. intros r. apply below_ref_debug.
  Qed.
End Versions.

(** ** Programs *)
Definition cases {T} (O : Ordinal T) M scans op (r r0 : res (set_out T * M)) : Prop :=
  r = r0 /\ set_returns O op \/ exists w, r = Panic w /\ set_panics O scans op w.
Section Programs.
  Context {cfg : Config} {T : Type} (O O0 : Ordinal T) (HP : panicking_version O O0).
  Context (n : N) (HO : ordinal_bijection O0 n).
  Context (eqd : forall a b : T, {a = b} + {a <> b}).
  Context (ks : list T) (He : enumeration O0 ks).

  Lemma set_cases op s m : n <= usize_max - 64 \/ n <= 64 -> set_inv O0 n s m ->
    cases O scans_words op (set_step O op s) (set_step O0 op s).
  Proof.
    destruct HP as (H1 & H2 & H3). destruct O as [s1 o1 f1], O0 as [s2 o2 f2]; cbn in H1, H2, H3; subst.
    intros Hn H. exact (set_step_cases H3 HO eqd op Hn H).
  Qed.
  Lemma array_cases (S : nat) op (s : OrdinalArraySet S) m : not_iter op = true -> array_set_inv O0 n s m ->
    cases O scans_words op (array_set_step O op s) (array_set_step O0 op s).
  Proof.
    destruct HP as (H1 & H2 & H3). destruct O as [s1 o1 f1], O0 as [s2 o2 f2]; cbn in H1, H2, H3; subst.
    intros Hn H. exact (array_step_cases H3 HO eqd Hn H).
  Qed.
  Lemma set64_cases op s m : set64_inv O0 n s m -> cases O scans_set64 op (set64_step O op s) (set64_step O0 op s).
  Proof.
    destruct HP as (H1 & H2 & H3). destruct O as [s1 o1 f1], O0 as [s2 o2 f2]; cbn in H1, H2, H3; subst.
    intros H. exact (set64_step_cases H3 HO eqd op H).
  Qed.
  Lemma set_new_version : OrdinalSet_new O = OrdinalSet_new O0.
  Proof.
    destruct HP as (H1 & H2 & H3). clear HP HO He. destruct O as [s1 o1 f1], O0 as [s2 o2 f2]; cbn in H1, H2, H3; subst. reflexivity.
  Qed.
  Lemma array_set_new_version S : OrdinalArraySet_new O S = OrdinalArraySet_new O0 S.
  Proof.
    destruct HP as (H1 & H2 & H3). clear HP HO He. destruct O as [s1 o1 f1], O0 as [s2 o2 f2]; cbn in H1, H2, H3; subst. reflexivity.
  Qed.
  Lemma set64_new_version : OrdinalSet64_new O = OrdinalSet64_new O0.
  Proof.
    destruct HP as (H1 & H2 & H3). clear HP HO He. destruct O as [s1 o1 f1], O0 as [s2 o2 f2]; cbn in H1, H2, H3; subst. reflexivity.
  Qed.


  Lemma left_inv s s' m : left_words O s s' -> set_inv O0 n s m -> set_inv O0 n s' m.
  Proof.
    intros [->|(-> & c & Ec & ->)] H; [exact H|]. rewrite (proj1 HP), (bij_size HO) in Ec. injection Ec as <-.
    destruct H as (H1 & H2 & H3). cbn [set_inv]. split; [exact H1|]. split.
    - right. unfold llen. rewrite repeat_length. unfold wcount. lia.
    - apply (@words_ok_ext _ O0 _ ms_empty); [|apply zeros_ok]. intros x.
      destruct (bij_to HO x) as (i & Hi & _). rewrite <- (H3 _ _ Hi). unfold word_mem.
      destruct (N.to_nat (i / 64)); symmetry; apply N.bits_0.
  Qed.

  Lemma set_catch_law ops : n <= usize_max - 64 \/ n <= 64 -> inhabited_or_release n ->
    exists s0 outs s m, OrdinalSet_new O = Val s0 /\ catch_run (set_act O) ops s0 = Some (outs, s) /\
      caught_program (sspec_step eqd ks) (set_returns O) (set_panics O scans_words) ops outs ms_empty m /\
      set_inv O0 n s m.
  Proof.
    intros Hn Hi. destruct (set_new_law HO) as (s0 & E0 & H0).
    destruct (@catch_law _ _ _ _ (set_act O) (sspec_step eqd ks) (set_returns O)
      (set_panics O scans_words) (set_inv O0 n) (fun _ => true)) with (ops := ops) (s := s0) (m := @ms_empty T)
      as (outs & s & m & E & Hc & Hs).
    - intros op s m _ H. destruct (set_good O op) as (Er & P & L). destruct (set_cases op Hn H) as [[E Hr]|(w & E & Hp)].
      + left. destruct (set_step_law HO eqd op Hn Hi He H) as (s' & E' & H'). exists s'. split; [|auto].
        apply Er. now rewrite E.
      + right. destruct (proj1 (P s w) E) as (s' & E'). exists s', w. split; [exact E'|]. split; [exact Hp|].
        exact (left_inv (L _ _ _ E') H).
    - clear. induction ops; auto.
    - exact H0.
    - exists s0, outs, s, m. rewrite set_new_version. auto.
  Qed.
  Lemma array_set_catch_law (S : nat) ops : N.of_nat S = wcount n -> forallb not_iter ops = true ->
    exists s0 outs s m, OrdinalArraySet_new O S = Val s0 /\ catch_run (array_set_act O (S := S)) ops s0 = Some (outs, s) /\
      caught_program (sspec_step eqd ks) (set_returns O) (set_panics O scans_words) ops outs ms_empty m /\
      array_set_inv O0 n s m.
  Proof.
    intros HS Hops. destruct (array_new_law HO HS) as (s0 & E0 & H0).
    destruct (@catch_law _ _ _ _ (array_set_act O (S := S)) (sspec_step eqd ks) (set_returns O)
      (set_panics O scans_words) (array_set_inv O0 n (S := S)) not_iter) with (ops := ops) (s := s0) (m := @ms_empty T)
      as (outs & s & m & E & Hc & Hs).
    - intros op s m Hop H. destruct (array_set_good O S op) as (Er & P & L). destruct (array_cases Hop H) as [[E Hr]|(w & E & Hp)].
      + left. destruct (array_step_law HO eqd He Hop H) as (s' & E' & H'). exists s'. split; [|auto].
        apply Er. now rewrite E.
      + right. destruct (proj1 (P s w) E) as (s' & E'). exists s', w. split; [exact E'|]. split; [exact Hp|].
        rewrite <- (L _ _ _ E'). exact H.
    - exact Hops.
    - exact H0.
    - exists s0, outs, s, m. rewrite array_set_new_version. auto.
  Qed.
  Lemma set64_catch_law ops : n <= 64 -> forallb not_debug ops = true \/ inhabited_or_release n ->
    exists s0 outs s m, OrdinalSet64_new O = Val s0 /\ catch_run (set64_act O) ops s0 = Some (outs, s) /\
      caught_program (sspec_step eqd ks) (set_returns O) (set_panics O scans_set64) ops outs ms_empty m /\
      set64_inv O0 n s m.
  Proof.
    intros Hn Hops. destruct (set64_new_law HO Hn) as (E0 & H0).
    destruct (@catch_law _ _ _ _ (set64_act O) (sspec_step eqd ks) (set_returns O)
      (set_panics O scans_set64) (set64_inv O0 n) (fun op => not_debug op || (1 <=? n) || negb debug_assertions))
      with (ops := ops) (s := 0) (m := @ms_empty T) as (outs & s & m & E & Hc & Hs).
    - intros op s m Hop H. destruct (set64_good O op) as (Er & P & L). destruct (set64_cases op H) as [[E Hr]|(w & E & Hp)].
      + left. assert (Hop' : not_debug op = true \/ inhabited_or_release n).
        { destruct (not_debug op); [now left|right]. unfold inhabited_or_release. destruct (1 <=? n) eqn:E1; [left; lia|right].
          destruct debug_assertions; [discriminate Hop|reflexivity]. }
        destruct (set64_step_law HO eqd Hop' He H) as (s' & E' & H'). exists s'. split; [|auto].
        apply Er. now rewrite E.
      + right. destruct (proj1 (P s w) E) as (s' & E'). exists s', w. split; [exact E'|]. split; [exact Hp|].
        rewrite <- (L _ _ _ E'). exact H.
    - clear - Hops. destruct Hops as [H|H].
      + induction ops as [|op ops IH]; [reflexivity|]. cbn in *. apply andb_prop in H as [H1 H2]. rewrite H1, (IH H2). reflexivity.
      + induction ops as [|op ops IH]; [reflexivity|]. cbn [forallb]. rewrite IH. destruct H as [H|H].
        * replace (1 <=? n) with true by lia. now rewrite orb_true_r.
        * rewrite H. cbn [negb]. now rewrite orb_true_r.
    - exact H0.
    - exists 0, outs, s, m. rewrite set64_new_version. auto.
  Qed.

  (** *** Reading back *)
  Lemma set_read s m t : set_inv O0 n s m -> (exists i, ordinal O t = Val i) -> OrdinalSet_contains O s t = Val (m t).
  Proof.
    intros H (i & Hi). rewrite <- (set_contains_law HO t H). destruct (proj2 (proj2 HP) t) as [E|(w & E)]; [|congruence].
    destruct HP as (H1 & H2 & _). clear - E H1 H2. destruct O as [s1 o1 f1], O0 as [s2 o2 f2]. cbn in *. subst.
    unfold OrdinalSet_contains, OrdinalSetRef_contains. cbn [ordinal]. rewrite E. reflexivity.
  Qed.
  Lemma array_set_read (S : nat) (s : OrdinalArraySet S) m t : array_set_inv O0 n s m ->
    (exists i, ordinal O t = Val i) -> OrdinalArraySet_contains O s t = Val (m t).
  Proof.
    intros H (i & Hi). rewrite <- (array_contains_law HO t H). destruct (proj2 (proj2 HP) t) as [E|(w & E)]; [|congruence].
    destruct HP as (H1 & H2 & _). clear - E H1 H2. destruct O as [s1 o1 f1], O0 as [s2 o2 f2]. cbn in *. subst.
    unfold OrdinalArraySet_contains, OrdinalSetRef_contains. cbn [ordinal]. rewrite E. reflexivity.
  Qed.
  Lemma set64_read s m t : set64_inv O0 n s m ->
    (exists i, ordinal O t = Val i) -> OrdinalSet64_contains O s t = Val (m t).
  Proof.
    intros H (i & Hi). rewrite <- (set64_contains_law HO t H). destruct (proj2 (proj2 HP) t) as [E|(w & E)]; [|congruence].
    destruct HP as (H1 & H2 & _). clear - E H1 H2. destruct O as [s1 o1 f1], O0 as [s2 o2 f2]. cbn in *. subst.
    unfold OrdinalSet64_contains. cbn [ordinal]. rewrite E. reflexivity.
  Qed.

  Lemma set_behaves ops : n <= usize_max - 64 \/ n <= 64 -> 1 <= n \/ debug_assertions = false ->
    exists s0 outs s m, OrdinalSet_new O = Val s0 /\ catch_run (set_act O) ops s0 = Some (outs, s) /\
      caught_program (sspec_step eqd ks) (set_returns O) (set_panics O scans_words) ops outs ms_empty m /\
      forall t, (exists i, ordinal O t = Val i) -> OrdinalSet_contains O s t = Val (m t).
  Proof.
    intros Hn Hi. destruct (set_catch_law ops Hn Hi) as (s0 & outs & s & m & E0 & E & Hc & Hr). exists s0, outs, s, m.
    split; [exact E0|]. split; [exact E|]. split; [exact Hc|]. intros t. exact (set_read Hr).
  Qed.
  Lemma array_set_behaves (S : nat) ops : N.of_nat S = (n + 63) / 64 -> forallb not_iter ops = true ->
    exists s0 outs s m, OrdinalArraySet_new O S = Val s0 /\ catch_run (array_set_act O (S := S)) ops s0 = Some (outs, s) /\
      caught_program (sspec_step eqd ks) (set_returns O) (set_panics O scans_words) ops outs ms_empty m /\
      forall t, (exists i, ordinal O t = Val i) -> OrdinalArraySet_contains O s t = Val (m t).
  Proof.
    intros HS Hops. destruct (array_set_catch_law HS Hops) as (s0 & outs & s & m & E0 & E & Hc & Hr). exists s0, outs, s, m.
    split; [exact E0|]. split; [exact E|]. split; [exact Hc|]. intros t. exact (array_set_read Hr).
  Qed.
  Lemma set64_behaves ops : n <= 64 -> forallb not_debug ops = true \/ 1 <= n \/ debug_assertions = false ->
    exists s0 outs s m, OrdinalSet64_new O = Val s0 /\ catch_run (set64_act O) ops s0 = Some (outs, s) /\
      caught_program (sspec_step eqd ks) (set_returns O) (set_panics O scans_set64) ops outs ms_empty m /\
      forall t, (exists i, ordinal O t = Val i) -> OrdinalSet64_contains O s t = Val (m t).
  Proof.
    intros Hn Hops. destruct (set64_catch_law Hn Hops) as (s0 & outs & s & m & E0 & E & Hc & Hr). exists s0, outs, s, m.
    split; [exact E0|]. split; [exact E|]. split; [exact Hc|]. intros t. exact (set64_read Hr).
  Qed.
End Programs.
