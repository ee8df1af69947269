(** * OverrideProofs: containers whose key type overrides [all_values] (C97). *)
From Verif Require Import Base Spec SpecMap SpecMem SpecTotal SpecSafety SpecOverride SpecIter SpecSet ModelOrdinal ModelValues
  ModelArrayBuilder ModelIter ModelTotal ModelMap MapMachine ModelSet ModelOverride BaseProofs IterLib ValuesProofs ArrayProofs
  TotalProofs MemProofs SafetyProofs SafetyProofs2 SetMachine SetProofs SetProofs2.
From Coq Require Import List Permutation. Import ListNotations.
Set Implicit Arguments.
Unset Strict Implicit.

(** ** Loops over an iterator that ends or panics *)
Section Runs.
  Context {It A T E St : Type} (S : nat) (next : It -> res (option A * It)).

  (** The iterator yields [l], and then ends ([None]) or panics. *)
  Inductive runs : It -> list A -> option panic -> Prop :=
  | runs_end it it' : next it = Val (None, it') -> runs it [] None
  | runs_panic it w : next it = Panic w -> runs it [] (Some w)
  | runs_cons it it' a l f : next it = Val (Some a, it') -> runs it' l f -> runs it (a :: l) f.

  Definition finished (acc : list T) (f : option panic) (r : res (result (list T) E)) : res (result (list T) E) :=
    x <- r ;; match x with
              | ResOk bs => match f with None => Val (ResOk (acc ++ bs)) | Some w => Panic w end
              | ResErr e => Val (ResErr e)
              end.

  Lemma fill_runs (init : St -> A -> St * res (result T E)) l : forall fuel acc it st f,
    runs it l f -> (length acc + length l <= S)%nat -> (length l < fuel)%nat ->
    fst (fill S next init fuel (builder_of S acc) it st) = fst (calls init l st) /\
    list_of (returned (snd (fill S next init fuel (builder_of S acc) it st))) =
    finished acc (match f with
                  | Some w => Some w
                  | None => if Nat.eqb (length acc + length l) S then None else Some PUnwrap
                  end) (snd (calls init l st)).
  Proof.
    induction l as [|a l IH]; intros fuel acc it st f Hr; inversion Hr as [? it' E1|? w E1|? it' ? ? ? E1 Hy']; subst;
      intros Hl Hf; (destruct fuel as [|fuel]; [cbn in Hf; lia|]); cbn [fill]; rewrite E1.
    - cbn [fst snd calls returned]. cbn [length] in *. rewrite Nat.add_0_r in *. destruct (Nat.eqb_spec (length acc) S) as [E0|E0].
      + destruct (@finish_ok T S acc E0) as (b & E2 & E3).
        rewrite E2. cbn [returned bind list_of finished]. rewrite E3, app_nil_r. split; reflexivity.
      + rewrite finish_short by lia. split; reflexivity.
    - cbn [fst snd calls returned]. rewrite leave_ok. split; reflexivity.
    - cbn [calls]. destruct (init st a) as [st' r]. destruct r as [[v|e]|w| | |].
      + cbn [length] in *. rewrite push_ok by (cbn [length]; lia).
        destruct (IH fuel (acc ++ [v]) it' st' f) as [G1 G2];
          [exact Hy'|rewrite app_length; cbn; lia|lia|].
        destruct (calls init l st') as [st2 r2]. cbn [fst snd] in *. split; [exact G1|].
        rewrite G2, app_length. cbn [length].
        replace (length acc + 1 + length l)%nat with (length acc + Datatypes.S (length l))%nat by lia.
        set (f' := match f with Some _ => _ | None => _ end). clearbody f'.
        destruct r2 as [[bs|e]| | | |]; cbn; try reflexivity.
        destruct f'; [reflexivity|]. now rewrite <- app_assoc.
      + rewrite leave_ok. split; reflexivity.
      + rewrite leave_ok. split; reflexivity.
      + split; reflexivity.
      + split; reflexivity.
      + split; reflexivity.
  Qed.
End Runs.

Section Override.
  Context {cfg : Config} {K : Type} (O : Ordinal K).

  Lemma try_new_runs {V E St} (init : St -> K -> St * res (result V E)) l : forall fuel acc it st f,
    runs (values_next O) it l f -> (length l < fuel)%nat ->
    OrdinalTotalMap_try_new_loop O init fuel acc it st =
    (fst (calls init l st), finished acc f (snd (calls init l st))).
  Proof.
    induction l as [|a l IH]; intros fuel acc it st f Hy Hf;
      inversion Hy as [? it' E1|? w E1|? it' ? ? ? E1 Hy']; subst;
      (destruct fuel as [|fuel]; [cbn in Hf; lia|]); cbn [OrdinalTotalMap_try_new_loop]; rewrite E1.
    - cbn. now rewrite app_nil_r.
    - reflexivity.
    - cbn [calls]. destruct (init st a) as [st' r]. destruct r as [[v|e]|w| | |]; try reflexivity.
      rewrite (IH fuel (acc ++ [v]) it' st' f Hy') by (cbn in Hf; lia).
      destruct (calls init l st') as [st2 r2]. cbn [fst snd].
      destruct r2 as [[bs|e]| | | |]; cbn; try reflexivity. destruct f; [reflexivity|].
      now rewrite <- app_assoc.
  Qed.

  (** *** With the default [all_values] *)
  Lemma with_default_total {V E St} (init : St -> K -> St * res (result V E)) st :
    OrdinalTotalMap_try_new_with O (values_new O) init st = OrdinalTotalMap_try_new O init st.
  Proof.
    unfold OrdinalTotalMap_try_new_with, OrdinalTotalMap_try_new, values_new.
    destruct (ORDINAL_SIZE O); reflexivity.
  Qed.
  Lemma with_default_new {V St} (init : St -> K -> St * res V) st :
    OrdinalTotalMap_new_with O (values_new O) init st = OrdinalTotalMap_new O init st.
  Proof. unfold OrdinalTotalMap_new_with. rewrite with_default_total. reflexivity. Qed.
  Lemma with_default_array {V E St} S (init : St -> K -> St * res (result V E)) st :
    OrdinalTotalArrayMap_try_new_with O (values_new O) S init st = OrdinalTotalArrayMap_try_new O S init st.
  Proof.
    unfold OrdinalTotalArrayMap_try_new_with, OrdinalTotalArrayMap_try_new. destruct (ASSERT O S); reflexivity.
  Qed.
  (** [new] evaluates the constant and so does [try_new]. *)
  Lemma new_is_try_new {V St} S (init : St -> K -> St * res V) st :
    OrdinalTotalArrayMap_new O S init st =
    let '(st', r) := OrdinalTotalArrayMap_try_new O S (infallible_init init) st in
    (st', {| returned := m <- returned r ;; Val (into_ok m); dropped := dropped r |}).
  Proof. unfold OrdinalTotalArrayMap_new, OrdinalTotalArrayMap_try_new. destruct (ASSERT O S); reflexivity. Qed.
  Lemma with_default_array_new {V St} S (init : St -> K -> St * res V) st :
    OrdinalTotalArrayMap_new_with O (values_new O) S init st = OrdinalTotalArrayMap_new O S init st.
  Proof. unfold OrdinalTotalArrayMap_new_with. rewrite with_default_array, new_is_try_new. reflexivity. Qed.

  Lemma with_default_maps :
    (forall V E St (init : St -> K -> St * res (result V E)) st,
       OrdinalTotalMap_try_new_with O (values_new O) init st = OrdinalTotalMap_try_new O init st) /\
    (forall V St (init : St -> K -> St * res V) st,
       OrdinalTotalMap_new_with O (values_new O) init st = OrdinalTotalMap_new O init st) /\
    (forall V (d : V), OrdinalTotalMap_default_with O (values_new O) d = OrdinalTotalMap_default O d) /\
    (forall V (m : @OrdinalTotalMap V), OrdinalTotalMap_keys_with (values_new O) m = OrdinalTotalMap_keys O m) /\
    (forall V (m : @OrdinalTotalMap V), OrdinalTotalMap_into_keys_with (values_new O) m = OrdinalTotalMap_into_keys O m).
  Proof.
    split; [intros; apply with_default_total|]. split; [intros; apply with_default_new|].
    split; [|split; reflexivity].
    intros V d. unfold OrdinalTotalMap_default_with. rewrite with_default_new. reflexivity.
  Qed.
  Lemma with_default_arrays S :
    (forall V E St (init : St -> K -> St * res (result V E)) st,
       OrdinalTotalArrayMap_try_new_with O (values_new O) S init st = OrdinalTotalArrayMap_try_new O S init st) /\
    (forall V St (init : St -> K -> St * res V) st,
       OrdinalTotalArrayMap_new_with O (values_new O) S init st = OrdinalTotalArrayMap_new O S init st) /\
    (forall V (d : V), OrdinalTotalArrayMap_default_with O (values_new O) S d = OrdinalTotalArrayMap_default O S d) /\
    (forall V (m : OrdinalTotalArrayMap S V), OrdinalTotalArrayMap_keys_with (values_new O) m = OrdinalTotalArrayMap_keys O m) /\
    (forall V (m : OrdinalTotalArrayMap S V), OrdinalTotalArrayMap_into_keys_with (values_new O) m = OrdinalTotalArrayMap_into_keys O m) /\
    (forall V (m : OrdinalTotalArrayMap S V), OrdinalTotalArrayMap_as_ref_with O (values_new O) m = OrdinalTotalArrayMap_as_ref O m) /\
    (forall V, OrdinalArrayMap_new_with O (values_new O) S V = OrdinalArrayMap_new O S) /\
    (forall V, OrdinalArrayMap_default_with O (values_new O) S V = OrdinalArrayMap_default O S) /\
    (forall V (l : list (K * V)), OrdinalArrayMap_from_iter_with O (values_new O) S l = OrdinalArrayMap_from_iter O S l).
  Proof.
    split; [intros; apply with_default_array|]. split; [intros; apply with_default_array_new|].
    assert (A : forall V, OrdinalArrayMap_new_with O (values_new O) S V = OrdinalArrayMap_new O S).
    { intros V. unfold OrdinalArrayMap_new_with. rewrite with_default_array_new. reflexivity. }
    repeat split; intros.
    - unfold OrdinalTotalArrayMap_default_with. rewrite with_default_array_new. reflexivity.
    - unfold OrdinalTotalArrayMap_as_ref_with. rewrite with_default_array_new. reflexivity.
    - apply A.
    - apply A.
    - unfold OrdinalArrayMap_from_iter_with. rewrite A. reflexivity.
  Qed.
  Lemma with_default_sets :
    (forall s, OrdinalSet_iter_with O (values_new O) s = OrdinalSet_iter O s) /\
    (forall s, OrdinalSet_debug_with O (values_new O) s = OrdinalSet_debug O s) /\
    (forall S (s : OrdinalArraySet S), OrdinalArraySet_debug_with O (values_new O) s = OrdinalArraySet_debug O s) /\
    (forall s, OrdinalSet64_debug_with O (values_new O) s = OrdinalSet64_debug O s).
  Proof. repeat split; reflexivity. Qed.

  (** *** [all_values] panics *)
  Lemma panicking_all_values n w S : ORDINAL_SIZE O = Val n ->
    (forall V E St (init : St -> K -> St * res (result V E)) st,
       OrdinalTotalMap_try_new_with O (Panic w) init st = (st, Panic w)) /\
    (N.of_nat S = n -> forall V E St (init : St -> K -> St * res (result V E)) st,
       OrdinalTotalArrayMap_try_new_with O (Panic w) S init st = (st, {| returned := Panic w; dropped := [] |})) /\
    (N.of_nat S = n -> forall V, OrdinalArrayMap_new_with O (Panic w) S V = Panic w) /\
    (forall s ws, OrdinalSet_as_ref O s = Val ws ->
       OrdinalSet_iter_with O (Panic w) s = Panic w /\ OrdinalSet_debug_with O (Panic w) s = Panic w).
  Proof.
    intros Hn. split; [|split; [|split]].
    - intros. unfold OrdinalTotalMap_try_new_with. rewrite Hn. reflexivity.
    - intros HS V E St init st. unfold OrdinalTotalArrayMap_try_new_with, ASSERT. rewrite Hn. cbn [bind].
      rewrite HS, N.eqb_refl. reflexivity.
    - intros HS V. unfold OrdinalArrayMap_new_with, OrdinalTotalArrayMap_new_with, OrdinalTotalArrayMap_try_new_with, ASSERT.
      rewrite Hn. cbn [bind]. rewrite HS, N.eqb_refl. reflexivity.
    - intros s ws E. unfold OrdinalSet_iter_with, OrdinalSet_debug_with. rewrite E. split; reflexivity.
  Qed.

  (** *** No undefined behaviour, whatever the impl *)
  Section Safety.
    Context (HO : any_impl O) (av : res OrdinalValues) (Hav : no_ub av).

    Lemma size_then : no_ub (ORDINAL_SIZE O ;;; av).
    Proof. destruct HO as (H & _). destruct (ORDINAL_SIZE O); cbn in *; auto. Qed.
    Lemma assert_then S : no_ub (ASSERT O S ;;; av).
    Proof.
      destruct HO as (H & _). unfold ASSERT. destruct (ORDINAL_SIZE O); cbn in *; auto.
      unfold assert_const. destruct (_ =? _); cbn; auto.
    Qed.

    Lemma with_try_new_good {V E St} (init : St -> K -> St * res (result V E)) st :
      (forall st k, no_ub (snd (init st k))) -> no_ub (snd (OrdinalTotalMap_try_new_with O av init st)).
    Proof.
      intros Hi. unfold OrdinalTotalMap_try_new_with. pose proof size_then as H.
      destruct (ORDINAL_SIZE O ;;; av) as [it| | | |]; try contradiction H; try exact I.
      apply (htry_new_loop_good HO Hi). apply Nat.lt_succ_diag_r.
    Qed.
    Lemma with_array_try_new_good {V E St} S (init : St -> K -> St * res (result V E)) st :
      (forall st k, no_ub (snd (init st k))) -> no_ub (returned (snd (OrdinalTotalArrayMap_try_new_with O av S init st))).
    Proof.
      intros Hi. unfold OrdinalTotalArrayMap_try_new_with. pose proof (assert_then S) as H.
      destruct (ASSERT O S ;;; av) as [it| | | |]; try contradiction H; try exact I.
      apply fill_new_good; [exact (values_next_good HO)|exact Hi].
    Qed.
    Lemma with_array_new_good {V St} S (init : St -> K -> St * res V) st :
      (forall st k, no_ub (snd (init st k))) -> no_ub (returned (snd (OrdinalTotalArrayMap_new_with O av S init st))).
    Proof.
      intros Hi. unfold OrdinalTotalArrayMap_new_with.
      pose proof (@with_array_try_new_good V _ _ S (infallible_init init) st (infallible_good Hi)) as H.
      destruct (OrdinalTotalArrayMap_try_new_with O av S (infallible_init init) st) as [st' o]. cbn [snd returned] in *.
      destruct (returned o); cbn in *; auto.
    Qed.
    Lemma with_new_good {V St} (init : St -> K -> St * res V) st :
      (forall st k, no_ub (snd (init st k))) -> no_ub (snd (OrdinalTotalMap_new_with O av init st)).
    Proof.
      intros Hi. unfold OrdinalTotalMap_new_with.
      pose proof (@with_try_new_good V _ _ (infallible_init init) st (infallible_good Hi)) as H.
      destruct (OrdinalTotalMap_try_new_with O av (infallible_init init) st) as [st' o]. cbn [snd] in *.
      destruct o; cbn in *; auto.
    Qed.
    Lemma with_as_ref_good {V} S (m : OrdinalTotalArrayMap S V) : no_ub (OrdinalTotalArrayMap_as_ref_with O av m).
    Proof.
      apply with_array_new_good. intros st k. cbn [snd]. eapply post_no_ub.
      apply post_bind with (1 := post_ordinal HO k). intros i _. apply post_index_slot with (P := fun _ => True). auto.
    Qed.
    Lemma with_from_iter_good {V} S (l : list (K * V)) : no_ub (OrdinalArrayMap_from_iter_with O av S l).
    Proof.
      apply post_no_ub with (P := fun _ => True). unfold OrdinalArrayMap_from_iter_with.
      apply post_bind with (P := fun _ => True).
      { apply no_ub_post. apply with_array_new_good. intros st k. exact I. }
      intros m _. revert m. induction l as [|[k v] l IH]; intros m; [exact I|].
      cbn [OrdinalArrayMap_from_iter_loop]. pose proof (array_step_good HO (OpInsert k v) m) as G. cbn [array_step] in G.
      destruct (OrdinalArrayMap_insert O m k v) as [[o m']| | | |]; try contradiction G; try exact I. cbn [bind]. apply IH.
    Qed.
    Lemma with_iter_post r : post (SetIter_new_with av r) (fun _ => True).
    Proof. unfold SetIter_new_with. destruct av; cbn in *; auto. Qed.
    Lemma with_ref_debug_post r : post (OrdinalSetRef_debug_with O av r) (fun _ => True).
    Proof.
      apply post_bind with (1 := with_iter_post _). intros it _.
      apply post_bind with (1 := post_collect (set_iter_good HO) Front (s := it) I (Nat.lt_succ_diag_r _)).
      intros [? ?]; cbn; auto.
    Qed.
    Lemma with_sets_good :
      (forall s, no_ub (OrdinalSet_iter_with O av s) /\ no_ub (OrdinalSet_debug_with O av s) /\
         forall it sched, OrdinalSet_iter_with O av s = Val it -> no_ub (drive (SetIter_step O) sched it)) /\
      (forall S (s : OrdinalArraySet S), no_ub (OrdinalArraySet_debug_with O av s)) /\
      (forall s, no_ub (OrdinalSet64_debug_with O av s)).
    Proof.
      split; [intros s; split; [|split]|split].
      - apply post_no_ub with (P := fun _ => True). apply post_bind with (1 := post_as_ref HO s).
        intros r _. apply with_iter_post.
      - apply post_no_ub with (P := fun _ => True). apply post_bind with (1 := post_as_ref HO s).
        intros r _. apply with_ref_debug_post.
      - intros it sched _. eapply post_no_ub. exact (post_drive (set_iter_good HO) sched (s := it) I).
      - intros S s. apply post_no_ub with (P := fun _ => True).
        apply post_bind with (P := fun _ => True); [|intros; apply with_ref_debug_post].
        apply post_bind with (P := fun _ => True); [|intros].
        + apply post_bind with (1 := post_ass HO). intros x _. destruct (_ =? _); exact I.
        + eapply post_weaken; [apply (post_ref_new HO)|auto].
      - intros s. apply post_no_ub with (P := fun _ => True).
        apply post_bind with (P := fun _ => True); [|intros; apply with_ref_debug_post].
        eapply post_weaken; [apply (post_ref_new HO)|auto].
    Qed.
    Lemma with_maps_good :
      (forall V E St (init : St -> K -> St * res (result V E)) st, (forall st k, no_ub (snd (init st k))) ->
         no_ub (snd (OrdinalTotalMap_try_new_with O av init st)) /\
         forall S, no_ub (returned (snd (OrdinalTotalArrayMap_try_new_with O av S init st)))) /\
      (forall V St (init : St -> K -> St * res V) st, (forall st k, no_ub (snd (init st k))) ->
         no_ub (snd (OrdinalTotalMap_new_with O av init st)) /\
         forall S, no_ub (returned (snd (OrdinalTotalArrayMap_new_with O av S init st)))) /\
      (forall V S (m : OrdinalTotalArrayMap S V), no_ub (OrdinalTotalArrayMap_as_ref_with O av m)) /\
      (forall V S (l : list (K * V)), no_ub (OrdinalArrayMap_from_iter_with O av S l)).
    Proof.
      repeat split; intros; auto using with_try_new_good, with_array_try_new_good, with_new_good, with_array_new_good,
        with_as_ref_good, with_from_iter_good.
    Qed.
  End Safety.

  (** *** Every value made is kept or dropped once *)
  Section Conserve.
    Context (S : nat) (from_safe : forall i, safe (from_ordinal O i)).

    Lemma with_try_new_conserves {V E St} av (init : St -> K -> St * res (result V E)) st n :
      safe av -> ORDINAL_SIZE O = Val n -> (forall st k, safe (snd (init st k))) ->
      let '((st', log), o) := OrdinalTotalArrayMap_try_new_with O av S (logged init) (st, []) in
      OrdinalTotalArrayMap_try_new_with O av S init st = (st', o) /\
      (if n =? N.of_nat S then safe (returned o) else returned o = NoCompile) /\
      Permutation log (kept (returned o) ++ dropped o).
    Proof.
      intros Hav Hs Hi. unfold OrdinalTotalArrayMap_try_new_with, ASSERT. rewrite Hs. cbn [bind].
      destruct (n =? N.of_nat S); cbn [assert_const bind].
      - destruct av as [it|w| | |]; try contradiction Hav; [|repeat split; constructor].
        pose proof (@fill_new_conserves V _ K E St S (values_next O) init (@values_next_safe K O from_safe) Hi it st) as G.
        pose proof (@fill_logged V _ K E St S (values_next O) init (S + 2) (builder_new S) it st []) as L.
        destruct (fill S (values_next O) (logged init) (S + 2) (builder_new S) it (st, [])) as [[st' log] o].
        split; [exact L|exact G].
      - split; [reflexivity|]. split; [reflexivity|]. constructor.
    Qed.

    Lemma with_new_conserves {V St} av (init : St -> K -> St * res V) st n :
      safe av -> ORDINAL_SIZE O = Val n -> (forall st k, safe (snd (init st k))) ->
      let '((st', log), o) := OrdinalTotalArrayMap_new_with O av S (logged_ok init) (st, []) in
      OrdinalTotalArrayMap_new_with O av S init st = (st', o) /\
      (if n =? N.of_nat S then safe (returned o) else returned o = NoCompile) /\
      Permutation log (kept_ok (returned o) ++ dropped o).
    Proof.
      intros Hav Hs Hi. pose proof (with_try_new_conserves st Hav Hs (infallible_safe init Hi)) as G.
      unfold OrdinalTotalArrayMap_new_with, OrdinalTotalArrayMap_try_new_with in *. unfold ASSERT in *.
      rewrite Hs in *. cbn [bind] in *.
      destruct (n =? N.of_nat S); cbn [assert_const bind] in *.
      - destruct av as [it|w| | |]; try contradiction Hav.
        + rewrite (@fill_ext S V _ K Empty_set (St * list V) (values_next O) _ _ (logged_infallible init)).
          destruct (fill S (values_next O) (logged (infallible_init init)) (S + 2) (builder_new S) it (st, []))
            as [[st' log] o].
          destruct G as (G0 & G1 & G2). rewrite G0. split; [reflexivity|].
          destruct o as [r d]. cbn [returned dropped] in *. destruct r as [[a|[]]| | | |]; cbn in *; auto.
        + repeat split; constructor.
      - split; [reflexivity|]. split; [reflexivity|]. constructor.
    Qed.
  End Conserve.

  (** *** Sets never show what is not in them *)
  Lemma set_loop_members d set fuel : forall it t it',
    set_loop O (values_step O d) set fuel it = Val (Some t, it') -> OrdinalSetRef_contains O set t = Val true.
  Proof.
    induction fuel as [|fuel IH]; intros it t it' H; [discriminate H|]. cbn [set_loop] in H.
    destruct (values_step O d it) as [[[k|] it1]| | | |]; cbn [bind] in H; try discriminate H.
    destruct (OrdinalSetRef_contains O set k) as [[|]| | | |] eqn:Ec; cbn [bind] in H; try discriminate H.
    - injection H as -> ->. exact Ec.
    - exact (IH _ _ _ H).
  Qed.
  Lemma set_drive_members set sched : forall it outs it', si_set it = set ->
    drive (SetIter_step O) sched it = Val (outs, it') ->
    forall t, In (Some t) outs -> OrdinalSetRef_contains O set t = Val true.
  Proof.
    induction sched as [|d sched IH]; intros it outs it' Hs H t Ht; cbn [drive] in H.
    - injection H as <- <-. destruct Ht.
    - destruct (SetIter_step O d it) as [[o it1]| | | |] eqn:Es; cbn [bind] in H; try discriminate H.
      destruct (drive (SetIter_step O) sched it1) as [[os it2]| | | |] eqn:Ed; cbn [bind] in H; try discriminate H.
      injection H as <- <-. unfold SetIter_step in Es.
      destruct (set_loop O (values_step O d) (si_set it) _ (si_iter it)) as [[o1 iv]| | | |] eqn:El; cbn [bind] in Es; try discriminate Es.
      injection Es as <- <-. destruct Ht as [->|Ht].
      + rewrite <- Hs. exact (set_loop_members El).
      + eapply IH; [|exact Ed|exact Ht]. exact Hs.
  Qed.
  Lemma set_shows_members av s it sched outs it' t : OrdinalSet_iter_with O av s = Val it ->
    drive (SetIter_step O) sched it = Val (outs, it') -> In (Some t) outs -> OrdinalSet_contains O s t = Val true.
  Proof.
    unfold OrdinalSet_iter_with, OrdinalSet_contains. intros Hi Hd Ht.
    destruct (OrdinalSet_as_ref O s) as [r| | | |]; cbn [bind] in *; try discriminate Hi.
    unfold OrdinalSetRef_iter_with, SetIter_new_with in Hi. destruct av as [iv| | | |]; cbn [bind] in Hi; try discriminate Hi.
    injection Hi as <-. eapply set_drive_members; [|exact Hd|exact Ht]. reflexivity.
  Qed.
End Override.

Lemma with_default_all {cfg : Config} {K : Type} (O : Ordinal K) (S : nat) :
  ((forall V E St (init : St -> K -> St * res (result V E)) st,
      OrdinalTotalMap_try_new_with O (values_new O) init st = OrdinalTotalMap_try_new O init st) /\
   (forall V St (init : St -> K -> St * res V) st,
      OrdinalTotalMap_new_with O (values_new O) init st = OrdinalTotalMap_new O init st) /\
   (forall V (d : V), OrdinalTotalMap_default_with O (values_new O) d = OrdinalTotalMap_default O d) /\
   (forall V (m : @OrdinalTotalMap V), OrdinalTotalMap_keys_with (values_new O) m = OrdinalTotalMap_keys O m) /\
   (forall V (m : @OrdinalTotalMap V), OrdinalTotalMap_into_keys_with (values_new O) m = OrdinalTotalMap_into_keys O m)) /\
  ((forall V E St (init : St -> K -> St * res (result V E)) st,
      OrdinalTotalArrayMap_try_new_with O (values_new O) S init st = OrdinalTotalArrayMap_try_new O S init st) /\
   (forall V St (init : St -> K -> St * res V) st,
      OrdinalTotalArrayMap_new_with O (values_new O) S init st = OrdinalTotalArrayMap_new O S init st) /\
   (forall V (d : V), OrdinalTotalArrayMap_default_with O (values_new O) S d = OrdinalTotalArrayMap_default O S d) /\
   (forall V (m : OrdinalTotalArrayMap S V), OrdinalTotalArrayMap_keys_with (values_new O) m = OrdinalTotalArrayMap_keys O m) /\
   (forall V (m : OrdinalTotalArrayMap S V), OrdinalTotalArrayMap_into_keys_with (values_new O) m = OrdinalTotalArrayMap_into_keys O m) /\
   (forall V (m : OrdinalTotalArrayMap S V), OrdinalTotalArrayMap_as_ref_with O (values_new O) m = OrdinalTotalArrayMap_as_ref O m) /\
   (forall V, OrdinalArrayMap_new_with O (values_new O) S V = OrdinalArrayMap_new O S) /\
   (forall V, OrdinalArrayMap_default_with O (values_new O) S V = OrdinalArrayMap_default O S) /\
   (forall V (l : list (K * V)), OrdinalArrayMap_from_iter_with O (values_new O) S l = OrdinalArrayMap_from_iter O S l)) /\
  ((forall s, OrdinalSet_iter_with O (values_new O) s = OrdinalSet_iter O s) /\
   (forall s, OrdinalSet_debug_with O (values_new O) s = OrdinalSet_debug O s) /\
   (forall S (s : OrdinalArraySet S), OrdinalArraySet_debug_with O (values_new O) s = OrdinalArraySet_debug O s) /\
   (forall s, OrdinalSet64_debug_with O (values_new O) s = OrdinalSet64_debug O s)).
Proof. split; [apply with_default_maps|]. split; [apply with_default_arrays|apply with_default_sets]. Qed.
