(** * CallsProofs7: whatever user code answers, no operation runs into undefined behaviour; maps
    cannot tell changing answers from fixed ones. *)
From Verif Require Import Base Spec SpecMap SpecTotal SpecSet SpecAtomic SpecSafety SpecCalls ModelOrdinal ModelValues ModelArrayBuilder
  ModelIter ModelTotal ModelMap ModelSet ModelAtomic MapMachine TotalMachine SetMachine ModelCalls BaseProofs ArrayProofs IterLib BitProofs
  MapProofs5 SafetyProofs SafetyProofs2 CallsProofs1 CallsProofs2 CallsProofs3 CallsProofs4 CallsProofs5 CallsProofs6.
From Coq Require Import List Lia Permutation. Import ListNotations.
Set Implicit Arguments. Unset Strict Implicit.

(** ** Outcomes in safe worlds *)
Section Post.
  Context {K C : Type} {R : C -> Type}.

  Definition ppost {A} (p : prog K C R A) (P : A -> Prop) : Prop :=
    forall U (w : world K C R U) u, safe_world w -> post (snd (run w u p)) P.

  Lemma ppost_done A (r : res A) P : post r P -> ppost (Done r) P.
  Proof. intros H U w u _. exact H. Qed.
  Lemma ppost_val A (a : A) (P : A -> Prop) : P a -> ppost (Done (Val a)) P.
  Proof. intros H U w u _. exact H. Qed.
  Lemma ppost_bind A B (p : prog K C R A) (k : A -> prog K C R B) P Q :
    ppost p P -> (forall a, P a -> ppost (k a) Q) -> ppost (pbind p k) Q.
  Proof.
    intros Hp Hk U w u S. specialize (Hp U w u S). rewrite run_bind. destruct (run w u p) as [[u1 l1] r]. cbn [snd] in Hp.
    destruct r as [a| | | |]; cbn in Hp |- *; auto. specialize (Hk a Hp U w u1 S). destruct (run w u1 (k a)) as [[u2 l2] x]. exact Hk.
  Qed.
  Lemma ppost_weaken A (p : prog K C R A) (P Q : A -> Prop) : ppost p P -> (forall a, P a -> Q a) -> ppost p Q.
  Proof. intros Hp H U w u S. eapply post_weaken; [apply Hp, S|exact H]. Qed.
  Lemma ppost_ask q : ppost (ask q) (fun _ => True).
  Proof.
    intros U w u S. unfold ask. cbn [run]. pose proof (S u q) as H. destruct (w u q) as [u1 r]. cbn [snd] in *. apply no_ub_post, H.
  Qed.
  Lemma ppost_ordinal k : ppost (ask_ordinal k) (fun _ => True).
  Proof. exact (@ppost_ask (QOrdinal k)). Qed.
  Lemma ppost_from i : ppost (ask_from i) (fun _ => True).
  Proof. exact (@ppost_ask (QFrom i)). Qed.
  Lemma ppost_pure A (r : res A) : post r (fun _ => True) -> ppost (Done r) (fun _ => True).
  Proof. apply ppost_done. Qed.

  Lemma ppost_run_ops St Op Out (step : Op -> St -> prog K C R (Out * St)) (I : St -> Prop) ops :
    (forall op s, I s -> ppost (step op s) (fun p => I (snd p))) -> forall s, I s -> ppost (run_ops_p step ops s) (fun p => I (snd p)).
  Proof.
    intros H. induction ops as [|op ops IH]; intros s Hs; cbn [run_ops_p]; [now apply ppost_val|].
    eapply ppost_bind; [apply H, Hs|]. intros [o s1] H1. eapply ppost_bind; [apply IH, H1|]. intros [os s2] H2. now apply ppost_val.
  Qed.
End Post.

(** ** Sets *)
Section Sets.
  Context {cfg : Config} {K C : Type} {R : C -> Type} (size : res N) (Hsize : no_ub size).
  Local Notation ppost := (@ppost K C R _).

  (** What does not ask user code is covered by the proofs for impls that are functions. *)
  Definition silent : Ordinal K := {| ORDINAL_SIZE := size; ordinal := fun _ => Panic PUser; from_ordinal := fun _ => Panic PUser |}.
  Lemma silent_any : any_impl silent.
  Proof. split; [exact Hsize|]. split; intros ?; exact I. Qed.

  Lemma ppost_contains r t : ppost (OrdinalSetRef_contains_p r t) (fun _ => True).
  Proof.
    eapply ppost_bind; [apply ppost_ordinal|]. intros i _. eapply ppost_bind; [apply ppost_done; now apply (@post_udiv i 64 (fun _ => True))|]. intros q _.
    destruct (slice_get r q); [|now apply ppost_val]. eapply ppost_bind; [apply ppost_ordinal|]. intros j _.
    eapply ppost_bind; [apply ppost_done; now apply (@post_urem j 64 (fun _ => True))|]. intros m _.
    eapply ppost_bind; [apply ppost_done, post_shl|]. intros b _. now apply ppost_val.
  Qed.
  Lemma ppost_mut_insert ws t : ppost (OrdinalSetMut_insert_p size ws t) (fun p => length (snd p) = length ws).
  Proof.
    eapply ppost_bind; [apply ppost_done; exact (post_ref_new silent_any ws)|]. intros r _.
    eapply ppost_bind; [apply ppost_contains|]. intros prev _. eapply ppost_bind; [apply ppost_ordinal|]. intros i _.
    eapply ppost_bind; [apply ppost_done; now apply (@post_urem i 64 (fun _ => True))|]. intros m _.
    eapply ppost_bind; [apply ppost_done, post_shl|]. intros b _. eapply ppost_bind; [apply ppost_ordinal|]. intros j _.
    eapply ppost_bind; [apply ppost_done; now apply (@post_udiv j 64 (fun _ => True))|]. intros q _.
    eapply ppost_bind; [apply ppost_done; now apply (@post_index _ ws q (fun _ => True))|]. intros w _. apply ppost_val. apply store_length.
  Qed.
  Lemma ppost_set_insert s t : ppost (OrdinalSet_insert_p size s t) (fun _ => True).
  Proof.
    eapply ppost_bind; [apply ppost_done; exact (post_small silent_any)|]. intros [|] _; destruct s as [w|ws]; try (apply ppost_done; exact I).
    - eapply ppost_bind; [apply ppost_done; exact (post_mut_new silent_any [w])|]. intros ws ->.
      eapply ppost_bind; [apply ppost_mut_insert|]. intros [r ws'] L. cbn in L. destruct ws' as [|w' [|? ?]]; try discriminate L. now apply ppost_val.
    - eapply (@ppost_bind _ _ _ _ _ _ _ (fun _ => True)).
      + apply ppost_done. destruct (_ =? _); [|exact I]. apply post_bind with (1 := post_size silent_any). intros n _.
        apply post_bind with (P := fun _ => True); [now apply post_unwrap|]. intros a _.
        apply post_bind with (P := fun _ => True); [now apply post_usub|]. intros b _.
        apply post_bind with (P := fun _ => True); [now apply post_udiv|]. intros c _. exact I.
      + intros ws1 _. eapply ppost_bind; [apply ppost_done; exact (post_mut_new silent_any ws1)|]. intros ws2 _.
        eapply ppost_bind; [apply ppost_mut_insert|]. intros [r ws'] _. now apply ppost_val.
  Qed.

  (** Iteration: the proof about the questions also shows that the iterator shrinks. *)
  Lemma ppost_values d s : ppost (values_step_p d s) (fun p => match fst p with Some _ => range_len (snd p) + 1 = range_len s | None => snd p = s end).
  Proof.
    destruct s as [a b]. unfold values_step_p, range_next, range_next_back. cbn [r_start r_end].
    destruct (N.ltb_spec a b) as [L|L]; destruct d; try (apply ppost_val; reflexivity);
      (eapply ppost_bind; [apply ppost_from|]; intros r _; eapply ppost_bind; [apply ppost_done; now apply (@post_unwrap _ r (fun _ => True))|];
       intros t _; apply ppost_val; cbn [fst snd]; unfold range_len; cbn [r_start r_end]; lia).
  Qed.
  Lemma ppost_set_loop d set fuel it : (N.to_nat (range_len it) < fuel)%nat -> ppost (set_loop_p d set fuel it) (fun p =>
      range_len (snd p) + (if is_some (fst p) then 1 else 0) <= range_len it).
  Proof.
    revert it. induction fuel as [|fuel IH]; intros it Hf; [lia|]. cbn [set_loop_p].
    eapply ppost_bind; [apply ppost_values|]. intros [[t|] it'] H; cbn [fst snd] in *; [|apply ppost_val; cbn [fst snd is_some]; subst; lia].
    eapply ppost_bind; [apply ppost_contains|]. intros [|] _; [apply ppost_val; cbn [fst snd is_some]; lia|].
    eapply ppost_weaken; [apply IH; lia|]. intros [o it2]. cbn [fst snd]. destruct (is_some o); lia.
  Qed.
  Lemma ppost_set_step d s : ppost (SetIter_step_p d s) (fun p =>
      range_len (si_iter (snd p)) + (if is_some (fst p) then 1 else 0) <= range_len (si_iter s)).
  Proof.
    eapply ppost_bind; [apply ppost_set_loop; lia|]. intros [o it] H. apply ppost_val. exact H.
  Qed.
  Lemma ppost_set_drive sched s : ppost (drive_p SetIter_step_p sched s) (fun _ => True).
  Proof.
    revert s. induction sched as [|d sched IH]; intros s; cbn [drive_p]; [now apply ppost_val|].
    eapply ppost_bind; [apply ppost_set_step|]. intros [o s1] _. eapply ppost_bind; [apply IH|]. intros [os s2] _. now apply ppost_val.
  Qed.
  Lemma ppost_set_collect n s : (N.to_nat (range_len (si_iter s)) < n)%nat -> ppost (collect_p (SetIter_step_p Front) n s) (fun _ => True).
  Proof.
    revert s. induction n as [|n IH]; intros s H; cbn [collect_p]; [lia|].
    eapply ppost_bind; [apply ppost_set_step|]. intros [[t|] s1] H1; cbn [fst snd is_some] in *; [|now apply ppost_val].
    eapply ppost_bind; [apply IH; lia|]. intros [os s2] _. now apply ppost_val.
  Qed.
  Lemma ppost_ref_debug r : ppost (OrdinalSetRef_debug_p size r) (fun _ => True).
  Proof.
    eapply ppost_bind; [apply ppost_done; exact (post_iter_new silent_any (OrdinalSetRef_clone r))|]. intros it _.
    eapply ppost_bind; [apply ppost_set_collect; lia|]. intros [l s] _. now apply ppost_val.
  Qed.

  Lemma ppost_set op s : ppost (set_step_p size op s) (fun _ => True).
  Proof.
    destruct op; cbn [set_step_p].
    - eapply ppost_bind; [apply ppost_set_insert|]. intros [? ?] _. now apply ppost_val.
    - eapply (@ppost_bind _ _ _ _ _ _ _ (fun _ => True)); [|intros b _; now apply ppost_val].
      eapply ppost_bind; [apply ppost_done; exact (post_as_ref silent_any s)|]. intros r _. apply ppost_contains.
    - eapply (@ppost_bind _ _ _ _ _ _ _ (fun _ => True)).
      + apply ppost_done. apply post_bind with (1 := post_as_ref silent_any s). intros r _. apply (post_iter_new silent_any).
      + intros it _. eapply ppost_bind; [apply ppost_set_drive|]. intros [? ?] _. now apply ppost_val.
    - eapply (@ppost_bind _ _ _ _ _ _ _ (fun _ => True)); [|intros b _; now apply ppost_val].
      eapply ppost_bind; [apply ppost_done; exact (post_set_new silent_any)|]. intros s0 _. revert s0.
      induction l as [|t l IH]; intros s0; cbn [OrdinalSet_insert_all_p]; [now apply ppost_val|].
      eapply ppost_bind; [apply ppost_set_insert|]. intros [b s'] _. apply IH.
    - now apply ppost_val.
    - eapply (@ppost_bind _ _ _ _ _ _ _ (fun _ => True)); [|intros b _; now apply ppost_val].
      eapply ppost_bind; [apply ppost_done; exact (post_as_ref silent_any s)|]. intros r _. apply ppost_ref_debug.
  Qed.
  Lemma ppost_array_insert S (s : OrdinalArraySet S) t : ppost (OrdinalArraySet_insert_p size s t) (fun _ => True).
  Proof.
    eapply ppost_bind; [apply ppost_done; exact (post_sassert silent_any S)|]. intros [] _.
    eapply ppost_bind; [apply ppost_done; exact (post_mut_new silent_any (arr_list s))|]. intros ws ->.
    eapply ppost_bind; [apply ppost_mut_insert|]. intros [r ws'] L. cbn in L. rewrite arr_length in L.
    eapply ppost_bind; [apply ppost_done; exact (post_as_array L)|]. intros a _. now apply ppost_val.
  Qed.
  Lemma ppost_array_set S op (s : OrdinalArraySet S) : ppost (array_set_step_p size op s) (fun _ => True).
  Proof.
    destruct op; cbn [array_set_step_p].
    - eapply ppost_bind; [apply ppost_array_insert|]. intros [? ?] _. now apply ppost_val.
    - eapply (@ppost_bind _ _ _ _ _ _ _ (fun _ => True)); [|intros b _; now apply ppost_val].
      eapply ppost_bind; [apply ppost_done; exact (post_aas_ref silent_any s)|]. intros r _. apply ppost_contains.
    - apply ppost_done. exact I.
    - eapply (@ppost_bind _ _ _ _ _ _ _ (fun _ => True)); [|intros b _; now apply ppost_val].
      eapply ppost_bind; [apply ppost_done; exact (post_array_new silent_any S)|]. intros s0 _. revert s0.
      induction l as [|t l IH]; intros s0; cbn [OrdinalArraySet_insert_all_p]; [now apply ppost_val|].
      eapply ppost_bind; [apply ppost_array_insert|]. intros [b s'] _. apply IH.
    - now apply ppost_val.
    - eapply (@ppost_bind _ _ _ _ _ _ _ (fun _ => True)); [|intros b _; now apply ppost_val].
      eapply ppost_bind; [apply ppost_done; exact (post_aas_ref silent_any s)|]. intros r _. apply ppost_ref_debug.
  Qed.

  Lemma ppost_iter64 d s : ppost (Iter64_step_p d s) (fun _ => True).
  Proof.
    unfold Iter64_step_p. destruct (match d with Front => _ | Back => _ end) as [i|]; [|now apply ppost_val].
    eapply ppost_bind; [apply ppost_done, post_shl|]. intros b _. cbv zeta. eapply ppost_bind; [apply ppost_from|]. intros o _.
    eapply ppost_bind; [apply ppost_done; now apply (@post_unwrap _ o (fun _ => True))|]. intros t _. now apply ppost_val.
  Qed.
  Lemma ppost_64contains s t : ppost (OrdinalSet64_contains_p size s t) (fun _ => True).
  Proof.
    eapply ppost_bind; [apply ppost_done; exact (post_64assert silent_any)|]. intros [] _. eapply ppost_bind; [apply ppost_ordinal|]. intros i _.
    eapply ppost_bind; [apply ppost_done, post_shl|]. intros b _. now apply ppost_val.
  Qed.
  Lemma ppost_set64 op s : ppost (set64_step_p size op s) (fun _ => True).
  Proof.
    destruct op; cbn [set64_step_p].
    - eapply (@ppost_bind _ _ _ _ _ _ _ (fun _ => True)); [|intros [? ?] _; now apply ppost_val].
      eapply ppost_bind; [apply ppost_done; exact (post_64assert silent_any)|]. intros [] _.
      eapply ppost_bind; [apply ppost_64contains|]. intros c _. cbv zeta. eapply ppost_bind; [apply ppost_ordinal|]. intros i _.
      eapply ppost_bind; [apply ppost_done, post_shl|]. intros b _. now apply ppost_val.
    - eapply ppost_bind; [apply ppost_64contains|]. intros b _. now apply ppost_val.
    - eapply (@ppost_bind _ _ _ _ _ _ _ (fun _ => True)).
      + apply ppost_done. apply post_bind with (1 := post_64assert silent_any). cbn; auto.
      + intros it _. eapply (@ppost_bind _ _ _ _ _ _ _ (fun _ => True)); [|intros [? ?] _; now apply ppost_val].
        revert it. induction sched as [|d ds IH]; intros it; cbn [drive_p]; [now apply ppost_val|].
        eapply ppost_bind; [apply ppost_iter64|]. intros [o s1] _. eapply ppost_bind; [apply IH|]. intros [os s2] _. now apply ppost_val.
    - eapply (@ppost_bind _ _ _ _ _ _ _ (fun _ => True)); [|intros b _; now apply ppost_val].
      eapply (@ppost_bind _ _ _ _ _ _ _ (fun _ => True)).
      { apply ppost_done. apply post_bind with (1 := post_64assert silent_any). cbn; auto. }
      intros s0 _. revert s0. induction l as [|t l IH]; intros s0; cbn [OrdinalSet64_or_all_p]; [now apply ppost_val|].
      eapply ppost_bind; [apply ppost_ordinal|]. intros i _. eapply ppost_bind; [apply ppost_done, post_shl|]. intros b _. apply IH.
    - now apply ppost_val.
    - eapply (@ppost_bind _ _ _ _ _ _ _ (fun _ => True)); [|intros b _; now apply ppost_val].
      eapply ppost_bind; [apply ppost_done; exact (post_ref_new silent_any [s])|]. intros r _. apply ppost_ref_debug.
  Qed.
End Sets.

(** ** Maps: a fixed impl with the same outcome *)
Section Maps.
  Context {cfg : Config} {K C X : Type}.
  Local Notation R := (fun _ : C => X).

  Lemma nodup_left T (a b : list T) : NoDup (a ++ b) -> NoDup a.
  Proof.
    induction a as [|x a IH]; intros H; [constructor|]. inversion H as [|? ? H1 H2]. constructor; [|auto]. intros Hi. apply H1, in_or_app. auto.
  Qed.
  Lemma prefix_once (qs qs' : list (query K C)) : prefix qs qs' -> once qs' -> once qs.
  Proof.
    intros (rest & ->) [H1 H2]. rewrite !filter_app in *. rewrite app_length in H1. split; [lia|].
    now apply nodup_left in H2.
  Qed.
  Lemma once_ordinal k : once [@QOrdinal K C k].
  Proof. split; [cbn; lia|]. cbn. constructor; [intros []|constructor]. Qed.
  Lemma once_nil : once (@nil (query K C)).
  Proof. split; [cbn; lia|constructor]. Qed.
  Lemma once_froms l : NoDup l -> once (@froms K C l).
  Proof.
    intros H. unfold froms. split.
    - replace (filter is_ordinal_question (map QFrom l)) with (@nil (query K C)); [cbn; lia|]. clear H. induction l; auto.
    - replace (filter (fun q : query K C => negb (is_user_question q)) (map QFrom l)) with (map (@QFrom K C) l).
      + apply FinFun.Injective_map_NoDup; [|exact H]. intros a b E. congruence.
      + clear H. induction l as [|a l IH]; [reflexivity|]. cbn. now rewrite <- IH.
  Qed.
  Lemma perm_nodup (a b l : list N) : Permutation (a ++ b) l -> NoDup l -> NoDup (a ++ b).
  Proof. intros H. apply Permutation_NoDup. now symmetry. Qed.

  Lemma once_visits s (w : window) : NoDup (map fst w) -> once (@froms K C (fst (visits s w))).
  Proof.
    intros H. apply once_froms. eapply nodup_left. eapply perm_nodup; [apply visits_perm|exact H].
  Qed.
  Lemma once_map V op (m : list (option V)) : once (@map_questions K V C op m).
  Proof.
    assert (N : NoDup (map fst (sparse_window m))) by apply window_nodup.
    destruct op; cbn [map_questions]; try apply once_ordinal; try apply once_nil; try (apply once_visits; exact N); try (apply once_froms; exact N).
    - apply once_froms. eapply nodup_left. eapply perm_nodup; [apply visit_perm|exact N].
    - pose proof (visits_perm sched (sparse_window m)) as P. destruct leak; [apply once_visits; exact N|].
      destruct (visits sched (sparse_window m)) as [q rest]. apply once_froms. eapply perm_nodup; [exact P|exact N].
  Qed.
  Lemma once_total V n op (m : list V) : once (@total_questions K V C n op m).
  Proof.
    destruct op; cbn [total_questions]; try apply once_ordinal; try apply once_nil; try (apply once_visits; apply window_nodup); apply once_froms, window_nodup.
  Qed.

  (** A dialogue without repeated questions is one with a fixed impl. *)
  Lemma asked_once U A (w : world K C R U) (p : prog K C R A) u qs : once qs -> asked qs (run w u p) ->
    once (questions (snd (fst (run w u p)))).
  Proof.
    intros Ho H. destruct (run w u p) as [[u1 l] r]. cbn [fst snd asked] in *.
    destruct r; [rewrite H; exact Ho| | | |]; eapply prefix_once; eauto.
  Qed.
  Lemma fixed_impl U A (w : world K C R U) (p : prog K C R A) (f : Ordinal K -> res A) size u :
    once (questions (snd (fst (run w u p)))) ->
    (forall O, ORDINAL_SIZE O = size -> is O (replay_closure (C := C) (X := X)) p (f O)) ->
    exists O, ORDINAL_SIZE O = size /\ (no_ub size -> safe_world w -> any_impl O) /\ snd (run w u p) = f O.
  Proof.
    intros Ho Hf. destruct (run w u p) as [[u1 l] r] eqn:E. cbn [fst snd] in *.
    exists (impl_of_dialogue size l). split; [reflexivity|]. split.
    - intros Hs Hw. apply impl_any; [exact Hs|]. eapply run_safe; eauto.
    - pose proof (replay E (once_agrees size Ho) []) as Rp. rewrite app_nil_r in Rp.
      destruct (Hf (impl_of_dialogue size l) eq_refl (returns l)) as (l' & E'). rewrite Rp in E'. congruence.
  Qed.

  Section Ops.
    Context {U V : Type} (w : world K C R U) (u : U) (size : res N).

    Lemma map_fixed op (m : @OrdinalMap V) : llen m <= usize_max ->
      exists O, ORDINAL_SIZE O = size /\ (no_ub size -> safe_world w -> any_impl O) /\ snd (run w u (heap_step_p size op m)) = heap_step O op m.
    Proof.
      intros H. apply fixed_impl with (f := fun O => heap_step O op m).
      - eapply asked_once; [apply once_map|]. eapply asks_asked, map_asks, H.
      - intros O <-. apply is_map_step.
    Qed.
    Lemma array_map_fixed S op (m : @OrdinalArrayMap V S) : N.of_nat S <= usize_max ->
      exists O, ORDINAL_SIZE O = size /\ (no_ub size -> safe_world w -> any_impl O) /\ snd (run w u (array_step_p op m)) = array_step O op m.
    Proof.
      intros H. apply fixed_impl with (f := fun O => array_step O op m).
      - eapply asked_once; [apply once_map|]. eapply asks_asked, array_map_asks. unfold llen. now rewrite arr_length.
      - intros O _. apply is_array_step.
    Qed.
    Lemma total_fixed n op (m : @OrdinalTotalMap V) : llen m <= usize_max ->
      exists O, ORDINAL_SIZE O = Val n /\ (safe_world w -> any_impl O) /\ snd (run w u (htotal_step_p (Val n) op m)) = htotal_step O op m.
    Proof.
      intros H. destruct (@fixed_impl U _ w (htotal_step_p (Val n) op m) (fun O => htotal_step O op m) (Val n) u) as (O & H1 & H2 & H3).
      - eapply asked_once; [apply once_total|]. eapply asks_asked, total_map_asks, H.
      - intros O <-. apply is_total_step.
      - exists O. split; [exact H1|]. split; [|exact H3]. apply H2. exact I.
    Qed.
    Lemma array_total_fixed n S op (m : OrdinalTotalArrayMap S V) : N.of_nat S <= usize_max ->
      exists O, ORDINAL_SIZE O = Val n /\ (safe_world w -> any_impl O) /\ snd (run w u (atotal_step_p (Val n) op m)) = atotal_step O op m.
    Proof.
      intros H. destruct (@fixed_impl U _ w (atotal_step_p (Val n) op m) (fun O => atotal_step O op m) (Val n) u) as (O & H1 & H2 & H3).
      - eapply asked_once; [apply once_total|]. eapply asks_asked, array_total_asks. unfold llen. now rewrite arr_length.
      - intros O <-. apply is_array_total_step.
      - exists O. split; [exact H1|]. split; [|exact H3]. apply H2. exact I.
    Qed.
  End Ops.
End Maps.
