(** * KeyEndsProofs: lemmas for C114, collecting and owning iterators. *)
From Verif Require Import Base Spec SpecIter SpecMap SpecTotal SpecCatch SpecResume SpecLifeRun SpecLifeEnds SpecKeyLife SpecKeyEnds ModelOrdinal ModelValues ModelArrayBuilder
  ModelIter ModelTotal ModelMap ModelResume MapMachine TotalMachine ModelCatch ModelLife ModelKeyLife ModelKeyEnds
  OrdinalProofs BaseProofs IterLib IterProofs MapIterProofs MapLib ArrayProofs MapMutProofs MapProofs MapProofs2 MapProofs5 ResumeProofs UnwindProofs2
  CatchProofs CatchProofs2 LifeProofs4 LifeProofs5 LifeProofs6 LifeProofs7 KeyLifeProofs KeyLifeProofs2 KeyLifeProofs3 KeyLifeProofs4 KeyLifeProofs5.
From Coq Require Import List. Import ListNotations.
Set Implicit Arguments. Unset Strict Implicit.

(** ** Collecting *)
Section Collect.
  Context {K V : Type} (boom : list (K + V) -> K + V -> option panic) (drops_result : bool).
  Context (O : Ordinal K) (eqd : forall a b : K, {a = b} + {a <> b}) (ks : list K).
  Context {M : Type} (values : M -> list V) (insert : K -> V -> act M (option V)) (rep : M -> pmap K V -> Prop).
  Context (Hpanic : forall k v w m s, rep m s -> key_panic O (Some k) = Some w -> exists m', insert k v m = (m', Unwinds w) /\ rep m' s).
  Context (Hend : forall k v m s, rep m s -> key_panic O (Some k) = None -> exists m', insert k v m = (m', Ended (s k)) /\ rep m' (pm_set eqd s k (Some v))).
  Context (Hval : forall m s, rep m s -> values m = map snd (pm_entries ks s)).
  Notation gathered := (gathered boom drops_result O eqd ks).

  Definition map_end (r : (list (K + V) * M) * ending unit) : (list (K + V) * unit) * ending M :=
    let '((log', m'), e) := r in
    match e with
    | Ended _ => ((log', tt), Ended m')
    | Unwinds w => (glue_unwinding boom (map inr (values m')) ;;! fun s => (s, Unwinds w)) (log', tt)
    | Aborts => ((log', tt), Aborts)
    | Stuck => ((log', tt), Stuck)
    end.
  Definition gather_ok (l : list (K * V)) (log : list (K + V)) (m : M) (s : pmap K V) : Prop :=
    exists e, map_end (from_iter_loop_keys boom drops_result insert l (log, m)) = ((fst (gathered log l s), tt), e) /\
      match snd (gathered log l s) with
      | Some (Seen s') => exists m', e = Ended m' /\ rep m' s'
      | Some (Caught w) => e = Unwinds w
      | None => e = Aborts
      end.
  Lemma all_lost_is A w log vs : @all_lost K V boom A w log vs = lost boom w log vs.
  Proof. reflexivity. Qed.
  Lemma finish_keys A (x : act (list (K + V) * M) A) (y : A -> act (list (K + V) * M) unit) log m m' s w log1 vs : rep m' s ->
    x (log, m) = ((fst (@lost (K + V) boom A w log1 vs), m'), ends_as (snd (@lost (K + V) boom A w log1 vs))) ->
    exists e, map_end (abind x y (log, m)) = ((fst (@all_lost K V boom (pmap K V) w log1 (vs ++ values_left ks s)), tt), e) /\
      match snd (@all_lost K V boom (pmap K V) w log1 (vs ++ values_left ks s)) with
      | Some (Seen s') => exists m', e = Ended m' /\ rep m' s'
      | Some (Caught w) => e = Unwinds w
      | None => e = Aborts
      end.
  Proof.
    intros R E. rewrite !all_lost_is, lost_end, lost_log. unfold abind at 1, map_end. rewrite E. unfold values_left. rewrite <- (Hval R), lost_end, lost_log.
    rewrite destroyed_app. destruct (@still (K + V) unit boom w vs log1 tt) as [Q|Q]; rewrite Q; cbn [ends_as].
    - rewrite lost_is, lost_log, lost_end. destruct (destroyed_all boom (Some w) log1 vs) as [l1 x1]; cbn [fst snd] in *; subst x1.
      destruct (destroyed_all boom (Some w) l1 (map inr (values m'))) as [l2 [p|]]; eexists; split; reflexivity.
    - destruct (destroyed_all boom (Some w) log1 vs) as [l1 x1]; cbn [fst snd] in *; subst x1. eexists. split; reflexivity.
  Qed.
  (** The body of the loop. *)
  Definition body k v : act (list (K + V) * M) unit :=
    o <! insert_keys boom drops_result (insert k v) k v ;;
    match o with OutValue (Some old) => destroy boom (inr old) | _ => ret tt end.
  Lemma body_caught k v w log m s : rep m s -> key_panic O (Some k) = Some w ->
    exists m', rep m' s /\ body k v (log, m) =
      ((fst (@lost (K + V) boom unit w log [inr v; inl k]), m'), ends_as (snd (@lost (K + V) boom unit w log [inr v; inl k]))).
  Proof.
    intros R Ek. destruct (Hpanic v R Ek) as (m' & E & R'). exists m'. split; [exact R'|]. unfold body, insert_keys. unfold abind at 1.
    rewrite (caught_then boom _ _ log E), all_lost_is. rewrite !lost_log, !lost_end. unfold lost.
    destruct (destroyed_all boom (Some w) log [inr v; inl k]) as [log' [p|]]; reflexivity.
  Qed.
  Lemma body_ended k v log m s : rep m s -> key_panic O (Some k) = None ->
    exists m', rep m' (pm_set eqd s k (Some v)) /\ body k v (log, m) =
      match boom log (inl k) with
      | Some w => let vs := if drops_result then values_in (s k) else [] in
          ((fst (@lost (K + V) boom unit w (log ++ [inl k]) vs), m'), ends_as (snd (@lost (K + V) boom unit w (log ++ [inl k]) vs)))
      | None => let '(log', p) := stops_at boom (log ++ [inl k]) (values_in (s k)) in ((log', m'), match p with None => Ended tt | Some w => Unwinds w end)
      end.
  Proof.
    intros R Ek. destruct (Hend v R Ek) as (m' & E & R'). exists m'. split; [exact R'|]. unfold body, insert_keys. unfold abind at 1.
    rewrite (ended_then boom _ _ log E), destroy_then. destruct (boom log (inl k)) as [w|].
    - rewrite all_lost_is. change (olds (s k)) with (values_in (K := K) (s k)). cbv zeta. rewrite !lost_log, !lost_end. unfold lost.
      destruct (destroyed_all boom (Some w) (log ++ [inl k]) _) as [log' [p|]]; reflexivity.
    - unfold ret. destruct (s k) as [old|]; cbn [values_in stops_at]; [|reflexivity].
      rewrite destroy_is. destruct (boom (log ++ [inl k]) (inr old)); reflexivity.
  Qed.

  Lemma gather_all l : forall log m s, rep m s -> gather_ok l log m s.
  Proof.
    induction l as [|[k v] l IH]; intros log m s R; unfold gather_ok; cbn [from_iter_loop_keys SpecKeyEnds.gathered].
    - eexists. split; [reflexivity|]. cbn [snd]. eauto.
    - fold (body k v). change (pair_things l) with (pairs_in l). destruct (key_panic O (Some k)) as [w|] eqn:Ek.
      + destruct (body_caught v log R Ek) as (m' & R' & E). rewrite app_assoc. eapply finish_keys; [exact R'|]. apply owning_twice. exact E.
      + destruct (body_ended v log R Ek) as (m' & R' & E). destruct (boom log (inl k)) as [w|].
        * rewrite app_assoc. eapply finish_keys; [exact R'|]. apply owning_twice. exact E.
        * destruct (stops_at boom (log ++ [inl k]) (values_in (s k))) as [log' [w|]].
          -- eapply finish_keys; [exact R'|]. change (pairs_in l) with ([] ++ pairs_in l). apply owning_twice. exact E.
          -- specialize (IH log' m' _ R'). unfold gather_ok in IH. unfold abind at 1. erewrite owning_ended; [exact IH|exact E].
  Qed.
End Collect.

Section Maps.
  Context {cfg : Config} {K V : Type} (boom : list (K + V) -> K + V -> option panic) (drops_result : bool).
  Context (O O0 : Ordinal K) (HP : panicking_version O O0).
  Context (n : N) (HO : ordinal_bijection O0 n) (eqd : forall a b : K, {a = b} + {a <> b}) (ks : list K) (He : enumeration O0 ks).

  Definition slots_after (l : list (K * V)) : list K := match l with [] => [] | _ => ks end.
  Lemma heap_gathered l log :
    exists e, heap_from_iter_keys boom drops_result O l (log, tt) = ((fst (gathered boom drops_result O eqd ks log l pm_empty), tt), e) /\
      match snd (gathered boom drops_result O eqd ks log l pm_empty) with
      | Some (Seen m) => exists st, e = Ended st /\ slots_rep O0 n ks st (slots_after l, m)
      | Some (Caught w) => e = Unwinds w
      | None => e = Aborts
      end.
  Proof.
    destruct l as [|[k1 v1] l].
    { eexists. split; [reflexivity|]. eexists. split; [reflexivity|].
      apply (rep_same HO He); [exact (heap_new_rep O0 n ks)|reflexivity|auto]. }
    pose (rep := fun (st : @OrdinalMap V) m => st = map m ks).
    assert (G : gather_ok boom drops_result O eqd ks stored (OrdinalMap_insert_act O) rep ((k1, v1) :: l) log (map pm_empty ks) pm_empty).
    { apply gather_all; [| | |reflexivity].
      - intros k v w st m -> Ek. exists (map m ks). split; [|reflexivity].
        exact (insert_caught HP HO He v (full_rep HO He m) (key_bad Ek)).
      - intros k v st m -> Ek. eexists. split; [|reflexivity].
        exact (insert_ended HP HO eqd He v (full_rep HO He m) (key_good HP HO Ek)).
      - intros st m ->. apply stored_entries. }
    assert (E0 : OrdinalMap_insert_act O k1 v1 (map pm_empty ks) = OrdinalMap_insert_act O k1 v1 OrdinalMap_new).
    { destruct (key_panic O (Some k1)) as [w|] eqn:Ek.
      - rewrite (insert_caught HP HO He v1 (full_rep HO He pm_empty) (key_bad Ek)).
        symmetry. exact (insert_caught HP HO He v1 (heap_new_rep O0 n ks) (key_bad Ek)).
      - rewrite (insert_ended HP HO eqd He v1 (full_rep HO He pm_empty) (key_good HP HO Ek)).
        symmetry. exact (insert_ended HP HO eqd He v1 (heap_new_rep O0 n ks) (key_good HP HO Ek)). }
    assert (E1 : from_iter_loop_keys boom drops_result (OrdinalMap_insert_act O) ((k1, v1) :: l) (log, map pm_empty ks) =
      from_iter_loop_keys boom drops_result (OrdinalMap_insert_act O) ((k1, v1) :: l) (log, OrdinalMap_new)).
    { cbn [from_iter_loop_keys]. unfold insert_keys, abind, owning, calm. rewrite E0. reflexivity. }
    destruct G as (e & E & G). exists e. split; [etransitivity; [|exact E]; exact (f_equal (map_end boom stored) (eq_sym E1))|].
    destruct (snd _) as [[m|w]|]; [|exact G|exact G]. destruct G as (st & -> & R). exists st. split; [reflexivity|]. unfold rep in R. rewrite R. exact (full_slots HO He m).
  Qed.

  Context (S : nat) (HS : N.of_nat S = n).
  Local Notation amap := (@OrdinalArrayMap V S).
  Lemma array_gathered l log :
    exists e, array_from_iter_keys boom drops_result O S l (log, tt) = ((fst (gathered boom drops_result O eqd ks log l pm_empty), tt), e) /\
      match snd (gathered boom drops_result O eqd ks log l pm_empty) with
      | Some (Seen m) => exists a : amap, e = Ended a /\ arr_list a = map m ks
      | Some (Caught w) => e = Unwinds w
      | None => e = Aborts
      end.
  Proof.
    destruct (array_new_rep (V := V) HO He HS) as (a0 & E0 & R0).
    pose (rep := fun (a : amap) m => arr_list a = map m ks).
    assert (G : gather_ok boom drops_result O eqd ks (fun a : amap => stored (arr_list a)) (OrdinalArrayMap_insert_act O (S := S)) rep l log a0 pm_empty).
    { apply gather_all; [| | |exact R0].
      - intros k v w a m R Ek. exists a. split; [|exact R].
        unfold OrdinalArrayMap_insert_act, OrdinalTotalArrayMap_get_mut, abind, look. now rewrite (key_bad Ek).
      - intros k v a m R Ek. exact (array_insert_ended HO eqd He v R (key_good HP HO Ek)).
      - intros a m R. unfold rep in R. rewrite R. apply stored_entries. }
    destruct G as (e & E & G). exists e. split; [|exact G]. unfold array_from_iter_keys. unfold abind at 1.
    assert (X : owning boom (pair_things l) (look (fun _ => OrdinalArrayMap_new (V := V) O S)) (log, tt) = ((log, tt), Ended a0)).
    { apply owning_ended. unfold look. now rewrite (array_new_same HP), E0. }
    rewrite X. exact E.
  Qed.
End Maps.

(** ** Owning iterators *)
Section Owned.
  Context {cfg : Config} {K V : Type} (boom : list (K + V) -> K + V -> option panic).
  Notation things := (list (K + V)).
  Lemma key_walk_lost A (keep : A -> option V) (O : Ordinal K) d log lag p a l w : key_for O (p - lag) = ResErr w ->
    owned_key_walk boom keep O d log lag ((p, a) :: l) =
    ((fst (@lost (K + V) boom (option (K * V)) w log (values_in (keep a))), (match d with Front => lag + 1 | Back => lag end, l)),
     snd (@lost (K + V) boom (option (K * V)) w log (values_in (keep a)))).
  Proof. intros E. cbn [owned_key_walk]. rewrite E, all_lost_is. destruct (lost _ _ _ _); reflexivity. Qed.
  Lemma popped_values (a : option V) : map inr (stored [a]) = values_in (K := K) a.
  Proof. destruct a; reflexivity. Qed.

  Notation walk := (owned_key_walk boom (fun o : option V => o)).
  Lemma key_sparse_front (O : Ordinal K) (HA : answers_all O) items : forall fuel log nx lag p, (length items < fuel)%nat ->
    nx + lag = N.of_nat p -> nx + llen items <= usize_max ->
    let '((log', s'), x) := walk O Front log lag (at_pos p items) in
    exists it', owned_key_loop boom O Front fuel (log, {| e_next := nx; e_items := items |}) = ((log', it'), ends_as x) /\ follows_items it' s'.
  Proof.
    induction items as [|a items IH]; intros fuel log nx lag p Hf Hp Hu; (destruct fuel as [|fuel]; [cbn in Hf; lia|]);
      cbn [owned_key_loop]; unfold abind at 1.
    - rewrite owned_empty. eexists. split; [reflexivity|]. exists p. cbn. auto.
    - unfold llen in Hu. cbn [length] in Hu, Hf. rewrite owned_front by (assumption || lia). unfold step_end.
      change (at_pos p (a :: items)) with ((N.of_nat p, a) :: at_pos (S p) items).
      assert (Ep : N.of_nat p - lag = nx) by lia. destruct (key_for O nx) as [k|w] eqn:Ek.
      + cbn [owned_key_walk]. rewrite Ep, Ek. destruct a as [v|].
        * eexists. split; [reflexivity|]. exists (S p). cbn [fst snd e_next e_items]. unfold llen. repeat split; lia.
        * unfold abind. rewrite destroy_is. destruct (boom log (inl k)).
          -- eexists. split; [reflexivity|]. exists (S p). cbn [fst snd e_next e_items]. unfold llen. repeat split; lia.
          -- apply IH; unfold llen; lia.
      + rewrite key_walk_lost with (w := w) by (rewrite Ep; exact Ek). rewrite popped_values.
        rewrite (ends_lost boom (option (K * V)) (option (K * option V))), (lost_same boom (option (K * V)) (option (K * option V))), lost_end.
        eexists. split; [destruct (snd (destroyed_all boom (Some w) log (values_in a))); reflexivity|].
        exists (S p). cbn [fst snd e_next e_items]. unfold llen. repeat split; lia.
  Qed.
  Lemma key_sparse_back (O : Ordinal K) (HA : answers_all O) items : forall fuel log nx lag p, (length items < fuel)%nat ->
    nx + lag = N.of_nat p -> nx + llen items <= usize_max ->
    let '((log', (lag', l')), x) := walk O Back log lag (rev (at_pos p items)) in
    exists it', owned_key_loop boom O Back fuel (log, {| e_next := nx; e_items := items |}) = ((log', it'), ends_as x) /\
      follows_items it' (lag', rev l').
  Proof.
    induction items as [|a items IH] using rev_ind; intros fuel log nx lag p Hf Hp Hu; (destruct fuel as [|fuel]; [cbn in Hf; lia|]);
      cbn [owned_key_loop]; unfold abind at 1.
    - rewrite owned_empty. eexists. split; [reflexivity|]. exists p. cbn. auto.
    - unfold llen in Hu. rewrite app_length in Hu, Hf. cbn [length] in Hu, Hf. rewrite owned_back by (assumption || (unfold llen; lia)). unfold step_end.
      rewrite at_pos_snoc, rev_app_distr. cbn [rev app].
      assert (Ep : N.of_nat (p + length items) - lag = nx + llen items) by (unfold llen; lia). destruct (key_for O (nx + llen items)) as [k|w] eqn:Ek.
      + cbn [owned_key_walk]. rewrite Ep, Ek. destruct a as [v|].
        * eexists. split; [reflexivity|]. exists p. cbn [fst snd e_next e_items]. rewrite rev_involutive. unfold llen. repeat split; lia.
        * unfold abind. rewrite destroy_is. destruct (boom log (inl k)).
          -- eexists. split; [reflexivity|]. exists p. cbn [fst snd e_next e_items]. rewrite rev_involutive. unfold llen. repeat split; lia.
          -- apply IH; unfold llen; lia.
      + rewrite key_walk_lost with (w := w) by (rewrite Ep; exact Ek). rewrite popped_values.
        rewrite (ends_lost boom (option (K * V)) (option (K * option V))), (lost_same boom (option (K * V)) (option (K * option V))), lost_end.
        eexists. split; [destruct (snd (destroyed_all boom (Some w) log (values_in a))); reflexivity|].
        exists p. cbn [fst snd e_next e_items]. rewrite rev_involutive. unfold llen. repeat split; lia.
  Qed.
  Lemma sparse_keys_follows (c : Ordinal K * dir) : answers_all (fst c) ->
    follows (fun c => owned_key_next boom (fst c) (snd c)) (fun c => owned_key_spec boom (fun o : option V => o) (fst c) (snd c)) (follows_items (A := option V)) c.
  Proof.
    destruct c as [O d]. cbn [fst snd]. intros HA log [nx items] [lag l] (p & E & Hp & Hu). cbn [fst snd e_next e_items] in *. subst l.
    unfold owned_key_next, owned_key_spec. cbn [fst snd e_items]. destruct d.
    - pose proof (key_sparse_front HA (fuel := Datatypes.S (length items)) log (nx := nx) (lag := lag) (p := p) (items := items)) as X.
      destruct (walk O Front log lag (at_pos p items)) as [[log' s'] x].
      destruct X as (it' & E & R); [lia|lia|lia|]. exists it'. cbn [fst snd]. split; [exact E|auto].
    - pose proof (key_sparse_back HA (fuel := Datatypes.S (length items)) log (nx := nx) (lag := lag) (p := p) (items := items)) as X.
      destruct (walk O Back log lag (rev (at_pos p items))) as [[log' [lag' l']] x].
      destruct X as (it' & E & R); [lia|lia|lia|]. exists it'. cbn [fst snd]. split; [exact E|auto].
  Qed.
  Lemma total_keys_follows (c : Ordinal K * dir) : answers_all (fst c) ->
    follows (fun c => total_key_next boom (fst c) (snd c)) (fun c => owned_key_spec boom (@Some V) (fst c) (snd c)) (follows_items (A := V)) c.
  Proof.
    destruct c as [O d]. cbn [fst snd]. intros HA log [nx items] [lag l] (p & E & Hp & Hu). cbn [fst snd e_next e_items] in *. subst l.
    unfold total_key_next, owned_key_spec. unfold llen in Hu. destruct d.
    - destruct items as [|a items]; cbn [length] in Hu.
      + rewrite owned_empty. eexists. split; [reflexivity|]. intros _. exists p. cbn. auto.
      + rewrite owned_front by (assumption || lia). unfold step_end.
        change (at_pos p (a :: items)) with ((N.of_nat p, a) :: at_pos (S p) items).
        assert (Ep : N.of_nat p - lag = nx) by lia. destruct (key_for O nx) as [k|w] eqn:Ek.
        * cbn [owned_key_walk]. rewrite Ep, Ek. eexists. split; [reflexivity|]. intros _. exists (S p). cbn [fst snd e_next e_items]. unfold llen. repeat split; lia.
        * rewrite key_walk_lost with (w := w) by (rewrite Ep; exact Ek). cbn [fst snd].
          eexists. split; [reflexivity|]. intros _. exists (S p). cbn [fst snd e_next e_items]. unfold llen. repeat split; lia.
    - destruct items as [|a items _] using rev_ind; rewrite ?app_length in Hu; cbn [length] in Hu.
      + rewrite owned_empty. eexists. split; [reflexivity|]. intros _. exists p. cbn. auto.
      + rewrite owned_back by (assumption || (unfold llen; lia)). unfold step_end. rewrite at_pos_snoc, rev_app_distr. cbn [rev app].
        assert (Ep : N.of_nat (p + length items) - lag = nx + llen items) by (unfold llen; lia). destruct (key_for O (nx + llen items)) as [k|w] eqn:Ek.
        * cbn [owned_key_walk]. rewrite Ep, Ek. eexists. split; [reflexivity|]. intros _. exists p. cbn [fst snd e_next e_items].
          rewrite rev_involutive. unfold llen. repeat split; lia.
        * rewrite key_walk_lost with (w := w) by (rewrite Ep; exact Ek). cbn [fst snd].
          eexists. split; [reflexivity|]. intros _. exists p. cbn [fst snd e_next e_items]. rewrite rev_involutive. unfold llen. repeat split; lia.
  Qed.
End Owned.
