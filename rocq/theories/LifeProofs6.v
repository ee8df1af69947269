(** * LifeProofs6: lemmas for C110. *)
From Verif Require Import Base Spec SpecIter SpecMap SpecTotal SpecCatch SpecResume SpecDrop SpecLifeRun SpecLifeEnds ModelOrdinal ModelValues ModelArrayBuilder
  ModelIter ModelTotal ModelMap ModelResume ModelUnwind ModelDrop MapMachine TotalMachine ModelCatch ModelLife
  OrdinalProofs BaseProofs IterLib ValuesProofs IterProofs MapIterProofs MapLib ArrayProofs MapMutProofs MapProofs MapProofs2 MapProofs5 TotalProofs TotalProofs3 ResumeProofs UnwindProofs2 DropProofs
  CatchProofs CatchProofs2 LedgerProofs2 LifeProofs4 LifeProofs5.
From Coq Require Import List. Import ListNotations.
Set Implicit Arguments. Unset Strict Implicit.

(** ** Destructors *)
Section Lost.
  Context {V M : Type} (boom : list V -> V -> option panic).
  Definition panic_end {A B} (w : panic) (x : option (seen B)) : ending A := match x with Some _ => Unwinds w | None => Aborts end.
  Lemma destroyed_app p vs ws : forall log,
    destroyed_all boom p log (vs ++ ws) = match destroyed_all boom p log vs with
      | (log', Some p') => destroyed_all boom p' log' ws
      | (log', None) => (log', None)
      end.
  Proof.
    revert p. induction vs as [|v vs IH]; intros p log; cbn [app destroyed_all]; [reflexivity|].
    destruct (boom log v), p; auto.
  Qed.
  Lemma lost_end A w vs log : snd (@lost V boom A w log vs) = match snd (destroyed_all boom (Some w) log vs) with Some _ => Some (Caught w) | None => None end.
  Proof. unfold lost. destruct (destroyed_all boom (Some w) log vs) as [l [|]]; reflexivity. Qed.
  Lemma lost_log A w vs log : fst (@lost V boom A w log vs) = fst (destroyed_all boom (Some w) log vs).
  Proof. unfold lost. destruct (destroyed_all boom (Some w) log vs) as [l [|]]; reflexivity. Qed.
  Lemma still w vs log (m : M) : snd (destroyed_all boom (Some w) log vs) = Some (Some w) \/ snd (destroyed_all boom (Some w) log vs) = None.
  Proof.
    destruct (@glue_unwinding_is V M boom w vs log m) as [_ Q]. destruct (snd _); [left|right; reflexivity]. now apply Q.
  Qed.
  Lemma lost_is A w vs log (m : M) :
    (glue_unwinding boom vs ;;! fun s => (s, @Unwinds A w)) (log, m) = ((fst (@lost V boom A w log vs), m), ends_as (snd (@lost V boom A w log vs))).
  Proof.
    unfold abind. destruct (@glue_unwinding_is V M boom w vs log m) as [-> _]. rewrite lost_log, lost_end.
    destruct (snd _); reflexivity.
  Qed.
  Lemma owning_lost A vs w (x : act (list V * M) A) log m log' m' : x (log, m) = ((log', m'), Unwinds w) ->
    owning boom vs x (log, m) = ((fst (@lost V boom A w log' vs), m'), ends_as (snd (@lost V boom A w log' vs))).
  Proof. intros E. unfold owning. rewrite E. apply lost_is. Qed.
  (** A scope inside a scope. *)
  Lemma owning_twice A vs ws w (x : act (list V * M) A) log m log' m' :
    x (log, m) = ((fst (@lost V boom A w log' vs), m'), ends_as (snd (@lost V boom A w log' vs))) ->
    owning boom ws x (log, m) = ((fst (@lost V boom A w log' (vs ++ ws)), m'), ends_as (snd (@lost V boom A w log' (vs ++ ws)))).
  Proof.
    intros E. rewrite lost_end, lost_log, destroyed_app. rewrite lost_end, lost_log in E. destruct (@still w vs log' m') as [Q|Q]; rewrite Q in E;
      destruct (destroyed_all boom (Some w) log' vs) as [l1 x1]; cbn [fst snd] in *; subst x1.
    - rewrite (owning_lost ws E), lost_end, lost_log. reflexivity.
    - unfold owning. rewrite E. reflexivity.
  Qed.
End Lost.

(** ** Collecting *)
Section Collect.
  Context {V : Type} (boom : list V -> V -> option panic).
  Context {K : Type} (O : Ordinal K) (eqd : forall a b : K, {a = b} + {a <> b}) (ks : list K).
  Context {M : Type} (values : M -> list V) (insert : K -> V -> act M (option V)) (rep : M -> pmap K V -> Prop).
  Context (Hpanic : forall k v w m s, rep m s -> key_panic O (Some k) = Some w -> exists m', insert k v m = (m', Unwinds w) /\ rep m' s).
  Context (Hend : forall k v m s, rep m s -> key_panic O (Some k) = None -> exists m', insert k v m = (m', Ended (s k)) /\ rep m' (pm_set eqd s k (Some v))).
  Context (Hval : forall m s, rep m s -> values m = map snd (pm_entries ks s)).

  Definition collect_ok (l : list (K * V)) (log : list V) (m : M) (s : pmap K V) : Prop :=
    exists e, (let '((log', m'), e) := from_iter_loop_life boom insert l (log, m) in
       match e with
       | Ended _ => ((log', tt), Ended m')
       | Unwinds w => (glue_unwinding boom (values m') ;;! fun s => (s, Unwinds w)) (log', tt)
       | Aborts => ((log', tt), Aborts)
       | Stuck => ((log', tt), Stuck)
       end) = ((fst (collected boom O eqd ks log l s), tt), e) /\
      match snd (collected boom O eqd ks log l s) with
      | Some (Seen s') => exists m', e = Ended m' /\ rep m' s'
      | Some (Caught w) => e = Unwinds w
      | None => e = Aborts
      end.
  Lemma finish A (x : act (list V * M) A) (y : A -> act (list V * M) unit) log m m' s w log1 vs : rep m' s ->
    x (log, m) = ((fst (@lost V boom A w log1 vs), m'), ends_as (snd (@lost V boom A w log1 vs))) ->
    (let '((log', m'), e) := abind x y (log, m) in
     match e with
       | Ended _ => ((log', tt), Ended m')
       | Unwinds w => (glue_unwinding boom (values m') ;;! fun s => (s, Unwinds w)) (log', tt)
       | Aborts => ((log', tt), Aborts)
       | Stuck => ((log', tt), Stuck)
     end) = ((fst (destroyed_all boom (Some w) log1 (vs ++ map snd (pm_entries ks s))), tt),
      match snd (destroyed_all boom (Some w) log1 (vs ++ map snd (pm_entries ks s))) with Some _ => Unwinds w | None => Aborts end).
  Proof.
    intros R E. unfold abind at 1. rewrite E, <- (Hval R). rewrite lost_end, lost_log in *.
    destruct (@still V unit boom w vs log1 tt) as [Q|Q]; rewrite Q; cbn [ends_as].
    - rewrite destroyed_app.
      rewrite lost_is, lost_log, lost_end.
      destruct (destroyed_all boom (Some w) log1 vs) as [l1 x1]; cbn [fst snd] in *; subst x1. destruct (snd _); reflexivity.
    - rewrite destroyed_app. destruct (destroyed_all boom (Some w) log1 vs) as [l1 x1]; cbn [fst snd] in *; subst x1. reflexivity.
  Qed.

  Lemma collect_all l : forall log m s, rep m s -> collect_ok l log m s.
  Proof.
    induction l as [|[k v] l IH]; intros log m s R; unfold collect_ok; cbn [from_iter_loop_life collected].
    - eexists. split; [reflexivity|]. cbn [snd]. eauto.
    - destruct (key_panic O (Some k)) as [w|] eqn:Ek.
      + destruct (Hpanic v R Ek) as (m' & E & R'). rewrite lost_log, lost_end. eexists. split.
        * change (v :: map snd l ++ map snd (pm_entries ks s)) with (([v] ++ map snd l) ++ map snd (pm_entries ks s)).
          eapply finish; [exact R'|]. apply owning_twice. unfold abind at 1.
          rewrite (@owning_lost V M boom _ [v] w (calm (insert k v)) log m log m' (calm_is log E)).
          rewrite !lost_log, !lost_end. destruct (snd (destroyed_all boom (Some w) log [v])); reflexivity.
        * destruct (snd _); reflexivity.
      + destruct (Hend v R Ek) as (m' & E & R').
        assert (X : owning boom [v] (calm (insert k v)) (log, m) = ((log, m'), Ended (s k))) by (apply owning_ended; now apply calm_is).
        destruct (s k) as [old|] eqn:Es.
        * destruct (boom log old) as [w|] eqn:Eb.
          -- rewrite lost_log, lost_end. eexists. split.
             ++ eapply finish; [exact R'|].
                change (map snd l) with ([] ++ map snd l). apply owning_twice. unfold abind. rewrite X, destroy_is, Eb. reflexivity.
             ++ destruct (snd _); reflexivity.
          -- specialize (IH (log ++ [old]) m' _ R'). unfold collect_ok in IH. unfold abind at 1.
             erewrite owning_ended; [exact IH|]. unfold abind. rewrite X, destroy_is, Eb. reflexivity.
        * specialize (IH log m' _ R'). unfold collect_ok in IH. unfold abind at 1.
          erewrite owning_ended; [exact IH|]. unfold abind. rewrite X. reflexivity.
  Qed.
End Collect.

Section Maps.
  Context {cfg : Config} {K V : Type} (boom : list V -> V -> option panic) (O O0 : Ordinal K) (HP : panicking_version O O0).
  Context (n : N) (HO : ordinal_bijection O0 n) (eqd : forall a b : K, {a = b} + {a <> b}) (ks : list K) (He : enumeration O0 ks).

  Lemma key_bad k w : key_panic O (Some k) = Some w -> ordinal O k = Panic w.
  Proof. cbn. destruct (ordinal O k); congruence. Qed.
  Lemma key_good k : key_panic O (Some k) = None -> ordinal O k = ordinal O0 k.
  Proof.
    destruct (key_panic_cases HP HO (Some k)) as [(k' & w & _ & _ & E)|[H _]]; [congruence|]. intros _. now apply H.
  Qed.
  Lemma heap_values (st : @OrdinalMap V) m : heap_rep O0 n ks st m -> stored st = map snd (pm_entries ks m).
  Proof. intros (ks' & -> & Hc & H3). now rewrite stored_entries, (rep_entries Hc H3). Qed.
  Lemma heap_collect l log (st : @OrdinalMap V) m : heap_rep O0 n ks st m ->
    collect_ok boom O eqd ks stored (OrdinalMap_insert_act O) (heap_rep O0 n ks) l log st m.
  Proof.
    apply collect_all; [| |exact heap_values].
    - intros k v w st1 m1 R Ek. destruct (@heap_caught _ _ _ _ _ HP _ HO eqd _ He (OpInsert k v) k w st1 m1 eq_refl R eq_refl (key_bad Ek)) as (st2 & E & R2).
      exists st2. split; [|exact R2]. cbn [heap_act] in E. unfold abind at 1 in E.
      destruct (OrdinalMap_insert_act O k v st1) as [st3 e3]. destruct e3; cbn in E; try discriminate E. now injection E as <- <-.
    - intros k v st1 m1 R Ek. destruct (@heap_ended _ _ _ _ _ HO eqd _ He (OpInsert k v) st1 m1 eq_refl R) as (st2 & E & R2).
      exists st2. split; [|exact R2]. cbn [heap_act spec_step fst] in E. unfold abind at 1 in E.
      replace (OrdinalMap_insert_act O k v st1) with (OrdinalMap_insert_act O0 k v st1).
      + destruct (OrdinalMap_insert_act O0 k v st1) as [st3 e3]. destruct e3; cbn in E; try discriminate E. injection E as -> ->. reflexivity.
      + pose proof (version_init (V := V) HP) as Hi. unfold OrdinalMap_insert_act, OrdinalMap_init_full_map_act, abind, look.
        rewrite (key_good Ek). destruct HP as (-> & _). reflexivity.
  Qed.
  Lemma heap_collected l log :
    exists e, heap_from_iter_life boom O l (log, tt) = ((fst (collected boom O eqd ks log l pm_empty), tt), e) /\
      match snd (collected boom O eqd ks log l pm_empty) with
      | Some (Seen m) => exists st, e = Ended st /\ heap_rep O0 n ks st m
      | Some (Caught w) => e = Unwinds w
      | None => e = Aborts
      end.
  Proof. exact (@heap_collect l log OrdinalMap_new pm_empty (heap_new_rep O0 n ks)). Qed.

  Context (S : nat) (HS : N.of_nat S = n).
  Local Notation amap := (@OrdinalArrayMap V S).
  Lemma array_values (a : amap) m : array_rep ks a m -> stored (arr_list a) = map snd (pm_entries ks m).
  Proof. unfold array_rep. intros ->. apply stored_entries. Qed.
  Lemma array_collect l log (a : amap) m : array_rep ks a m ->
    collect_ok boom O eqd ks (fun a => stored (arr_list a)) (OrdinalArrayMap_insert_act O (S := S)) (array_rep ks (S := S)) l log a m.
  Proof.
    apply collect_all; [| |exact array_values].
    - intros k v w st1 m1 R Ek. destruct (@array_caught _ _ _ _ _ HP _ HO eqd _ He S (OpInsert k v) k w st1 m1 R eq_refl (key_bad Ek)) as (st2 & E & R2).
      exists st2. split; [|exact R2]. cbn [array_act] in E. unfold abind at 1 in E.
      destruct (OrdinalArrayMap_insert_act O k v st1) as [st3 e3]. destruct e3; cbn in E; try discriminate E. now injection E as <- <-.
    - intros k v st1 m1 R Ek. destruct (@array_ended _ _ _ _ _ HO eqd _ He S (OpInsert k v) st1 m1 R) as (st2 & E & R2).
      exists st2. split; [|exact R2]. cbn [array_act spec_step fst] in E. unfold abind at 1 in E.
      replace (OrdinalArrayMap_insert_act O k v st1) with (OrdinalArrayMap_insert_act O0 k v st1).
      + destruct (OrdinalArrayMap_insert_act O0 k v st1) as [st3 e3]. destruct e3; cbn in E; try discriminate E. injection E as -> ->. reflexivity.
      + unfold OrdinalArrayMap_insert_act, abind, look, OrdinalTotalArrayMap_get_mut. rewrite (key_good Ek). reflexivity.
  Qed.
  Lemma array_new_same : OrdinalArrayMap_new (V := V) O S = OrdinalArrayMap_new O0 S.
  Proof.
    destruct HP as (Hs & Hf & _). clear HP HO He. destruct O as [s1 o1 f1], O0 as [s2 o2 f2]. cbn in *. subst. reflexivity.
  Qed.
  Lemma array_collected l log :
    exists e, array_from_iter_life boom O S l (log, tt) = ((fst (collected boom O eqd ks log l pm_empty), tt), e) /\
      match snd (collected boom O eqd ks log l pm_empty) with
      | Some (Seen m) => exists a, e = Ended a /\ array_rep ks a m
      | Some (Caught w) => e = Unwinds w
      | None => e = Aborts
      end.
  Proof.
    destruct (array_new_rep (V := V) HO He HS) as (a0 & E0 & R0). destruct (array_collect l log R0) as (e & E & H).
    exists e. split; [|exact H]. unfold array_from_iter_life. unfold abind at 1.
    assert (X : owning boom (map snd l) (look (fun _ => OrdinalArrayMap_new (V := V) O S)) (log, tt) = ((log, tt), Ended a0)).
    { apply owning_ended. unfold look. now rewrite array_new_same, E0. }
    rewrite X. exact E.
  Qed.
End Maps.

(** ** try_new *)
Section Make.
  Context {cfg : Config} {V : Type} (boom : list V -> V -> option panic).
  Context {K : Type} (O : Ordinal K) (n : N) (HO : ordinal_bijection O n) (ks : list K) (He : enumeration O ks).
  Context {E St : Type} (init : St -> K -> St * seen (result V E)).

  Lemma htotal_made_all l : forall fuel acc it log st, yields (values_next O) it l -> (length l < fuel)%nat ->
    htotal_try_new_loop_life boom O (as_code init) fuel acc it (log, st) =
    (fst (made_map boom init log st acc l), ends_as (snd (made_map boom init log st acc l))).
  Proof.
    induction l as [|k l IH]; intros fuel acc it log st Hy Hf; inversion Hy as [? it' E1|? it' ? ? E1 Hy']; subst;
      (destruct fuel as [|fuel]; [cbn in Hf; lia|]); cbn [htotal_try_new_loop_life]; rewrite E1; [reflexivity|].
    cbn [made_map]. unfold as_code at 1. destruct (init st k) as [st' r]. destruct r as [[v|e]|w].
    - apply IH; [exact Hy'|cbn in Hf; lia].
    - unfold abind. rewrite glue_is. destruct (destroyed_all boom None log acc) as [log' x]. cbn [fst snd].
      destruct x as [[w|]|]; reflexivity.
    - rewrite lost_is. unfold lost. destruct (destroyed_all boom (Some w) log acc) as [log' [x|]]; reflexivity.
  Qed.
  Lemma htotal_new log st : htotal_try_new_life boom O (as_code init) (log, st) =
    (fst (made_map boom init log st [] ks), ends_as (snd (made_map boom init log st [] ks))).
  Proof.
    unfold htotal_try_new_life, abind, look. destruct (values_start HO He) as (it & -> & Hr & Hl). cbn [ending_of].
    apply htotal_made_all; [now apply (values_yield (n := n))|]. rewrite Hl. unfold llen. lia.
  Qed.

  Context (S : nat) (HS : N.of_nat S = n).
  Definition as_list (e : ending (result (OrdinalTotalArrayMap S V) E)) : ending (result (list V) E) :=
    match e with
    | Ended (ResOk a) => Ended (ResOk (arr_list a)) | Ended (ResErr x) => Ended (ResErr x)
    | Unwinds w => Unwinds w | Aborts => Aborts | Stuck => Stuck
    end.
  Lemma builder_cells_are vs : forall (pre post : list (option V)) log,
    (let '(log', _, r) := builder_drop_loop_with (destructor boom) (pre ++ map Some vs ++ post) (length vs) (length pre) log in (log', r)) =
    (fst (fst (destroyed_until boom log (map (pair tt) vs))),
     match snd (destroyed_until boom log (map (pair tt) vs)) with None => Val tt | Some w => Panic w end).
  Proof.
    induction vs as [|v vs IH]; intros pre post log; cbn [length builder_drop_loop_with map app destroyed_until]; [reflexivity|].
    rewrite nth_mid, list_set_mid. unfold destructor at 1. destruct (boom log v) as [w|]; [reflexivity|].
    replace (pre ++ None :: map Some vs ++ post) with ((pre ++ [None]) ++ map Some vs ++ post) by now rewrite <- app_assoc.
    replace (Datatypes.S (length pre)) with (length (pre ++ [@None V])) by (rewrite app_length; cbn; lia). apply IH.
  Qed.
  Lemma builder_is {M} vs log (m : M) : builder_life boom (builder_of S vs) (log, m) =
    ((fst (fst (destroyed_until boom log (map (pair tt) vs))), m),
     match snd (destroyed_until boom log (map (pair tt) vs)) with None => Ended tt | Some w => Unwinds w end).
  Proof.
    unfold builder_life, builder_drop_with, builder_of. cbn [b_cells b_filled].
    pose proof (@builder_cells_are vs [] (repeat None (S - length vs)) log) as X. cbn [app length] in X.
    destruct (builder_drop_loop_with _ _ _ _ _) as [[log1 cells] r]. injection X as -> ->. destruct (snd _); reflexivity.
  Qed.
  Lemma atotal_made_all l : forall fuel acc it log st, yields (values_next O) it l -> (length acc + length l = S)%nat -> (length l < fuel)%nat ->
    exists e, fill_life boom O S (as_code init) fuel (builder_of S acc) it (log, st) = (fst (made_array boom init log st acc l), e) /\
      as_list e = ends_as (snd (made_array boom init log st acc l)).
  Proof.
    induction l as [|k l IH]; intros fuel acc it log st Hy Hl Hf; inversion Hy as [? it' E1|? it' ? ? E1 Hy']; subst it;
      (destruct fuel as [|fuel]; [cbn in Hf; lia|]); cbn [fill_life]; rewrite E1.
    - cbn [length] in Hl. rewrite Nat.add_0_r in Hl.
      replace (b_filled (builder_of S acc)) with S by (symmetry; exact Hl). rewrite Nat.eqb_refl. cbn [negb].
      assert (X : all_init (b_cells (builder_of S acc)) = Some acc).
      { unfold builder_of. cbn [b_cells]. rewrite Hl, Nat.sub_diag. cbn [repeat]. rewrite app_nil_r. apply all_init_map. }
      rewrite X. destruct (try_arr_ok acc Hl) as (a & -> & Ha). eexists. split; [reflexivity|]. cbn. now rewrite Ha.
    - cbn [made_array]. unfold as_code at 1. destruct (init st k) as [st' r]. cbn [length] in Hl, Hf. destruct r as [[v|e]|w].
      + rewrite push_ok by lia. apply IH; [exact Hy'|rewrite app_length; cbn; lia|lia].
      + unfold abind. rewrite builder_is. destruct (destroyed_until boom log (map (pair tt) acc)) as [[log' rest] p]. cbn [fst snd].
        destruct p as [w|]; eexists; split; reflexivity.
      + unfold unwinding. rewrite builder_is. destruct (destroyed_until boom log (map (pair tt) acc)) as [[log' rest] p]. cbn [fst snd].
        destruct p as [w1|]; eexists; split; reflexivity.
  Qed.
  Lemma atotal_new log st :
    exists e, atotal_try_new_life boom O S (as_code init) (log, st) = (fst (made_array boom init log st [] ks), e) /\
      as_list e = ends_as (snd (made_array boom init log st [] ks)).
  Proof.
    unfold atotal_try_new_life, abind, look. rewrite (assert_ok HO HS). cbn [ending_of].
    destruct (values_start HO He) as (it & -> & Hr & Hl). cbn [ending_of]. rewrite builder_new_of.
    pose proof (ks_len HO He) as Hk. unfold llen in Hk. apply atotal_made_all; [now apply (values_yield (n := n))|cbn; lia|lia].
  Qed.
End Make.
