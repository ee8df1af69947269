(** * KeyEndsProofs2: lemmas for C114, total maps and whole lives. *)
From Verif Require Import Base Spec SpecIter SpecMap SpecTotal SpecCatch SpecResume SpecLifeRun SpecLifeEnds SpecKeyLife SpecKeyEnds ModelOrdinal ModelValues ModelArrayBuilder
  ModelIter ModelTotal ModelMap ModelResume MapMachine TotalMachine ModelCatch ModelLife ModelKeyLife ModelKeyEnds
  OrdinalProofs BaseProofs IterLib IterProofs MapIterProofs MapLib ArrayProofs MapMutProofs MapProofs MapProofs2 MapProofs5 TotalProofs TotalProofs3 ResumeProofs UnwindProofs2
  CatchProofs CatchProofs2 LifeProofs4 LifeProofs5 LifeProofs6 LifeProofs7 KeyLifeProofs KeyLifeProofs2 KeyLifeProofs3 KeyLifeProofs4 KeyLifeProofs5 KeyEndsProofs.
From Coq Require Import List. Import ListNotations.
Set Implicit Arguments. Unset Strict Implicit.

(** ** Total maps *)
Section Total.
  Context {cfg : Config} {K V : Type} (boom : list (K + V) -> K + V -> option panic) (drops_result : bool).
  Context (O O0 : Ordinal K) (HP : panicking_version O O0).
  Context (n : N) (HO : ordinal_bijection O0 n).
  Context (eqd : forall a b : K, {a = b} + {a <> b}).
  Context (ks : list K) (He : enumeration O0 ks).
  Implicit Types log : list (K + V).
  Notation step := (total_key_life_step boom drops_result eqd ks O).

  Lemma debug_loop fuel : forall l log it x, pending O0 n it l -> (length l < fuel)%nat ->
    exists it', each boom (calm (enumerate_act O0 Front)) (fun (x : list (K * V)) k v => Val (x ++ [(k, v)])) fuel x (log, it) =
      ((fst (stops_at boom log (map (fun p => inl (fst p)) l)), it'),
       match snd (stops_at boom log (map (fun p => inl (fst p)) l)) with None => Ended (x ++ l) | Some w => Unwinds w end).
  Proof.
    induction fuel as [|fuel IH]; intros l log it x H Hf; [lia|]. cbn [each]. unfold abind at 1, calm.
    destruct (enumerate_act_ok HO Front H) as (it' & E & H'). rewrite E. destruct l as [|[k v] l]; cbn [deque_step fst snd map stops_at] in *.
    - exists it'. now rewrite app_nil_r.
    - unfold abind, owning, look. cbn [ending_of]. rewrite destroy_is. destruct (boom log (inl k)) as [w|]; [exists it'; reflexivity|].
      assert (Hf' : (length l < fuel)%nat) by (cbn in Hf; lia).
      destruct (IH l (log ++ [inl k]) it' (x ++ [(k, v)]) H' Hf') as (it2 & E2). exists it2. rewrite <- app_assoc in E2. exact E2.
  Qed.
  Lemma same_act A d (it : enumerate A) : enumerate_act O d it = enumerate_act O0 d it.
  Proof.
    destruct HP as (_ & Hf & _). unfold enumerate_act, pure_from. now rewrite Hf.
  Qed.
  Lemma debug_case M (cells : M -> list V) log a (m : K -> V) : cells a = map m ks ->
    total_debug_keys boom O cells (log, a) =
      ((fst (stops_at boom log (map inl ks)), a), match snd (stops_at boom log (map inl ks)) with None => Ended (TOList (tm_entries ks m)) | Some w => Unwinds w end).
  Proof.
    intros Ec. unfold total_debug_keys, locally. rewrite Ec, map_length. unfold abind at 1.
    assert (Es : forall fuel x s, each boom (calm (enumerate_act O Front)) (fun (x : list (K * V)) k v => Val (x ++ [(k, v)])) fuel x s =
      each boom (calm (enumerate_act O0 Front)) (fun (x : list (K * V)) k v => Val (x ++ [(k, v)])) fuel x s).
    { induction fuel as [|fuel IH]; intros x [lg it]; [reflexivity|]. cbn [each]. unfold abind, calm. rewrite same_act.
      destruct (enumerate_act O0 Front it) as [it' [[[k v]|]|w| |]]; try reflexivity. unfold owning, look. cbn [ending_of].
      rewrite destroy_is. destruct (boom lg (inl k)); [reflexivity|]. apply IH. }
    destruct (@debug_loop (S (length ks)) (tm_entries ks m) log (enumerate_new (map m ks) 0) [] (pending_values m (ks_slots HO He))) as (it' & E).
    { unfold tm_entries. rewrite map_length. lia. }
    assert (Em : map (fun p : K * V => inl (fst p)) (tm_entries ks m) = map inl ks :> list (K + V)).
    { unfold tm_entries. rewrite map_map. reflexivity. }
    rewrite Em in E. rewrite Es.
    match goal with |- context [each ?a ?b ?c ?d ?e ?f] => set (z := each a b c d e f) end.
    match type of E with _ = ?r => assert (Ez : z = r) by exact E end. rewrite Ez. clear z Ez. destruct (stops_at boom log (map inl ks)) as [log' [w|]]; reflexivity.
  Qed.
  Lemma insert_panic_case M (x : act M V) k v w log a : x a = (a, Unwinds w) ->
    total_insert_keys boom drops_result x k v (log, a) =
      let '(log', e) := @all_lost K V boom (total_out K V) w log [inr v; inl k] in ((log', a), ends_as e).
  Proof. intros E. unfold total_insert_keys. now rewrite (caught_then boom _ _ log E). Qed.
  Lemma insert_case M (x : act M V) k v old log a a' : x a = (a', Ended old) ->
    total_insert_keys boom drops_result x k v (log, a) =
      match boom log (inl k) with
      | None => ((log ++ [inl k], a'), Ended (TOValue old))
      | Some w => let '(log', e) := @all_lost K V boom (total_out K V) w (log ++ [inl k]) (if drops_result then [inr old] else []) in ((log', a'), ends_as e)
      end.
  Proof. intros E. unfold total_insert_keys. rewrite (ended_then boom _ _ log E), destroy_then. reflexivity. Qed.

  Lemma htotal_keys_follows op : follows (htotal_keys boom drops_result O) step (fun (l : @OrdinalTotalMap V) m => l = map m ks) op.
  Proof.
    intros log l m ->. unfold total_key_life_step. destruct (key_panic_cases HP HO (total_key op)) as [(k & w & Ek & Ew & ->)|[Hs ->]].
    - destruct (htotal_good (V := V) O op) as (_ & P & L).
      destruct (proj1 (P (map m ks) w) (htotal_panics _ Ek Ew)) as (st' & E). pose proof (L _ _ _ E) as R. symmetry in R. clear P L. subst st'.
      destruct op; cbn [total_key] in Ek; try discriminate Ek; injection Ek as ->; cbn [htotal_keys];
        try (eexists; split; [apply calm_is; exact E|reflexivity]).
      rewrite (@insert_panic_case _ (OrdinalTotalMap_insert_act O k v) k v w log (map m ks)).
      + destruct (all_lost boom w log [inr v; inl k]) as [log' x]. eexists. split; [reflexivity|]. reflexivity.
      + unfold OrdinalTotalMap_insert_act, abind, look. now rewrite Ew.
    - assert (E : htotal_act O op (map m ks) = (map (snd (total_step eqd ks op m)) ks, Ended (fst (total_step eqd ks op m)))).
      { apply (htotal_good O op). rewrite (htotal_same HP _ Hs). exact (htotal_step_ok HO He eqd op m). }
      destruct op; cbn [htotal_keys];
        try (destruct (total_step eqd ks _ m) as [o m']; cbn [fst snd ends_as] in *;
          eexists; split; [apply calm_is; exact E|reflexivity]).
      + cbn [total_step fst snd] in *.
        rewrite (@insert_case _ (OrdinalTotalMap_insert_act O k v) k v (m k) log (map m ks) (map (tm_set eqd m k v) ks)).
        * destruct (boom log (inl k)) as [w|]; [|eexists; split; reflexivity].
          destruct (all_lost boom w _ _) as [log' x]. eexists. split; reflexivity.
        * cbn [htotal_act] in E. unfold abind at 1 in E. destruct (OrdinalTotalMap_insert_act O k v (map m ks)) as [s2 e2].
          destruct e2; cbn in E; try discriminate E. injection E as E1 E2. subst. reflexivity.
      + cbn [total_step] in *. unfold assign_life. unfold calm, abind, look, put, ret. cbn [htotal_step ending_of].
        cbn [htotal_act fst snd] in E. unfold replaces, abind, look, put, ret in E. cbn in E. injection E as E.
        rewrite glue_is. destruct (destroyed_all boom None log (map inr (map m ks))) as [log' x]. cbn [fst snd] in *.
        eexists. split; [destruct x as [[]|]; reflexivity|]. intros _. exact E.
      + cbn [total_step]. pose proof (@debug_case (list V) (fun m => m) log (map m ks) m eq_refl) as X. unfold OrdinalTotalMap in *. rewrite X.
        destruct (stops_at boom log (map inl ks)) as [log' [w|]]; eexists; split; reflexivity.
  Qed.
  Lemma atotal_keys_follows S op : follows (atotal_keys boom drops_result O (S := S)) step (fun a m => arr_list a = map m ks) op.
  Proof.
    intros log a m H. unfold total_key_life_step. destruct (key_panic_cases HP HO (total_key op)) as [(k & w & Ek & Ew & ->)|[Hs ->]].
    - destruct (atotal_good (V := V) O S op) as (_ & P & L).
      destruct (proj1 (P a w) (atotal_panics a Ek Ew)) as (st' & E). pose proof (L _ _ _ E) as R. subst st'. clear P L.
      destruct op; cbn [total_key] in Ek; try discriminate Ek; injection Ek as ->; cbn [atotal_keys];
        try (eexists; split; [apply calm_is; exact E|intros _; exact H]).
      rewrite (@insert_panic_case _ (OrdinalTotalArrayMap_insert_act O k v) k v w log a).
      + destruct (all_lost boom w log [inr v; inl k]) as [log' x]. eexists. split; [reflexivity|]. intros _. exact H.
      + unfold OrdinalTotalArrayMap_insert_act, abind, look. now rewrite Ew.
    - destruct (atotal_step_ok HO He eqd op H) as (a' & E & H'). rewrite <- (atotal_same HP _ Hs) in E. apply (proj1 (atotal_good (V := V) O S op)) in E.
      destruct op; cbn [atotal_keys];
        try (destruct (total_step eqd ks _ m) as [o m']; cbn [fst snd ends_as] in *;
          eexists; split; [apply calm_is; exact E|intros _; exact H']).
      + cbn [total_step fst snd] in *.
        rewrite (@insert_case _ (OrdinalTotalArrayMap_insert_act O k v) k v (m k) log a a').
        * destruct (boom log (inl k)) as [w|]; [|eexists; split; [reflexivity|intros _; exact H']].
          destruct (all_lost boom w _ _) as [log' x]. eexists. split; [reflexivity|intros _; exact H'].
        * cbn [atotal_act] in E. unfold abind at 1 in E. destruct (OrdinalTotalArrayMap_insert_act O k v a) as [s2 e2].
          destruct e2; cbn in E; try discriminate E. injection E as E1 E2. subst. reflexivity.
      + cbn [total_step] in *. unfold assign_life. unfold calm, abind, look, put, ret. cbn [atotal_step ending_of].
        cbn [atotal_act fst snd] in E. unfold replaces, abind, look, put, ret in E. cbn in E. injection E as E.
        rewrite glue_is, H. destruct (destroyed_all boom None log (map inr (map m ks))) as [log' x]. cbn [fst snd] in *.
        eexists. split; [destruct x as [[]|]; reflexivity|]. intros _. rewrite E. exact H'.
      + cbn [total_step]. pose proof (@debug_case (arr V S) (fun a => arr_list a) log a m H) as X. unfold OrdinalTotalArrayMap in *. rewrite X.
        destruct (stops_at boom log (map inl ks)) as [log' [w|]]; (eexists; split; [reflexivity|]); intros _; exact H.
  Qed.
End Total.

(** ** Statements *)
Section Statements.
  Context {cfg : Config} {K V : Type} (boom : list (K + V) -> K + V -> option panic) (drops_result : bool).
  Context (O : Ordinal K) (n : N) (HO : ordinal_bijection O n).
  Context (eqd : forall a b : K, {a = b} + {a <> b}) (ks : list K) (He : enumeration O ks).

  Lemma htotal_keys_exact (ops : list (Ordinal K * total_op K V)) (log0 : list (K + V)) (m0 : K -> V) : Forall (fun p => panicking_version (fst p) O) ops ->
    match life_run (fun p => total_key_life_step boom drops_result eqd ks (fst p) (snd p)) ops (log0, m0) with
    | Some (outs, (log, m)) =>
        catch_run (fun p => htotal_keys boom drops_result (fst p) (snd p)) ops (log0, map m0 ks) = Some (outs, (log, map m ks))
    | None => exists ops1 p ops2 outs s, ops = ops1 ++ p :: ops2 /\
        catch_run (fun p => htotal_keys boom drops_result (fst p) (snd p)) ops1 (log0, map m0 ks) = Some (outs, s) /\
        snd (htotal_keys boom drops_result (fst p) (snd p) s) = Aborts
    end.
  Proof.
    intros H. pose proof (@follows_run _ _ _ _ _ (fun p : Ordinal K * total_op K V => htotal_keys boom drops_result (fst p) (snd p))
      (fun p => total_key_life_step boom drops_result eqd ks (fst p) (snd p)) (fun l m => l = map m ks) (fun p => panicking_version (fst p) O)) as F.
    specialize (F ltac:(intros [O1 op] H1; exact (htotal_keys_follows boom drops_result H1 HO eqd He op)) ops H log0 (map m0 ks) m0 eq_refl).
    destruct (life_run _ ops _) as [[outs [log m]]|]; [|exact F]. now destruct F as (st & E & ->).
  Qed.
  Lemma atotal_keys_exact S (ops : list (Ordinal K * total_op K V)) (log0 : list (K + V)) (m0 : K -> V) (a0 : OrdinalTotalArrayMap S V) : arr_list a0 = map m0 ks ->
    Forall (fun p => panicking_version (fst p) O) ops ->
    match life_run (fun p => total_key_life_step boom drops_result eqd ks (fst p) (snd p)) ops (log0, m0) with
    | Some (outs, (log, m)) => exists a,
        catch_run (fun p => atotal_keys boom drops_result (fst p) (S := S) (snd p)) ops (log0, a0) = Some (outs, (log, a)) /\ arr_list a = map m ks
    | None => exists ops1 p ops2 outs s, ops = ops1 ++ p :: ops2 /\
        catch_run (fun p => atotal_keys boom drops_result (fst p) (S := S) (snd p)) ops1 (log0, a0) = Some (outs, s) /\
        snd (atotal_keys boom drops_result (fst p) (S := S) (snd p) s) = Aborts
    end.
  Proof.
    intros H0 H. pose proof (@follows_run _ _ _ _ _ (fun p : Ordinal K * total_op K V => atotal_keys boom drops_result (fst p) (S := S) (snd p))
      (fun p => total_key_life_step boom drops_result eqd ks (fst p) (snd p)) (fun a m => arr_list a = map m ks) (fun p => panicking_version (fst p) O)) as F.
    specialize (F ltac:(intros [O1 op] H1; exact (atotal_keys_follows boom drops_result H1 HO eqd He op)) ops H log0 a0 m0 H0).
    destruct (life_run _ ops _) as [[outs [log m]]|]; [|exact F]. exact F.
  Qed.

  Lemma heap_gathers O1 (l : list (K * V)) log : panicking_version O1 O ->
    let '(log', x) := gathered boom drops_result O1 eqd ks log l pm_empty in
    exists e, heap_from_iter_keys boom drops_result O1 l (log, tt) = ((log', tt), e) /\
      match x with
      | Some (Seen m) => exists st, e = Ended st /\ OrdinalMap_debug O st = Val (pm_entries ks m) /\ forall k, OrdinalMap_get O st k = Val (m k)
      | Some (Caught w) => e = Unwinds w
      | None => e = Aborts
      end.
  Proof.
    intros H1. destruct (heap_gathered boom drops_result H1 HO eqd He l log) as (e & E & H).
    destruct (gathered boom drops_result O1 eqd ks log l pm_empty) as [log' x]. exists e. split; [exact E|]. cbn [snd] in H.
    destruct x as [[m|w]|]; [|exact H|exact H]. destruct H as (st & -> & R). exists st. split; [reflexivity|].
    destruct R as (-> & R). cbn [fst snd] in *. assert (Hr : heap_rep O n ks (map m (slots_after ks l)) m) by (exists (slots_after ks l); auto).
    split; [exact (heap_rep_iter (same_version O) HO eqd He Hr)|]. intros k. exact (heap_get_ok HO He k Hr).
  Qed.
  Lemma array_gathers S O1 (l : list (K * V)) log : N.of_nat S = n -> panicking_version O1 O ->
    let '(log', x) := gathered boom drops_result O1 eqd ks log l pm_empty in
    exists e, array_from_iter_keys boom drops_result O1 S l (log, tt) = ((log', tt), e) /\
      match x with
      | Some (Seen m) => exists a, e = Ended a /\ OrdinalArrayMap_debug O a = Val (pm_entries ks m) /\ forall k, OrdinalArrayMap_get O a k = Val (m k)
      | Some (Caught w) => e = Unwinds w
      | None => e = Aborts
      end.
  Proof.
    intros HS H1. destruct (array_gathered boom drops_result H1 HO eqd He HS l log) as (e & E & H).
    destruct (gathered boom drops_result O1 eqd ks log l pm_empty) as [log' x]. exists e. split; [exact E|]. cbn [snd] in H.
    destruct x as [[m|w]|]; [|exact H|exact H]. destruct H as (a & -> & R). exists a. split; [reflexivity|].
    split; [|intros k; exact (array_get_ok HO He k R)].
    pose proof (array_step_ok HO eqd He OpDebug R) as (a' & E' & _). cbn [array_step spec_step fst snd] in E'.
    destruct (OrdinalArrayMap_debug O a); cbn in E'; congruence.
  Qed.
End Statements.

Section Iterators.
  Context {cfg : Config} {K V : Type} (boom : list (K + V) -> K + V -> option panic).

  Definition code_end {A} (x : option (seen A)) : ending A :=
    match x with Some (Seen o) => Ended o | Some (Caught w) => Unwinds w | None => Aborts end.
  Lemma rest_is A (keep : A -> option V) log (l : list (N * A)) :
    glue boom (map inr (stored (map keep (map snd l)))) (log, tt) =
      ((fst (rest_destroyed boom keep log l), tt), code_end (snd (rest_destroyed boom keep log l))).
  Proof.
    rewrite glue_is. unfold rest_destroyed.
    assert (E : map inr (stored (map keep (map snd l))) = flat_map (fun x : N * A => values_in (K := K) (keep (snd x))) l).
    { induction l as [|[p a] l IH]; [reflexivity|]. cbn [map snd flat_map]. rewrite <- IH. destruct (keep a); reflexivity. }
    rewrite E. destruct (destroyed_all boom None log _) as [log' [[w|]|]]; reflexivity.
  Qed.
  Lemma stored_some (l : list V) : stored (map Some l) = l.
  Proof. induction l as [|v l IH]; [reflexivity|]. cbn. now rewrite IH. Qed.

  Definition taken_apart {A} (next : Ordinal K -> dir -> act (list (K + V) * enumerate A) (option (K * V))) (things : list A -> list (K + V))
      (keep : A -> option V) : Prop :=
    forall (calls : list (Ordinal K * dir)) (log : list (K + V)) (items : list A),
    Forall (fun c => answers_all (fst c)) calls -> llen items <= usize_max ->
    match life_run (fun c => owned_key_spec boom keep (fst c) (snd c)) calls (log, (0, positions items)) with
    | Some (got, (log1, (_, rest))) =>
        let '(log2, x) := rest_destroyed boom keep log1 rest in
        exists it, catch_run (fun c => next (fst c) (snd c)) calls (log, enumerate_new items 0) = Some (got, (log1, it)) /\
          glue boom (things (e_items it)) (log1, tt) = ((log2, tt), code_end x)
    | None => exists calls1 c calls2 got s, calls = calls1 ++ c :: calls2 /\
        catch_run (fun c => next (fst c) (snd c)) calls1 (log, enumerate_new items 0) = Some (got, s) /\
        snd (next (fst c) (snd c) s) = Aborts
    end.
  Lemma sparse_apart : taken_apart (owned_key_next boom) (fun l => map inr (stored l)) (fun o => o).
  Proof.
    intros calls log items HA Hl. pose proof (follows_run (sparse_keys_follows boom) HA log (items_start Hl)) as F.
    destruct (life_run _ calls _) as [[got [log1 [lag rest]]]|]; [|exact F]. destruct F as (it & E & R).
    pose proof (rest_is (fun o => o) log1 rest) as X. rewrite map_id in X. destruct (rest_destroyed _ _ log1 rest) as [log2 x].
    exists it. split; [exact E|]. rewrite (items_left R). exact X.
  Qed.
  Lemma total_apart : taken_apart (total_key_next boom) (map inr) (@Some V).
  Proof.
    intros calls log items HA Hl. pose proof (follows_run (total_keys_follows boom) HA log (items_start Hl)) as F.
    destruct (life_run _ calls _) as [[got [log1 [lag rest]]]|]; [|exact F]. destruct F as (it & E & R).
    pose proof (rest_is (@Some V) log1 rest) as X. rewrite stored_some in X. destruct (rest_destroyed _ _ log1 rest) as [log2 x].
    exists it. split; [exact E|]. rewrite (items_left R). exact X.
  Qed.
  Lemma both_apart (calls : list (Ordinal K * dir)) : Forall (fun c => answers_all (fst c)) calls ->
    (forall (log : list (K + V)) (items : list (option V)), llen items <= usize_max ->
     match life_run (fun c => owned_key_spec boom (fun o : option V => o) (fst c) (snd c)) calls (log, (0, positions items)) with
     | Some (got, (log1, (_, rest))) =>
         let '(log2, x) := rest_destroyed boom (fun o : option V => o) log1 rest in
         exists it, catch_run (fun c => owned_key_next boom (fst c) (snd c)) calls (log, enumerate_new items 0) = Some (got, (log1, it)) /\
           glue boom (map inr (stored (e_items it))) (log1, tt) = ((log2, tt), code_end x)
     | None => exists calls1 c calls2 got s, calls = calls1 ++ c :: calls2 /\
         catch_run (fun c => owned_key_next boom (fst c) (snd c)) calls1 (log, enumerate_new items 0) = Some (got, s) /\
         snd (owned_key_next boom (fst c) (snd c) s) = Aborts
     end) /\
    (forall (log : list (K + V)) (items : list V), llen items <= usize_max ->
     match life_run (fun c => owned_key_spec boom (@Some V) (fst c) (snd c)) calls (log, (0, positions items)) with
     | Some (got, (log1, (_, rest))) =>
         let '(log2, x) := rest_destroyed boom (@Some V) log1 rest in
         exists it, catch_run (fun c => total_key_next boom (fst c) (snd c)) calls (log, enumerate_new items 0) = Some (got, (log1, it)) /\
           glue boom (map inr (e_items it)) (log1, tt) = ((log2, tt), code_end x)
     | None => exists calls1 c calls2 got s, calls = calls1 ++ c :: calls2 /\
         catch_run (fun c => total_key_next boom (fst c) (snd c)) calls1 (log, enumerate_new items 0) = Some (got, s) /\
         snd (total_key_next boom (fst c) (snd c) s) = Aborts
     end).
  Proof.
    intros H. split; intros log items Hl; [exact (sparse_apart log H Hl)|exact (total_apart log H Hl)].
  Qed.
End Iterators.

Section Lives.
  Context {cfg : Config} {K V : Type} (boom : list (K + V) -> K + V -> option panic) (drops_result : bool).
  Context (O : Ordinal K) (n : N) (HO : ordinal_bijection O n).
  Context (eqd : forall a b : K, {a = b} + {a <> b}) (ks : list K) (He : enumeration O ks).

  Lemma heap_key_life O1 (l : list (K * V)) log0 m0 (ops : list (Ordinal K * map_op K V)) outs log1 ks1 m1 (cs : list (Ordinal K * dir)) got log2 lag rest log3 x :
    panicking_version O1 O ->
    Forall (fun p => panicking_version (fst p) O /\ heap_op (snd p) = true) ops ->
    Forall (fun c => answers_all (fst c)) cs ->
    gathered boom drops_result O1 eqd ks [] l pm_empty = (log0, Some (Seen m0)) ->
    life_run (fun p => key_life_step boom drops_result eqd ks (fst p) (snd p)) ops (log0, (match l with [] => [] | _ => ks end, m0)) = Some (outs, (log1, (ks1, m1))) ->
    life_run (fun c => owned_key_spec boom (fun o : option V => o) (fst c) (snd c)) cs (log1, (0, positions (map m1 ks1))) = Some (got, (log2, (lag, rest))) ->
    rest_destroyed boom (fun o => o) log2 rest = (log3, x) ->
    exists st0 st1 it, heap_from_iter_keys boom drops_result O1 l ([], tt) = ((log0, tt), Ended st0) /\
      catch_run (fun p => heap_keys boom drops_result (fst p) (snd p)) ops (log0, st0) = Some (outs, (log1, st1)) /\
      catch_run (fun c => owned_key_next boom (fst c) (snd c)) cs (log1, OrdinalMap_into_iter st1) = Some (got, (log2, it)) /\
      glue boom (map inr (stored (e_items it))) (log2, tt) = ((log3, tt), code_end x).
  Proof.
    intros H1 Ho Hc E0 E1 E2 E3. destruct (heap_gathered boom drops_result H1 HO eqd He l []) as (e & Ec & H). rewrite E0 in *. cbn [fst snd] in *.
    destruct H as (st0 & -> & R0). exists st0.
    pose proof (@follows_run _ _ _ _ _ (fun p : Ordinal K * map_op K V => heap_keys boom drops_result (fst p) (snd p))
      (fun p => key_life_step boom drops_result eqd ks (fst p) (snd p)) (slots_rep O n ks) (fun p => panicking_version (fst p) O /\ heap_op (snd p) = true)) as F.
    specialize (F ltac:(intros [O2 op] [H2 H3]; exact (heap_keys_follows boom drops_result H2 HO eqd He H3)) ops Ho log0 st0 (slots_after ks l, m0) R0).
    unfold slots_after in F. rewrite E1 in F. destruct F as (st1 & Er & R1). exists st1.
    destruct R1 as (Es & Hcov & H3). cbn [fst snd] in *.
    assert (Hl : llen (map m1 ks1) <= usize_max).
    { pose proof (bij_fits HO) as Hb. destruct (ks_slots HO He) as [_ Hlen]. unfold llen in *. rewrite map_length. destruct H3 as [->| ->]; cbn [length]; lia. }
    pose proof (sparse_apart boom log1 Hc Hl) as X. rewrite E2, E3 in X. destruct X as (it & X1 & X2). exists it.
    split; [exact Ec|]. split; [exact Er|]. split; [|exact X2]. rewrite Es. exact X1.
  Qed.

  Lemma array_key_life S O1 (l : list (K * V)) log0 m0 (ops : list (Ordinal K * map_op K V)) outs log1 ks1 m1 (cs : list (Ordinal K * dir)) got log2 lag rest log3 x :
    N.of_nat S = n -> panicking_version O1 O ->
    Forall (fun p => panicking_version (fst p) O) ops ->
    Forall (fun c => answers_all (fst c)) cs ->
    gathered boom drops_result O1 eqd ks [] l pm_empty = (log0, Some (Seen m0)) ->
    life_run (fun p => key_life_step boom drops_result eqd ks (fst p) (snd p)) ops (log0, (ks, m0)) = Some (outs, (log1, (ks1, m1))) ->
    life_run (fun c => owned_key_spec boom (fun o : option V => o) (fst c) (snd c)) cs (log1, (0, positions (map m1 ks))) = Some (got, (log2, (lag, rest))) ->
    rest_destroyed boom (fun o => o) log2 rest = (log3, x) ->
    exists a0 a1 it, array_from_iter_keys boom drops_result O1 S l ([], tt) = ((log0, tt), Ended a0) /\
      catch_run (fun p => array_keys boom drops_result (fst p) (S := S) (snd p)) ops (log0, a0) = Some (outs, (log1, a1)) /\
      catch_run (fun c => owned_key_next boom (fst c) (snd c)) cs (log1, OrdinalArrayMap_into_iter a1) = Some (got, (log2, it)) /\
      glue boom (map inr (stored (e_items it))) (log2, tt) = ((log3, tt), code_end x).
  Proof.
    intros HS H1 Ho Hc E0 E1 E2 E3. destruct (array_gathered boom drops_result H1 HO eqd He HS l []) as (e & Ec & H). rewrite E0 in *. cbn [fst snd] in *.
    destruct H as (a0 & -> & R0). exists a0.
    pose proof (@follows_run _ _ _ _ _ (fun p : Ordinal K * map_op K V => array_keys boom drops_result (fst p) (S := S) (snd p))
      (fun p => key_life_step boom drops_result eqd ks (fst p) (snd p)) (@cells_rep _ _ ks S) (fun p => panicking_version (fst p) O)) as F.
    specialize (F ltac:(intros [O2 op] H2; exact (array_keys_follows boom drops_result H2 HO eqd He op)) ops Ho log0 a0 (ks, m0) (conj R0 eq_refl)).
    rewrite E1 in F. destruct F as (a1 & Er & R1). exists a1.
    destruct R1 as (Es & _). cbn [fst snd] in *.
    assert (Hl : llen (map m1 ks) <= usize_max).
    { pose proof (bij_fits HO) as Hb. destruct (ks_slots HO He) as [_ Hlen]. unfold llen in *. rewrite map_length. lia. }
    pose proof (sparse_apart boom log1 Hc Hl) as X. rewrite E2, E3 in X. destruct X as (it & X1 & X2). exists it.
    split; [exact Ec|]. split; [exact Er|]. split; [|exact X2]. unfold OrdinalArrayMap_into_iter, OrdinalTotalArrayMap_into_iter. unfold OrdinalArrayMap in *. rewrite Es. exact X1.
  Qed.
End Lives.
