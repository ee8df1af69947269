(** * CloneProofs: Clone with effects (ModelClone.v). *)
From Verif Require Import Base Spec SpecMap SpecTotal SpecIter SpecApi SpecMem SpecDrop SpecClone ModelOrdinal ModelValues
  ModelArrayBuilder ModelIter ModelTotal ModelMap ModelClone MapMachine TotalMachine BaseProofs IterLib ValuesProofs IterProofs MapLib
  MapIterProofs MapMutProofs MapProofs ArrayProofs TotalProofs MapProofs2 MapProofs3 MapProofs4 MapProofs5 TotalProofs2 TotalProofs3.
From Coq Require Import List. Import ListNotations.
Set Implicit Arguments. Unset Strict Implicit.

Section Slice.
  Context {V St : Type} (cl : St -> V -> St * res V) (drop : St -> V -> St * res unit).
  Hypothesis Hcl : forall st v, safe (snd (cl st v)).
  Hypothesis Hdrop : forall st v, safe (snd (drop st v)).

  (** Elements with a value to clone or without. [get]: [Some] or the identity. *)
  Definition same_shape (a b : option V) : Prop := match a, b with Some _, Some _ => True | None, None => True | _, _ => False end.

  Lemma loop_opt : forall items st, exists st1 made r, clones cl st (somes items) st1 made r /\
    exists items', clone_loop (opt_cl cl) items st = (st1, items', r) /\ somes items' = made /\
      match r with Val _ => Forall2 same_shape items items' | Panic _ => True | _ => False end.
  Proof.
    induction items as [|[v|] items IH]; intros st.
    - exists st, [], (Val tt). split; [constructor|]. exists []. cbn. auto.
    - cbn [clone_loop opt_cl]. pose proof (Hcl st v) as S. destruct (cl st v) as [st1 r] eqn:E. cbn in S.
      destruct r as [y|w| | |]; try contradiction; cbn [bind].
      + destruct (IH st1) as (st2 & made & r & C & items' & E1 & E2 & E3). rewrite E1.
        exists st2, (y :: made), r. split. { change (somes (Some v :: items)) with (v :: somes items). econstructor; eauto. }
        exists (Some y :: items'). split; [reflexivity|]. split. { change (somes (Some y :: items')) with (y :: somes items'). congruence. }
        destruct r; solve [auto | constructor; cbn; auto].
      + exists st1, [], (Panic w). split. { change (somes (Some v :: items)) with (v :: somes items). now constructor. }
        exists []. auto.
    - cbn [clone_loop opt_cl]. destruct (IH st) as (st2 & made & r & C & items' & E1 & E2 & E3). rewrite E1.
      exists st2, made, r. split; [exact C|]. exists (None :: items'). split; [reflexivity|]. split; [exact E2|].
      destruct r; solve [auto | constructor; cbn; auto].
  Qed.
  Lemma loop_all : forall items st, exists st1 made r, clones cl st items st1 made r /\
    clone_loop cl items st = (st1, made, r) /\
      match r with Val _ => length made = length items | Panic _ => True | _ => False end.
  Proof.
    induction items as [|v items IH]; intros st.
    - exists st, [], (Val tt). split; [constructor|]. cbn. auto.
    - cbn [clone_loop]. pose proof (Hcl st v) as S. destruct (cl st v) as [st1 r] eqn:E. cbn in S.
      destruct r as [y|w| | |]; try contradiction.
      + destruct (IH st1) as (st2 & made & r & C & E1 & E3). rewrite E1.
        exists st2, (y :: made), r. split; [econstructor; eauto|]. split; [reflexivity|]. destruct r; cbn; auto.
      + exists st1, [], (Panic w). split; [now constructor|]. auto.
  Qed.

  Lemma unwind_all : forall l w st, exists st' left r', drops drop st l st' left r' /\
    unwind_drop drop l w st = (st', match r' with Val _ => Unwound w | _ => Aborted end).
  Proof.
    induction l as [|x l IH]; intros w st; cbn [unwind_drop].
    - exists st, [], (Val tt). split; [constructor|reflexivity].
    - pose proof (Hdrop st x) as S. destruct (drop st x) as [st1 r] eqn:E. cbn in S.
      destruct r as [[]|w'| | |]; try contradiction.
      + destruct (IH w st1) as (st' & left & r' & D & E1). exists st', left, r'. split; [econstructor; eauto|exact E1].
      + exists st1, l, (Panic w'). split; [|reflexivity]. apply drops_fail; auto. intros a. discriminate.
  Qed.
  Lemma unwind_opt : forall l w st, exists st' left r', drops drop st (somes l) st' left r' /\
    unwind_drop (opt_drop drop) l w st = (st', match r' with Val _ => Unwound w | _ => Aborted end).
  Proof.
    induction l as [|[x|] l IH]; intros w st; cbn [unwind_drop opt_drop].
    - exists st, [], (Val tt). split; [constructor|reflexivity].
    - change (somes (Some x :: l)) with (x :: somes l).
      pose proof (Hdrop st x) as S. destruct (drop st x) as [st1 r] eqn:E. cbn in S.
      destruct r as [[]|w'| | |]; try contradiction.
      + destruct (IH w st1) as (st' & left & r' & D & E1). exists st', left, r'. split; [econstructor; eauto|exact E1].
      + exists st1, (somes l), (Panic w'). split; [|reflexivity]. apply drops_fail; auto. intros a. discriminate.
    - exact (IH w st).
  Qed.

  Lemma slice_opt : forall items st, exists st1 made r, clones cl st (somes items) st1 made r /\
    match r with
    | Val _ => exists items', clone_slice (opt_cl cl) (opt_drop drop) items st = (st1, Cloned items') /\
        somes items' = made /\ Forall2 same_shape items items'
    | Panic w => exists st' left r', drops drop st1 made st' left r' /\
        clone_slice (opt_cl cl) (opt_drop drop) items st = (st', match r' with Val _ => Unwound w | _ => Aborted end)
    | _ => False
    end.
  Proof.
    intros items st. destruct (loop_opt items st) as (st1 & made & r & C & items' & E1 & E2 & E3).
    exists st1, made, r. split; [exact C|]. unfold clone_slice. rewrite E1.
    destruct r as [[]|w| | |]; try contradiction.
    - exists items'. auto.
    - rewrite <- E2. exact (unwind_opt items' w st1).
  Qed.
  Lemma slice_all : forall items st, exists st1 made r, clones cl st items st1 made r /\
    match r with
    | Val _ => clone_slice cl drop items st = (st1, Cloned made) /\ length made = length items
    | Panic w => exists st' left r', drops drop st1 made st' left r' /\
        clone_slice cl drop items st = (st', match r' with Val _ => Unwound w | _ => Aborted end)
    | _ => False
    end.
  Proof.
    intros items st. destruct (loop_all items st) as (st1 & made & r & C & E1 & E3).
    exists st1, made, r. split; [exact C|]. unfold clone_slice. rewrite E1.
    destruct r as [[]|w| | |]; try contradiction.
    - auto.
    - exact (unwind_all made w st1).
  Qed.
End Slice.

(** ** Entries *)
Lemma shape_length : forall V (a b : list (option V)), Forall2 same_shape a b -> length a = length b.
Proof. induction 1; cbn; congruence. Qed.
Lemma fm_shape : forall K V (ks : list K) (a b : list (option V)), Forall2 same_shape a b -> length ks = length a ->
  fm (fun o => o) (combine ks b) = combine (map fst (fm (fun o : option V => o) (combine ks a))) (somes b).
Proof.
  intros K V. induction ks as [|k ks IH]; intros a b H L; [reflexivity|].
  destruct H as [|x y a b Hxy H]; [discriminate|]. cbn [combine]. unfold fm. cbn [flat_map fst snd].
  specialize (IH a b H ltac:(cbn in L; congruence)). unfold fm in IH. rewrite IH.
  destruct x, y; try contradiction; reflexivity.
Qed.
Lemma fm_snd : forall K V (l : list (K * option V)), map snd (fm (fun o => o) l) = somes (map snd l).
Proof.
  induction l as [|[k [v|]] l IH]; [reflexivity| |]; unfold fm in *; cbn [map flat_map fst snd]; unfold somes in *; cbn [flat_map];
    rewrite ?map_app; cbn; congruence.
Qed.
Lemma combine_fst_snd : forall A B (l : list (A * B)), combine (map fst l) (map snd l) = l.
Proof. induction l as [|[a b] l IH]; cbn; congruence. Qed.
Lemma map_fst_combine : forall A B (l : list A) (l' : list B), length l = length l' -> map fst (combine l l') = l.
Proof. induction l; destruct l'; cbn; intros; try discriminate; f_equal; auto. Qed.
Lemma map_snd_combine : forall A B (l : list A) (l' : list B), length l = length l' -> map snd (combine l l') = l'.
Proof. induction l; destruct l'; cbn; intros; try discriminate; f_equal; auto. Qed.

Section Maps.
  Context {cfg : Config} {K V : Type} {O : Ordinal K} {n : N}.
  Hypothesis HO : ordinal_bijection O n.
  Context {St : Type} (cl : St -> V -> St * res V) (drop : St -> V -> St * res unit).
  Hypothesis Hcl : forall st v, safe (snd (cl st v)).
  Hypothesis Hdrop : forall st v, safe (snd (drop st v)).
  Let eqd := key_eq_dec HO.

  Lemma slots_fun A ks (l : list A) : enumeration O ks -> length l = length ks -> exists f, l = map f ks.
  Proof. intros He L. exact (list_fun eqd (proj1 He) (ks_NoDup HO He) L). Qed.
  Lemma graph_combine A (ks : list K) (m : K -> A) : map (fun k => (k, m k)) ks = combine ks (map m ks).
  Proof. induction ks; cbn; congruence. Qed.
  Lemma entries_combine (ks : list K) (m : pmap K V) : pm_entries ks m = fm (fun o => o) (combine ks (map m ks)).
  Proof. rewrite <- (fm_id ks m). now rewrite graph_combine. Qed.
  Lemma entries_values (ks : list K) (m : pmap K V) : map snd (pm_entries ks m) = somes (map m ks).
  Proof. rewrite entries_combine, fm_snd, map_snd_combine; [reflexivity|]. now rewrite map_length. Qed.
  Lemma entries_shape (ks : list K) (m m' : pmap K V) : Forall2 same_shape (map m ks) (map m' ks) ->
    pm_entries ks m' = combine (map fst (pm_entries ks m)) (somes (map m' ks)).
  Proof. intros H. rewrite !entries_combine. apply fm_shape; [exact H|]. now rewrite map_length. Qed.

  (** *** Any contents can be built *)
  Definition inserts (l : list (K * V)) : list (map_op K V) := map (fun kv => OpInsert (fst kv) (snd kv)) l.
  Lemma inserts_spec ks0 (m' : pmap K V) ks : forall m0 k,
    snd (spec_run eqd ks0 (inserts (pm_entries ks m')) m0) k =
    match m' k with Some v => if in_dec eqd k ks then Some v else m0 k | None => m0 k end.
  Proof.
    induction ks as [|k0 ks IH]; intros m0 k.
    - cbn. now destruct (m' k).
    - cbn [pm_entries]. unfold inserts in *. destruct (m' k0) as [v|] eqn:E0.
      + cbn [map fst snd spec_run spec_step]. specialize (IH (pm_set eqd m0 k0 (Some v)) k).
        destruct (spec_run eqd ks0 _ (pm_set eqd m0 k0 (Some v))) as [os m1]. cbn [snd] in *. rewrite IH.
        unfold pm_set. destruct (eqd k0 k) as [->|Hne].
        * rewrite E0. destruct (in_dec eqd k ks), (in_dec eqd k (k :: ks)); cbn in *; tauto.
        * destruct (m' k); [|reflexivity].
          destruct (in_dec eqd k ks), (in_dec eqd k (k0 :: ks)); cbn in *; tauto.
      + rewrite IH. destruct (m' k) as [v|] eqn:E; [|reflexivity].
        destruct (in_dec eqd k ks), (in_dec eqd k (k0 :: ks)); cbn in *; try tauto.
        destruct i; [congruence|tauto].
  Qed.
  Lemma inserts_heap l : forallb has_heap (inserts l) = true /\ forallb not_contains_key (inserts l) = true.
  Proof. split; induction l; cbn; auto. Qed.

  Lemma heap_any ks (m' : pmap K V) : enumeration O ks -> heap_reachable O (map m' ks).
  Proof.
    intros He. destruct ks as [|k0 ks1] eqn:Ek. { exists [], []. reflexivity. } rewrite <- Ek in *.
    destruct (inserts_heap (pm_entries ks m')) as [H1 H2].
    destruct (@heap_run_ok _ _ _ O n HO eqd ks He (OpEntryDrop k0 :: inserts (pm_entries ks m')) _ _ H1 H2 (heap_new_rep O n ks))
      as (st & E & (ks' & -> & [_ _] & H3)).
    pose proof (heap_size_law HO E) as L. cbn [existsb allocates orb] in L.
    destruct (enumeration_numbered HO He) as [_ Hn]. rewrite <- Hn in L. unfold llen in L. rewrite map_length in L.
    destruct H3 as [->| ->]; [|rewrite Ek in L; discriminate L].
    rewrite (map_ext _ m') in E. { eexists _, _. exact E. }
    intros k. pose proof (inserts_spec ks m' ks pm_empty k) as G. cbn [spec_run spec_step].
    transitivity (snd (spec_run eqd ks (inserts (pm_entries ks m')) pm_empty) k).
    { now destruct (spec_run eqd ks (inserts (pm_entries ks m')) pm_empty). }
    rewrite G.
    destruct (m' k); [|reflexivity]. destruct (in_dec eqd k ks) as [|Hn']; [reflexivity|]. destruct Hn'. apply He.
  Qed.
  Lemma array_any ks (m' : pmap K V) S (a : @OrdinalArrayMap V S) : enumeration O ks -> N.of_nat S = n ->
    arr_list a = map m' ks -> array_reachable O a.
  Proof.
    intros He Hn Ha. destruct (array_new_rep HO He (V := V) Hn) as (a0 & E0 & H0).
    destruct (array_run_ok HO eqd He (inserts (pm_entries ks m')) H0) as (a' & E & H).
    exists a0, (inserts (pm_entries ks m')). eexists. split; [exact E0|]. rewrite E. repeat f_equal.
    apply arr_ext. rewrite Ha. unfold array_rep in H. rewrite H. apply map_ext. intros k.
    rewrite inserts_spec. destruct (m' k); [|reflexivity]. destruct (in_dec eqd k ks) as [|Hn']; [reflexivity|]. destruct Hn'. apply He.
  Qed.

  (** *** The maps *)
  Lemma heap_copied (m : @OrdinalMap V) : heap_reachable O m -> forall l, lists_entries O (OrdinalMap_get O m) l ->
    forall st, copied cl drop st l (fun c l' => heap_reachable O c /\ lists_entries O (OrdinalMap_get O c) l')
      (OrdinalMap_clone_with cl drop m st).
  Proof.
    intros H l Hl st. destruct (heap_lists HO H Hl) as (ks & p & He & (ks' & -> & Hc & Hk) & ->).
    rewrite <- (rep_entries Hc Hk). unfold copied. rewrite entries_values.
    destruct (slice_opt Hcl Hdrop (map p ks') st) as (st1 & made & r & C & Hr). exists st1, made, r. split; [exact C|].
    unfold OrdinalMap_clone_with. destruct r as [[]|w| | |]; auto.
    destruct Hr as (items' & E & <- & F). exists items'. split; [exact E|].
    destruct Hk as [->| ->].
    - destruct (slots_fun He (l := items')) as (p' & ->). { rewrite <- (shape_length F). now rewrite map_length. }
      rewrite <- entries_shape by exact F. split; [exact (heap_any p' He)|]. exact (rep_lists HO He (full_rep HO He p')).
    - inversion F; subst. split; [exact (ex_intro _ [] (ex_intro _ [] eq_refl))|].
      pose proof (rep_lists HO He (heap_new_rep (V := V) O n ks)) as G. rewrite pm_entries_none in G by reflexivity. exact G.
  Qed.
  Lemma as_array_ok A S (l : list A) : length l = S -> exists a : arr A S, as_array (Cloned l) = Cloned a /\ arr_list a = l.
  Proof. intros L. destruct (try_arr_ok _ L) as (a & E & Ea). exists a. cbn. now rewrite E. Qed.

  Lemma array_copied S (m : @OrdinalArrayMap V S) : array_reachable O m -> forall l, lists_entries O (OrdinalArrayMap_get O m) l ->
    forall st, copied cl drop st l (fun c l' => array_reachable O c /\ lists_entries O (OrdinalArrayMap_get O c) l')
      (OrdinalArrayMap_clone_with cl drop m st).
  Proof.
    intros H l Hl st. destruct (array_lists_eq HO H Hl) as (ks & p & He & Hm & ->). unfold array_rep in Hm.
    unfold copied. rewrite entries_values. unfold OrdinalArrayMap_clone_with. rewrite Hm.
    destruct (slice_opt Hcl Hdrop (map p ks) st) as (st1 & made & r & C & Hr). exists st1, made, r. split; [exact C|].
    destruct r as [[]|w| | |]; auto.
    - destruct Hr as (items' & E & <- & F). rewrite E.
      destruct (slots_fun He (l := items')) as (p' & ->). { rewrite <- (shape_length F). now rewrite map_length. }
      destruct (@as_array_ok _ S (map p' ks)) as (a & Ea & La).
      { rewrite <- (shape_length F), <- Hm. apply arr_length. }
      exists a. rewrite Ea. split; [reflexivity|]. rewrite <- entries_shape by exact F.
      split; [|exact (array_lists HO He La)]. refine (array_any He _ La).
      destruct (ks_len HO He). unfold llen. rewrite <- (map_length p ks), <- Hm, arr_length. reflexivity.
    - destruct Hr as (st' & left & r' & D & E). exists st', left, r'. split; [exact D|]. rewrite E. now destruct r'.
  Qed.

  Lemma htotal_any ks (f : K -> V) : enumeration O ks -> htotal_reachable O (map f ks).
  Proof.
    intros He. exists Empty_set, unit, (fun st k => (st, Val (ResOk (f k)))), tt, tt, (map f ks), [], [].
    split; [|reflexivity]. rewrite (try_new_calls HO He). clear He. induction ks as [|k ks IH]; [reflexivity|].
    cbn [calls map]. now rewrite IH.
  Qed.
  Lemma htotal_copied (m : @OrdinalTotalMap V) : htotal_reachable O m -> forall l, lists_total O (OrdinalTotalMap_get O m) l ->
    forall st, copied cl drop st l (fun c l' => htotal_reachable O c /\ lists_total O (OrdinalTotalMap_get O c) l')
      (OrdinalTotalMap_clone_with cl drop m st).
  Proof.
    intros H l Hl st. destruct (htotal_entries HO H Hl) as (ks & f & He & -> & -> & _).
    unfold copied, tm_entries. rewrite !map_map. cbn [fst snd]. rewrite map_id.
    destruct (slice_all Hcl Hdrop (map f ks) st) as (st1 & made & r & C & Hr). exists st1, made, r. split; [exact C|].
    unfold OrdinalTotalMap_clone_with. destruct r as [[]|w| | |]; auto.
    destruct Hr as (E & L). exists made. split; [exact E|]. rewrite map_length in L.
    destruct (slots_fun He L) as (f' & ->). split; [exact (htotal_any f' He)|].
    rewrite <- graph_combine. exact (tlists He (hget HO f' He)).
  Qed.
  Lemma atotal_copied S (m : OrdinalTotalArrayMap S V) : atotal_reachable O m ->
    forall l, lists_total O (OrdinalTotalArrayMap_get O m) l ->
    forall st, copied cl drop st l (fun c l' => atotal_reachable O c /\ lists_total O (OrdinalTotalArrayMap_get O c) l')
      (OrdinalTotalArrayMap_clone_with cl drop m st).
  Proof.
    intros H l Hl st. destruct (atotal_entries HO H Hl) as (Hn & ks & f & He & Em & -> & _).
    unfold copied, tm_entries. rewrite !map_map. cbn [fst snd]. rewrite map_id.
    unfold OrdinalTotalArrayMap_clone_with. rewrite Em.
    destruct (slice_all Hcl Hdrop (map f ks) st) as (st1 & made & r & C & Hr). exists st1, made, r. split; [exact C|].
    destruct r as [[]|w| | |]; auto.
    - destruct Hr as (E & L). rewrite E.
      destruct (@as_array_ok _ S made) as (a & Ea & La). { rewrite L, <- Em. apply arr_length. }
      exists a. rewrite Ea. split; [reflexivity|]. rewrite map_length in L. subst made.
      destruct (slots_fun He L) as (f' & Ef). split.
      + exists a, [], []. split; [|reflexivity]. right. exists a. split; [now rewrite (bij_size HO), Hn|reflexivity].
      + rewrite Ef, <- graph_combine. exact (tlists He (aget HO He Ef)).
    - destruct Hr as (st' & left & r' & D & E). exists st', left, r'. split; [exact D|]. rewrite E. now destruct r'.
  Qed.

  (** *** The owning iterators *)
  Lemma tinto_copied (s : enumerate V) l : pending O n s l -> forall st,
    copied cl drop st l (fun c l' => pending O n c l' /\ length (e_items c) = length (e_items s))
      (enumerate_copy (clone_slice cl drop (e_items s) st) (e_next s)).
  Proof.
    intros (H1 & H2 & H3) st. unfold copied. rewrite H2.
    destruct (slice_all Hcl Hdrop (map snd l) st) as (st1 & made & r & C & Hr). exists st1, made, r. split; [exact C|].
    unfold enumerate_copy. destruct r as [[]|w| | |]; auto.
    - destruct Hr as (E & L). rewrite E. eexists. split; [reflexivity|]. cbn [e_items e_next]. split; [|exact L].
      assert (L' : length (map fst l) = length made). { rewrite L. now rewrite !map_length. }
      split; [|split]; cbn [e_items e_next].
      + now rewrite map_fst_combine.
      + now rewrite map_snd_combine.
      + unfold llen in *. rewrite combine_length, L', Nat.min_id, L, map_length. exact H3.
    - destruct Hr as (st' & left & r' & D & E). exists st', left, r'. split; [exact D|]. rewrite E. now destruct r'.
  Qed.
  Notation spend := (spending O n (fun o : option V => Val o) (fun o : option V => o)).
  Lemma into_copied (s : enumerate (option V)) l : spend s l -> forall st,
    copied cl drop st l (fun c l' => spend c l' /\ length (e_items c) = length (e_items s))
      (enumerate_copy (clone_slice (opt_cl cl) (opt_drop drop) (e_items s) st) (e_next s)).
  Proof.
    intros (l0 & (H1 & H2 & H3) & -> & _) st. unfold copied. rewrite H2, fm_snd.
    destruct (slice_opt Hcl Hdrop (map snd l0) st) as (st1 & made & r & C & Hr). exists st1, made, r. split; [exact C|].
    unfold enumerate_copy. destruct r as [[]|w| | |]; auto.
    - destruct Hr as (items' & E & <- & F). rewrite E. eexists. split; [reflexivity|]. cbn [e_items e_next].
      pose proof (shape_length F) as L. split; [|now rewrite <- L].
      assert (L' : length (map fst l0) = length items'). { rewrite <- L. now rewrite !map_length. }
      exists (combine (map fst l0) items'). split; [|split; [|reflexivity]].
      + split; [|split]; cbn [e_items e_next].
        * now rewrite map_fst_combine.
        * now rewrite map_snd_combine.
        * unfold llen in *. rewrite combine_length, L', Nat.min_id, <- L, map_length. exact H3.
      + rewrite (fm_shape F) by now rewrite !map_length. now rewrite combine_fst_snd.
    - destruct Hr as (st' & left & r' & D & E). exists st', left, r'. split; [exact D|]. rewrite E. now destruct r'.
  Qed.

  Lemma copied_weaken C st (l : list (K * V)) (P Q : C -> list (K * V) -> Prop) r :
    (forall c l, P c l -> Q c l) -> copied cl drop st l P r -> copied cl drop st l Q r.
  Proof.
    intros HPQ (st1 & made & r0 & H & G). exists st1, made, r0. split; [exact H|]. destruct r0; auto.
    destruct G as (c & E & G). exists c. auto.
  Qed.

  Lemma hint_len A (a b : enumerate A) : length (e_items a) = length (e_items b) -> enumerate_len a = enumerate_len b.
  Proof. unfold enumerate_len, llen. congruence. Qed.

  Lemma htotal_iter_copied (m : @OrdinalTotalMap V) : htotal_reachable O m -> forall l, lists_total O (OrdinalTotalMap_get O m) l ->
    double_ended (TIntoIter_step O) (OrdinalTotalMap_into_iter m) l (fun s rest => forall st,
      copied cl drop st rest (fun c l' => double_ended (TIntoIter_step O) c l' anything /\
          TIntoIter_size_hint c = TIntoIter_size_hint s) (TIntoIter_clone_with cl drop s st)).
  Proof.
    intros H l Hl. destruct (htotal_entries HO H Hl) as (ks & f & He & -> & -> & _).
    apply (enum_de HO (pending_values f (ks_slots HO He))). intros s' l' Hp st.
    refine (copied_weaken _ (tinto_copied Hp st)). intros c lc [Hc Lc]. split.
    - apply (enum_de HO Hc). now intros.
    - unfold TIntoIter_size_hint, enumerate_size_hint, llen. now rewrite Lc.
  Qed.
  Lemma atotal_iter_copied S (m : OrdinalTotalArrayMap S V) : atotal_reachable O m ->
    forall l, lists_total O (OrdinalTotalArrayMap_get O m) l ->
    double_ended (TIntoIterArray_step O) (OrdinalTotalArrayMap_into_iter m) l (fun s rest => forall st,
      copied cl drop st rest (fun c l' => double_ended (TIntoIterArray_step O) c l' anything /\
          TIntoIterArray_len c = TIntoIterArray_len s) (TIntoIterArray_clone_with cl drop s st)).
  Proof.
    intros H l Hl. destruct (atotal_entries HO H Hl) as (_ & ks & f & He & Em & -> & _).
    unfold OrdinalTotalArrayMap_into_iter. rewrite Em.
    apply (enum_de HO (pending_values f (ks_slots HO He))). intros s' l' Hp st.
    refine (copied_weaken _ (tinto_copied Hp st)). intros c lc [Hc Lc]. split.
    - apply (enum_de HO Hc). now intros.
    - exact (hint_len Lc).
  Qed.
  Lemma heap_iter_copied (m : @OrdinalMap V) : heap_reachable O m -> forall l, lists_entries O (OrdinalMap_get O m) l ->
    double_ended (IntoIter_step O) (OrdinalMap_into_iter m) l (fun s rest => forall st,
      copied cl drop st rest (fun c l' => double_ended (IntoIter_step O) c l' anything /\
          IntoIter_size_hint c = IntoIter_size_hint s) (IntoIter_clone_with cl drop s st)).
  Proof.
    intros H l Hl. destruct (heap_lists HO H Hl) as (ks & p & He & (ks' & -> & Hc & Hk) & ->).
    rewrite <- (rep_entries Hc Hk).
    apply (double_ended_from (IntoIter_refines HO) (iter_init p (proj1 Hc))). intros s' l' Hp st.
    refine (copied_weaken _ (into_copied Hp st)). intros c lc [Hcc Lc]. split.
    - apply (double_ended_from (IntoIter_refines HO) Hcc). now intros.
    - unfold IntoIter_size_hint, TIntoIter_len. now rewrite (hint_len Lc).
  Qed.
  Lemma array_iter_copied S (m : @OrdinalArrayMap V S) : array_reachable O m ->
    forall l, lists_entries O (OrdinalArrayMap_get O m) l ->
    double_ended (IntoIterArray_step O) (OrdinalArrayMap_into_iter m) l (fun s rest => forall st,
      copied cl drop st rest (fun c l' => double_ended (IntoIterArray_step O) c l' anything)
        (IntoIterArray_clone_with cl drop s st)).
  Proof.
    intros H l Hl. destruct (array_lists_eq HO H Hl) as (ks & p & He & Hm & ->). unfold array_rep in Hm.
    unfold OrdinalArrayMap_into_iter, OrdinalTotalArrayMap_into_iter. rewrite Hm.
    apply (double_ended_from (IntoIterArray_refines HO) (iter_init p (ks_slots HO He))). intros s' l' Hp st.
    refine (copied_weaken _ (into_copied Hp st)). intros c lc [Hcc Lc].
    apply (double_ended_from (IntoIterArray_refines HO) Hcc). now intros.
  Qed.
End Maps.

(** *** Clone without effects *)
Section Pure.
  Context {V St : Type} (f : V -> V) (drop : St -> V -> St * res unit) (st : St).
  Definition pure_clone (st : St) (v : V) : St * res V := (st, Val (f v)).
  Lemma slice_pure (l : list V) : clone_slice pure_clone drop l st = (st, Cloned (map f l)).
  Proof.
    assert (E : clone_loop pure_clone l st = (st, map f l, Val tt)).
    { induction l as [|v l IH]; [reflexivity|]. cbn [clone_loop pure_clone]. now rewrite IH. }
    unfold clone_slice. now rewrite E.
  Qed.
  Lemma slots_pure (l : list (option V)) : clone_slice (opt_cl pure_clone) (opt_drop drop) l st = (st, Cloned (map (opt_map f) l)).
  Proof.
    assert (E : clone_loop (opt_cl pure_clone) l st = (st, map (opt_map f) l, Val tt)).
    { induction l as [|[v|] l IH]; [reflexivity| |]; cbn [clone_loop opt_cl pure_clone bind]; now rewrite IH. }
    unfold clone_slice. now rewrite E.
  Qed.
  Lemma as_array_map A S (a : arr A S) (g : A -> A) (b : arr A S) : arr_list b = map g (arr_list a) ->
    as_array (Cloned (map g (arr_list a))) = Cloned b.
  Proof.
    intros E. destruct (try_arr_ok (S := S) (map g (arr_list a))) as (c & Ec & Lc). { rewrite map_length. apply arr_length. }
    cbn. rewrite Ec. f_equal. apply arr_ext. congruence.
  Qed.
  Lemma clones_pure :
    (forall m, OrdinalMap_clone_with pure_clone drop m st = (st, Cloned (OrdinalMap_clone f m))) /\
    (forall S (m : @OrdinalArrayMap V S),
       OrdinalArrayMap_clone_with pure_clone drop m st = (st, Cloned (OrdinalArrayMap_clone f m))) /\
    (forall m, OrdinalTotalMap_clone_with pure_clone drop m st = (st, Cloned (OrdinalTotalMap_clone f m))) /\
    (forall S (m : OrdinalTotalArrayMap S V),
       OrdinalTotalArrayMap_clone_with pure_clone drop m st = (st, Cloned (OrdinalTotalArrayMap_clone f m))) /\
    (forall s, IntoIter_clone_with pure_clone drop s st = (st, Cloned (IntoIter_clone f s))) /\
    (forall s, IntoIterArray_clone_with pure_clone drop s st = (st, Cloned (IntoIterArray_clone f s))) /\
    (forall s, TIntoIter_clone_with pure_clone drop s st = (st, Cloned (TIntoIter_clone f s))) /\
    (forall s, TIntoIterArray_clone_with pure_clone drop s st = (st, Cloned (TIntoIterArray_clone f s))).
  Proof.
    split; [|split; [|split; [|split; [|split; [|split; [|split]]]]]].
    - intros m. apply slots_pure.
    - intros S m. unfold OrdinalArrayMap_clone_with. rewrite slots_pure. f_equal. apply as_array_map. reflexivity.
    - intros m. apply slice_pure.
    - intros S m. unfold OrdinalTotalArrayMap_clone_with. rewrite slice_pure. f_equal. apply as_array_map. reflexivity.
    - intros s. unfold IntoIter_clone_with. now rewrite slots_pure.
    - intros s. unfold IntoIterArray_clone_with. now rewrite slots_pure.
    - intros s. unfold TIntoIter_clone_with. now rewrite slice_pure.
    - intros s. unfold TIntoIterArray_clone_with. now rewrite slice_pure.
  Qed.
End Pure.

(** *** Default with effects *)
Lemma defaults_called : forall (cfg : Config) (K V : Type) (O : Ordinal K) (n : N), ordinal_bijection O n ->
  forall ks, enumeration O ks -> forall (St : Type) (default : St -> St * res V) (st : St),
  let called := calls_ok (fun st (_ : K) => default st) ks st in
  (fst (OrdinalTotalMap_default_with O default st) = fst called /\
   constructed_ok (OrdinalTotalMap_get O) ks (snd called) (snd (OrdinalTotalMap_default_with O default st))) /\
  forall S, N.of_nat S = n ->
    fst (OrdinalTotalArrayMap_default_with O S default st) = fst called /\
    constructed_ok (OrdinalTotalArrayMap_get O (S := S)) ks (snd called)
      (snd (OrdinalTotalArrayMap_default_with O S default st)).
Proof.
  intros cfg K V O n HO ks He St default st called. split.
  - exact (new_constructed HO He (fun st _ => default st) st).
  - intros S Hn. pose proof (array_new_constructed HO He (fun st _ => default st) st Hn) as G.
    unfold OrdinalTotalArrayMap_default_with. destruct (OrdinalTotalArrayMap_new O S _ st) as [st' b]. exact G.
Qed.
