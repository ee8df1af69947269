(** * KeyLifeProofs2: lemmas for C111, the operations on the slots. *)
From Verif Require Import Base Spec SpecIter SpecMap SpecCatch SpecResume SpecLifeRun SpecKeyLife ModelOrdinal ModelValues ModelArrayBuilder
  ModelIter ModelTotal ModelMap ModelResume MapMachine ModelCatch ModelLife ModelKeyLife
  OrdinalProofs BaseProofs IterLib IterProofs MapIterProofs MapLib ArrayProofs MapMutProofs MapProofs ResumeProofs LifeProofs5 KeyLifeProofs.
From Coq Require Import List. Import ListNotations.
Set Implicit Arguments. Unset Strict Implicit.

Section Slots.
  Context {cfg : Config} {K V : Type} (boom : list (K + V) -> K + V -> option panic) (O : Ordinal K).
  Context (n : N) (HO : ordinal_bijection O n).
  Context (eqd : forall a b : K, {a = b} + {a <> b}).
  Context (ks : list K) (Hks : key_slots O n ks).
  Implicit Types (m : pmap K V) (log : list (K + V)).

  Lemma iter_start m : pending O n (iter_of (map m ks)) (tm_entries ks m).
  Proof. exact (pending_values (V := option V) m Hks). Qed.
  Lemma sl_start m : sl (fun o => o) (tm_entries ks m) = slots_of ks m.
  Proof. unfold sl, tm_entries, slots_of. rewrite map_map. reflexivity. Qed.
  Lemma sel_id m : sel_ok (fun o : option V => Val o) (fun o => o) (tm_entries ks m).
  Proof. intros a _. reflexivity. Qed.
  Lemma start_keys m : map (fun p => inl (fst p)) (tm_entries ks m) = map inl ks :> list (K + V).
  Proof. unfold tm_entries. rewrite map_map. reflexivity. Qed.

  Lemma fold_len (l : list (K * V)) : forall c, c + llen l <= n -> fold_res (fun c _ _ => uadd c 1) l c = Val (c + llen l).
  Proof.
    pose proof (bij_fits HO). induction l as [|[k b] l IH]; intros c Hc; cbn [fold_res].
    - f_equal. cbn. lia.
    - unfold llen in *. cbn [length] in *. rewrite uadd_ok by lia. cbn [bind]. rewrite IH by lia. f_equal. lia.
  Qed.
  Lemma entries_le m : llen (pm_entries ks m) <= n.
  Proof.
    destruct Hks as [_ H]. unfold llen in *. pose proof (fm_length (fun o : option V => o) (map (fun k => (k, m k)) ks)) as L.
    rewrite fm_id, map_length in L. lia.
  Qed.
  Lemma len_ok log m : len_keys boom O (log, map m ks) =
    let '(log', p) := stops_at boom log (map inl ks) in
    ((log', map m ks), ends_as (Some (shown (OutNum (llen (pm_entries ks m))) p))).
  Proof.
    unfold len_keys, locally. cbv beta iota. unfold abind at 1. rewrite map_length.
    destruct (@each_ok _ _ _ boom O n HO _ _ (fun o => Val o) (fun o => o) N (fun c _ _ => uadd c 1) (S (length ks)) (tm_entries ks m) log
      (iter_of (map m ks)) 0 (0 + llen (pm_entries ks m)) (iter_start m) (@sel_id m)) as (it' & E).
    { unfold tm_entries. rewrite map_length. lia. }
    { rewrite sl_start, there_slots. apply fold_len. pose proof (@entries_le m). lia. }
    unfold iter_next, Iter, TIter. rewrite E, start_keys. destruct (stops_at boom log (map inl ks)) as [log' p]. cbn [fst snd].
    destruct p; reflexivity.
  Qed.
  Lemma debug_ok log m : debug_keys boom O (log, map m ks) =
    let '(log', p) := stops_at boom log (map inl ks) in
    ((log', map m ks), ends_as (Some (shown (OutList (pm_entries ks m)) p))).
  Proof.
    unfold debug_keys, locally. cbv beta iota. unfold abind at 1. rewrite map_length.
    destruct (@each_ok _ _ _ boom O n HO _ _ (fun o => Val o) (fun o => o) _ (fun l k v => Val (l ++ [(k, v)])) (S (length ks)) (tm_entries ks m) log
      (iter_of (map m ks)) [] (pm_entries ks m) (iter_start m) (@sel_id m)) as (it' & E).
    { unfold tm_entries. rewrite map_length. lia. }
    { rewrite sl_start, there_slots.
      assert (G : forall (l l0 : list (K * V)), fold_res (fun l k v => Val (l ++ [(k, v)])) l l0 = Val (l0 ++ l)).
      { induction l as [|[k v] l IH]; intros l0; cbn [fold_res bind]; [now rewrite app_nil_r|]. rewrite IH, <- app_assoc. reflexivity. }
      apply G. }
    unfold iter_next, Iter, TIter. rewrite E, start_keys. destruct (stops_at boom log (map inl ks)) as [log' p]. cbn [fst snd].
    destruct p; reflexivity.
  Qed.

  Lemma same_iter : same_calls O n (fun o : option V => Val o) (fun o => o) (iter_next boom O) (next_entry boom).
  Proof. intros d log it l H Hs. exact (key_next_ok boom HO d log H Hs). Qed.
  Lemma same_values : same_calls O n (fun o : option V => Val o) (fun o => o) (without_key boom (iter_next boom O)) (next_value boom).
  Proof. intros d log it l H Hs. exact (key_value_ok boom HO d log H Hs). Qed.

  Lemma is_empty_ok log m : is_empty_keys boom O (log, map m ks) =
    let '(log', _, x) := next_value boom Front log (slots_of ks m) in
    ((log', map m ks), ends_as (Some (match x with Seen _ => Seen (OutBool (llen (pm_entries ks m) =? 0)) | Caught w => Caught w end))).
  Proof.
    unfold is_empty_keys, locally. cbv beta iota. unfold abind at 1.
    pose proof (same_values Front log (iter_start m) (@sel_id m)) as G. rewrite sl_start in G.
    pose proof (value_there boom Front log (slots_of ks m)) as T. rewrite there_slots in T.
    destruct (next_value boom Front log (slots_of ks m)) as [[log' ss] [o|w]].
    - destruct G as (it' & l' & E & _). unfold Iter, TIter in E |- *. rewrite E. cbn [ends_as]. destruct T as (p & T & ->). unfold ret. do 3 f_equal.
      cbn [deque_step] in T. destruct (pm_entries ks m) as [|kv l]; injection T as <- _; [reflexivity|].
      cbn [opt_map is_some negb]. unfold llen. cbn [length]. symmetry. apply N.eqb_neq. lia.
    - destruct G as (it' & l' & E & _). unfold Iter, TIter in E |- *. rewrite E. reflexivity.
  Qed.

  (** Ends of a run of calls. *)
  Definition run_end {X} (held : list X -> list (K + V)) (st : list (option V)) (o : map_out K V)
      (x : list X * (list (K + V) * list (K * option V)) * option panic) : (list (K + V) * list (option V)) * ending (map_out K V) :=
    let '(got, (log', _), p) := x in
    match p with
    | None => ((log', st), Ended o)
    | Some w => let '(log2, e) := all_lost boom w log' (held got) in ((log2, st), ends_as e)
    end.

  Lemma ends_as_map (w : panic) X Y log ts : 
    let '(log1, e) := all_lost (A := X) boom w log ts in let '(log1', e') := all_lost (A := Y) boom w log ts in
    log1 = log1' /\ ((e = Some (Caught w) /\ e' = Some (Caught w)) \/ (e = None /\ e' = None)).
  Proof. unfold all_lost. destruct (destroyed_all boom (Some w) log ts) as [log1 [p|]]; cbn; auto. Qed.

  Lemma iter_ok log m sched : iter_keys boom O sched (log, map m ks) =
    run_end keys_got (map m ks) (OutEntries (fst (deque_run sched (pm_entries ks m)))) (made_calls (next_entry boom) sched log (slots_of ks m)).
  Proof.
    unfold iter_keys, abind at 1.
    pose proof (@client_ok _ _ boom O n _ _ _ _ _ _ keys_of iter_of (fun _ => iter_next boom O) (next_entry boom) sched log (map m ks) _
      same_iter (iter_start m) (@sel_id m)) as C.
    unfold Iter, TIter, IterMut, TIterMut in C |- *. rewrite C, sl_start. clear C.
    pose proof (calls_there boom sched log (slots_of ks m)) as T. rewrite there_slots in T.
    destruct (made_calls (next_entry boom) sched log (slots_of ks m)) as [[got [log' ss]] [w|]]; unfold run_end.
    - change (keys_of got) with (keys_got (V := V) got).
      pose proof (ends_as_map w (list (option (K * V))) (map_out K V) log' (keys_got got)) as G.
      destruct (all_lost boom w log' (keys_got got)) as [log1 e], (all_lost boom w log' (keys_got got)) as [log2 e'].
      destruct G as (-> & [[-> ->]|[-> ->]]); reflexivity.
    - rewrite <- T. reflexivity.
  Qed.
  Lemma keys_ok log m sched : keys_keys boom O sched (log, map m ks) =
    run_end keys_got (map m ks) (OutKeys (fst (deque_run sched (map fst (pm_entries ks m))))) (made_calls (next_entry boom) sched log (slots_of ks m)).
  Proof.
    unfold keys_keys, abind at 1.
    pose proof (@client_ok _ _ boom O n _ _ _ _ _ _ keys_of iter_of (fun _ => iter_next boom O) (next_entry boom) sched log (map m ks) _
      same_iter (iter_start m) (@sel_id m)) as C.
    unfold Iter, TIter, IterMut, TIterMut in C |- *. rewrite C, sl_start. clear C.
    pose proof (calls_there boom sched log (slots_of ks m)) as T. rewrite there_slots in T.
    destruct (made_calls (next_entry boom) sched log (slots_of ks m)) as [[got [log' ss]] [w|]]; unfold run_end.
    - change (keys_of got) with (keys_got (V := V) got).
      pose proof (ends_as_map w (list (option (K * V))) (map_out K V) log' (keys_got got)) as G.
      destruct (all_lost boom w log' (keys_got got)) as [log1 e], (all_lost boom w log' (keys_got got)) as [log2 e'].
      destruct G as (-> & [[-> ->]|[-> ->]]); reflexivity.
    - rewrite deque_run_map. cbn [fst]. rewrite <- T. reflexivity.
  Qed.
  Lemma values_ok log m sched : values_keys boom O sched (log, map m ks) =
    run_end (fun _ => []) (map m ks) (OutValues (fst (deque_run sched (map snd (pm_entries ks m))))) (made_calls (next_value boom) sched log (slots_of ks m)).
  Proof.
    unfold values_keys, abind at 1.
    pose proof (@client_ok _ _ boom O n _ _ _ _ _ _ (fun _ => []) iter_of (fun _ => without_key boom (iter_next boom O)) (next_value boom) sched log (map m ks) _
      same_values (iter_start m) (@sel_id m)) as C.
    unfold Iter, TIter, IterMut, TIterMut in C |- *. rewrite C, sl_start. clear C.
    pose proof (values_there boom sched log (slots_of ks m)) as T. rewrite there_slots in T.
    destruct (made_calls (next_value boom) sched log (slots_of ks m)) as [[got [log' ss]] [w|]]; unfold run_end.
    - reflexivity.
    - rewrite deque_run_map. cbn [fst]. rewrite <- T. reflexivity.
  Qed.

  (** Mutable iterators *)
  Lemma mut_start m : pending O n (iter_mut_of (map m ks)) (kslots 0 ks).
  Proof. unfold iter_mut_of. rewrite map_length. exact (pending_slots Hks). Qed.
  Lemma mut_sel m : sel_ok (occupied_rt (map m ks)) (occupied (map m ks)) (kslots 0 ks).
  Proof.
    destruct (iter_mut_init m Hks) as (l & Hp & El & Hs). intros a Ha. apply Hs.
    destruct Hp as (_ & E & _). cbn [e_items] in E. rewrite <- E. rewrite kslots_snd in Ha. exact Ha.
  Qed.
  Lemma mut_alike m : Forall2 alike (sl (occupied (map m ks)) (kslots 0 ks)) (slots_of ks m).
  Proof.
    assert (G : forall l pre, ks = pre ++ l -> Forall2 alike (sl (occupied (map m ks)) (kslots (length pre) l)) (slots_of l m)).
    { induction l as [|k l IH]; intros pre E; [constructor|]. rewrite kslots_cons. cbn [sl map fst snd slots_of]. constructor.
      - split; [reflexivity|]. cbn [snd]. unfold occupied, slice_get. rewrite Nat2N.id, nth_error_map.
        assert (Ek : nth_error ks (length pre) = Some k) by (rewrite E; apply nth_error_app_at). rewrite Ek. cbn [option_map].
        destruct (m k); split; congruence.
      - specialize (IH (pre ++ [k])). rewrite app_length in IH. cbn [length] in IH. rewrite Nat.add_1_r in IH. apply IH.
        rewrite E, <- app_assoc. reflexivity. }
    exact (G ks [] eq_refl).
  Qed.
  Lemma same_mut m : same_calls O n (occupied_rt (map m ks)) (occupied (map m ks)) (iter_mut_next boom O (map m ks)) (next_entry boom).
  Proof. intros d log it l H Hs. exact (key_next_ok boom HO d log H Hs). Qed.
  Lemma same_values_mut m :
    same_calls O n (occupied_rt (map m ks)) (occupied (map m ks)) (without_key boom (iter_mut_next boom O (map m ks))) (next_value boom).
  Proof. intros d log it l H Hs. exact (key_value_ok boom HO d log H Hs). Qed.

  Lemma mut_written m f sched : (forall k, m k <> None -> In k ks) ->
    write_entries f (fst (deque_run sched (fm (occupied (map m ks)) (kslots 0 ks)))) (map m ks) =
    Val (fst (deque_run sched (pm_entries ks m)), map (pm_update eqd m (map fst (somes (fst (deque_run sched (pm_entries ks m))))) f) ks).
  Proof.
    intros Hd. apply (write_entries_ok HO eqd Hks _ Hd); [|exact (entries_got_NoDup Hks m sched)].
    apply deque_run_rel. exact (iter_mut_points m Hks).
  Qed.

  Lemma iter_mut_ok log m sched f : (forall k, m k <> None -> In k ks) ->
    iter_mut_keys boom O sched f (log, map m ks) =
    let '(got, (log', _), p) := made_calls (next_entry boom) sched log (slots_of ks m) in
    match p with
    | None => ((log', map (pm_update eqd m (map fst (somes (fst (deque_run sched (pm_entries ks m))))) f) ks),
               Ended (OutEntries (fst (deque_run sched (pm_entries ks m)))))
    | Some w => let '(log2, e) := all_lost boom w log' (keys_got got) in ((log2, map m ks), ends_as e)
    end.
  Proof.
    intros Hd. unfold iter_mut_keys, abind at 1.
    pose proof (@client_ok _ _ boom O n _ _ _ _ _ _ keys_of iter_mut_of (iter_mut_next boom O) (next_entry boom) sched log (map m ks) _
      (@same_mut m) (mut_start m) (@mut_sel m)) as C.
    unfold Iter, TIter, IterMut, TIterMut in C |- *. rewrite C. clear C.
    pose proof (calls_there boom sched log (sl (occupied (map m ks)) (kslots 0 ks))) as T. rewrite there_sl in T.
    pose proof (@calls_alike K V N V _ _ (@same_key K N V) (next_entry boom) (next_entry boom)
      (fun d l l' log H => next_alike boom d log H) sched log _ _ (mut_alike m)) as A.
    destruct (made_calls (next_entry boom) sched log (sl (occupied (map m ks)) (kslots 0 ks))) as [[got [log' ss]] p].
    destruct (made_calls (next_entry boom) sched log (slots_of ks m)) as [[got1 [log1 ss1]] p1]. destruct A as (<- & <- & A).
    destruct p as [w|].
    - change (keys_of got) with (keys_got (V := V) got). rewrite (same_keys_got (V := V) A).
      pose proof (ends_as_map w (list (option (K * N))) (map_out K V) log' (keys_got got1)) as G.
      destruct (all_lost boom w log' (keys_got got1)) as [log2 e], (all_lost boom w log' (keys_got got1)) as [log3 e'].
      destruct G as (-> & [[-> ->]|[-> ->]]); reflexivity.
    - subst got. unfold calm, replaces, abind, look, put, ret. rewrite (mut_written f sched Hd). reflexivity.
  Qed.
  Lemma values_mut_ok log m sched f : (forall k, m k <> None -> In k ks) ->
    values_mut_keys boom O sched f (log, map m ks) =
    let '(got, (log', _), p) := made_calls (next_value boom) sched log (slots_of ks m) in
    match p with
    | None => ((log', map (pm_update eqd m (map fst (somes (fst (deque_run sched (pm_entries ks m))))) (fun _ => f)) ks),
               Ended (OutValues (map (opt_map snd) (fst (deque_run sched (pm_entries ks m))))))
    | Some w => ((log', map m ks), Unwinds w)
    end.
  Proof.
    intros Hd. unfold values_mut_keys, abind at 1.
    pose proof (@client_ok _ _ boom O n _ _ _ _ _ _ (fun _ => []) iter_mut_of (fun st => without_key boom (iter_mut_next boom O st)) (next_value boom) sched log (map m ks) _
      (@same_values_mut m) (mut_start m) (@mut_sel m)) as C.
    unfold Iter, TIter, IterMut, TIterMut in C |- *. rewrite C. clear C.
    pose proof (values_there boom sched log (sl (occupied (map m ks)) (kslots 0 ks))) as T. rewrite there_sl in T.
    pose proof (@calls_alike K V N V _ _ (fun _ _ => True) (next_value boom) (next_value boom)
      (fun d l l' log H => value_alike boom d log H) sched log _ _ (mut_alike m)) as A.
    destruct (made_calls (next_value boom) sched log (sl (occupied (map m ks)) (kslots 0 ks))) as [[got [log' ss]] p].
    destruct (made_calls (next_value boom) sched log (slots_of ks m)) as [[got1 [log1 ss1]] p1]. destruct A as (<- & <- & A).
    destruct p as [w|]; [reflexivity|].
    subst got. unfold calm, replaces, abind, look, put, ret.
    rewrite (write_values_entries (mut_written (fun _ => f) sched Hd)). reflexivity.
  Qed.

  (** Drain *)
  Definition drain_at m (s : @Drain V) (kmid : list K) : Prop :=
    exists kpre kpost, ks = kpre ++ kmid ++ kpost /\ pending O n (snd s) (kslots (length kpre) kmid) /\
      fst s = map (fun _ => None) kpre ++ map m kmid ++ map (fun _ => None) kpost.
  Lemma drain_start m : drain_at m (map m ks, TIterMut_new (slots (length (map m ks)))) ks.
  Proof.
    exists [], []. rewrite app_nil_r. split; [reflexivity|]. rewrite map_length. split; [exact (pending_slots Hks)|].
    cbn [fst map app]. now rewrite app_nil_r.
  Qed.
  Lemma drain_storage m s kmid : drain_at m s kmid -> fst s = map (pm_restrict eqd m kmid) ks.
  Proof.
    intros (kpre & kpost & E & H & Es).
    assert (D : drained O n ks m s (pm_entries kmid m)) by (exists kpre, kmid, kpost; auto). rewrite (drained_storage Hks eqd D).
    apply map_ext. intros k. unfold pm_restrict, mem.
    destruct (in_dec eqd k (map fst (pm_entries kmid m))) as [H1|H1], (in_dec eqd k kmid) as [H2|H2]; try reflexivity.
    - apply pm_entries_fst_In in H1. tauto.
    - destruct (m k) eqn:Ek; [|reflexivity]. exfalso. apply H1. apply pm_entries_fst_In. split; [exact H2|congruence].
  Qed.
  Lemma drain_none m d s : drain_at m s [] -> exists it', enumerate_act O d (snd s) = (it', Ended None) /\ drain_at m (fst s, it') [].
  Proof.
    intros (kpre & kpost & E & H & Es). destruct (enumerate_act_ok HO d H) as (it' & E1 & H').
    change (kslots (length kpre) []) with (@nil (K * N)) in *. rewrite deque_nil in E1, H'. exists it'. split; [exact E1|].
    exists kpre, kpost. auto.
  Qed.
  Lemma drain_pop m d s k kk : drain_at m s (from_end d (k :: kk)) ->
    exists it' i, enumerate_act O d (snd s) = (it', Ended (Some (k, i))) /\ deref (fst s) i = Val (m k) /\
      drain_at m (store_at (fst s) i None, it') (from_end d kk).
  Proof.
    intros (kpre & kpost & E & H & Es). destruct (enumerate_act_ok HO d H) as (it' & E1 & H'). exists it'. destruct d; cbn [from_end] in *.
    - rewrite kslots_cons in E1, H'. cbn [deque_step fst snd] in E1, H'. exists (N.of_nat (length kpre)). split; [exact E1|].
      rewrite Es. cbn [map app]. rewrite deref_slot by (unfold llen; now rewrite map_length).
      rewrite store_slot by (unfold llen; now rewrite map_length). split; [reflexivity|].
      exists (kpre ++ [k]), kpost. split; [rewrite E, <- !app_assoc; reflexivity|]. cbn [fst snd]. split.
      + rewrite app_length. cbn [length]. rewrite Nat.add_1_r. exact H'.
      + rewrite map_app, <- app_assoc. reflexivity.
    - cbn [rev] in *. rewrite kslots_app in E1, H'. cbn [kslots slots_from length seq map combine] in E1, H'.
      rewrite deque_back in E1, H'. cbn [fst snd] in E1, H'. eexists. split; [exact E1|].
      rewrite Es, map_app. cbn [map]. rewrite <- !app_assoc, app_assoc. cbn [app].
      assert (L : N.of_nat (length kpre + length (rev kk)) = llen (map (fun _ => @None V) kpre ++ map m (rev kk))).
      { unfold llen. rewrite app_length, !map_length. reflexivity. }
      rewrite (deref_slot _ _ L). rewrite (store_slot _ _ _ L). split; [reflexivity|].
      exists kpre, ([k] ++ kpost). split; [rewrite E, <- !app_assoc; reflexivity|]. cbn [fst snd]. split; [exact H'|].
      rewrite <- app_assoc. reflexivity.
  Qed.
  Lemma drain_loop_ok m d kk : forall log s fuel, drain_at m s (from_end d kk) -> (length kk < fuel)%nat ->
    let '(log', ss, o) := walk boom log (slots_of kk m) in
    exists s' kk', drain_key_loop boom O d fuel (log, s) = ((log', s'), ends_as (Some o)) /\
      drain_at m s' (from_end d kk') /\ ss = slots_of kk' m.
  Proof.
    induction kk as [|k kk IH]; intros log [st it] fuel H Hf; (destruct fuel as [|fuel]; [cbn in Hf; lia|]); cbn [drain_key_loop slots_of map walk].
    - assert (H0 : drain_at m (st, it) []) by (destruct d; exact H). destruct (drain_none d H0) as (it' & E & H').
      cbn [fst snd] in *. unfold abind, drain_item. rewrite E. exists (st, it'), []. split; [reflexivity|]. split; [destruct d; exact H'|reflexivity].
    - destruct (drain_pop H) as (it' & i & E & Ed & H'). cbn [fst snd] in *. unfold abind at 1, drain_item. rewrite E.
      unfold abind at 1, drain_take. rewrite Ed. fold (slots_of kk m). destruct (m k) as [v|].
      + exists (store_at st i None, it'), kk. auto.
      + unfold abind. rewrite destroy_is. destruct (boom log (inl k)) as [w|]; [exists (store_at st i None, it'), kk; auto|].
        apply IH; [exact H'|cbn in Hf; lia].
  Qed.
  Lemma slots_end d l m : slots_of (from_end d l) m = from_end d (slots_of l m).
  Proof. apply from_end_map. Qed.
  Lemma drain_len m s kmid : drain_at m s kmid -> length (e_items (snd s)) = length kmid.
  Proof. intros (kpre & kpost & _ & H & _). rewrite (pending_len H). apply kslots_length. Qed.
  Lemma drain_next_ok m d log s kmid : drain_at m s kmid ->
    let '(log', ss, o) := next_entry boom d log (slots_of kmid m) in
    exists s' kmid', drain_key_next boom O d (log, s) = ((log', s'), ends_as (Some o)) /\ drain_at m s' kmid' /\ ss = slots_of kmid' m.
  Proof.
    intros H. rewrite next_entry_is, <- slots_end. unfold drain_key_next. cbn [snd]. rewrite (drain_len H).
    assert (H1 : drain_at m s (from_end d (from_end d kmid))) by (rewrite from_end_twice; exact H).
    pose proof (@drain_loop_ok m d (from_end d kmid) log s (S (length kmid)) H1 ltac:(rewrite from_end_length; lia)) as G.
    destruct (walk boom log (slots_of (from_end d kmid) m)) as [[log' ss] o]. destruct G as (s' & kk' & E & H2 & ->).
    exists s', (from_end d kk'). split; [exact E|]. split; [exact H2|]. now rewrite slots_end.
  Qed.
  Lemma drain_calls_ok m sched : forall log s kmid, drain_at m s kmid ->
    let '(got, (log', ss), p) := made_calls (next_entry boom) sched log (slots_of kmid m) in
    exists s' kmid', calls (drain_key_next boom O) sched (log, s) = (got, (log', s'), calls_end p) /\ drain_at m s' kmid' /\ ss = slots_of kmid' m.
  Proof.
    induction sched as [|d sched IH]; intros log s kmid H; cbn [made_calls calls]; [exists s, kmid; auto|].
    pose proof (drain_next_ok d log H) as G. destruct (next_entry boom d log (slots_of kmid m)) as [[log' ss] o].
    destruct G as (s' & kmid' & E & H' & ->). rewrite E. destruct o as [x|w]; cbn [ends_as]; [|exists s', kmid'; auto].
    specialize (IH log' s' kmid' H'). destruct (made_calls (next_entry boom) sched log' (slots_of kmid' m)) as [[got [log2 ss2]] p].
    destruct IH as (s2 & kmid2 & -> & H2 & ->). exists s2, kmid2. auto.
  Qed.
  Lemma walk_emptied (l : list (K * option V)) : forall log,
    match walk boom log l with
    | (log', l', Seen None) => emptied boom log l = (log', [], Some (Seen tt)) /\ l' = []
    | (log', l', Seen (Some (k, v))) => emptied boom log l = emptied boom log' ((k, Some v) :: l') /\ (length l' < length l)%nat
    | (log', l', Caught w) => emptied boom log l = (log', l', Some (Caught w))
    end.
  Proof.
    induction l as [|[k o] l IH]; intros log; cbn [walk]; [split; reflexivity|]. destruct o as [v|]; [split; [reflexivity|cbn; lia]|].
    cbn [emptied length]. destruct (boom log (inl k)); [reflexivity|]. specialize (IH (log ++ [inl k])).
    destruct (walk boom (log ++ [inl k]) l) as [[log' l'] [[[k' b]|]|w]]; [destruct IH; split; [assumption|lia]|exact IH|exact IH].
  Qed.
  Lemma drain_drop_ok m fuel : forall log s kmid, drain_at m s kmid -> (length kmid < fuel)%nat ->
    let '(log', ss, e) := emptied boom log (slots_of kmid m) in
    exists s' kmid', drain_key_drop boom O fuel (log, s) = ((log', s'), ends_as e) /\ drain_at m s' kmid' /\ ss = slots_of kmid' m.
  Proof.
    induction fuel as [|fuel IH]; intros log s kmid H Hf; [lia|]. cbn [drain_key_drop]. unfold abind at 1.
    pose proof (drain_next_ok Front log H) as G. cbn [next_entry] in G. pose proof (walk_emptied (slots_of kmid m) log) as W.
    destruct (walk boom log (slots_of kmid m)) as [[log' ss] o]. destruct G as (s' & kmid' & E & H' & ->). rewrite E.
    destruct o as [[[k v]|]|w]; cbn [ends_as].
    - destruct W as [-> L]. unfold slots_of in L. rewrite !map_length in L. cbn [emptied]. unfold abind. rewrite glue_is.
      destruct (destroyed_all boom None log' [inl k; inr v]) as [log2 [[w|]|]]; cbn [fst snd].
      + exists s', kmid'. auto.
      + apply IH; [exact H'|lia].
      + exists s', kmid'. auto.
    - destruct W as [W W']. rewrite W. exists s', kmid'. auto.
    - rewrite W. exists s', kmid'. auto.
  Qed.
End Slots.
