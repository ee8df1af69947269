(** * LifeProofs2: the operations and programs of them. *)
From Verif Require Import Base BaseProofs Spec SpecMem SpecMap SpecTotal SpecCatch SpecResume SpecLedger SpecLife ModelOrdinal ModelValues
  ModelArrayBuilder ModelIter ModelTotal ModelMap ModelDrop ModelResume ModelUnwind ModelCatch MapMachine TotalMachine ModelLife
  ResumeProofs UnwindProofs2 CatchProofs5 LedgerProofs LedgerProofs2 LedgerProofs3 LifeProofs.
From Coq Require Import List Lia Permutation. Import ListNotations.
Set Implicit Arguments.
Unset Strict Implicit.

(** Functions that destroy nothing do not abort. *)
Section NoAbort.
  Definition holds_up {M A} (x : act M A) : Prop := forall m, snd (x m) <> Aborts.
  Lemma up_of A (r : res A) : ending_of r <> Aborts.
  Proof. destruct r; discriminate. Qed.
  Lemma up_ret M A (a : A) : holds_up (ret (M := M) a).
  Proof. intros m. discriminate. Qed.
  Lemma up_look M A (f : M -> res A) : holds_up (look f).
  Proof. intros m. apply up_of. Qed.
  Lemma up_put M (m : M) : holds_up (put m).
  Proof. intros m'. discriminate. Qed.
  Lemma up_bind M A B (x : act M A) (f : A -> act M B) : holds_up x -> (forall a, holds_up (f a)) -> holds_up (abind x f).
  Proof. intros H1 H2 m. unfold abind. specialize (H1 m). destruct (x m) as [m1 [a|w| |]]; cbn in *; try discriminate; [apply H2|congruence]. Qed.
  Lemma up_replaces M A (f : M -> res (A * M)) : holds_up (replaces f).
  Proof. apply up_bind; [apply up_look|]. intros [a m']. apply up_bind; [apply up_put|]. intros _. apply up_ret. Qed.
  Lemma up_slots V S A (f : act (list (option V)) A) : holds_up f -> holds_up (on_slots (S := S) f).
  Proof. intros H m. unfold on_slots. specialize (H (arr_list m)). destruct (f (arr_list m)) as [l e]. destruct (try_arr S l); [exact H|discriminate]. Qed.
End NoAbort.
Ltac up := repeat first [apply up_ret|apply up_look|apply up_put|apply up_replaces|apply up_slots|apply up_bind; [|intros ?]|
  match goal with |- holds_up (match ?x with _ => _ end) => destruct x end].

Section Steps.
  Context {V : Type} (boom : list V -> V -> option panic) {cfg : Config} {K : Type} (O : Ordinal K).

  (** The operations that destroy nothing unless they panic. *)
  Definition gentle (op : map_op K V) : bool :=
    match op with OpClear | OpDrain _ _ | OpRetain _ | OpClone _ | OpEntryOrInsert _ _ _ => false | _ => true end.

  Lemma heap_up op : gentle op = true -> holds_up (heap_act O op).
  Proof.
    destruct op; try discriminate; intros _; cbn [heap_act];
      unfold OrdinalMap_insert_act, OrdinalMap_remove_act, OrdinalMap_entry_act, OrdinalMap_init_full_map_act; up.
  Qed.
  Lemma array_up S op : gentle op = true -> holds_up (array_act O (S := S) op).
  Proof.
    destruct op; try discriminate; intros _; cbn [array_act];
      unfold OrdinalArrayMap_insert_act, OrdinalArrayMap_remove_act, OrdinalArrayMap_entry_act; up.
  Qed.
  Lemma htotal_up (op : total_op K V) : holds_up (htotal_act O op).
  Proof. destruct op; cbn [htotal_act]; unfold OrdinalTotalMap_insert_act; up. Qed.
  Lemma atotal_up S (op : total_op K V) : holds_up (atotal_act O (S := S) op).
  Proof. destruct op; cbn [atotal_act]; unfold OrdinalTotalArrayMap_insert_act; up. Qed.

  Lemma gentle_drops op s h g t d h' : gentle op = true -> map_account op s h g t d h' -> d = [].
  Proof.
    destruct op; try discriminate; intros _; destruct s; cbn [map_account]; try (intros (? & ? & ->); reflexivity);
      try (intros (? & ? & ? & ? & ->); reflexivity).
    all: intros H; repeat match type of H with exists _, _ => destruct H as (? & H) | _ /\ _ => destruct H as (? & H) end; auto.
  Qed.

  (** A gentle operation, with the argument of [insert]. *)
  Lemma gentle_law {M} (held : M -> list V) (x : act M (map_out K V)) op log m log' m' e : gentle op = true -> holds_up x ->
    (forall m' o, x m = (m', Ended o) -> accounted op (Seen o) (held m) (held m')) ->
    (forall m' w, x m = (m', Unwinds w) -> accounted op (Caught w) (held m) (held m')) ->
    (match op with OpInsert _ v => owning boom [v] (calm x) | _ => calm x end) (log, m) = ((log', m'), e) ->
    good_call op (held m) log e log' (held m').
  Proof.
    intros Hg Hup Hret Hpan.
    assert (Calm : (forall k v, op <> OpInsert k v) -> calm x (log, m) = ((log', m'), e) -> good_call op (held m) log e log' (held m')).
    { intros Ni E. apply calm_law in E. destruct E as (m1 & E & [= <- <-]). destruct e as [o|w| |].
      - destruct (Hret _ _ E) as (g & t & d & A & B). pose proof (gentle_drops Hg A). subst d.
        exists g, t, []. rewrite app_nil_r. repeat split; [|exact B]. destruct op; try discriminate Hg; exact A.
      - destruct (Hpan _ _ E) as (g & t & d & A & B). pose proof (gentle_drops Hg A). subst d.
        exists g, t, []. rewrite app_nil_r. repeat split; [|exact B]. destruct op; try discriminate Hg; try exact A.
        destruct (Ni k v eq_refl).
      - destruct (Hup m). now rewrite E.
      - exact I. }
    destruct op; try (apply Calm; discriminate).
    intros E. apply owning_law in E. destruct E as (log1 & m1 & e1 & E & H). apply calm_law in E. destruct E as (m2 & E & [= -> ->]).
    destruct e1 as [o|w| |].
    - destruct H as [-> [= -> ->]]. destruct (Hret _ _ E) as (g & t & d & A & B). pose proof (gentle_drops Hg A). subst d.
      exists g, t, []. rewrite app_nil_r. repeat split; assumption.
    - destruct (Hpan _ _ E) as (g & t & d & (-> & -> & ->) & B).
      assert (P : balanced (held m) [v] [] [v] (held m2)).
      { unfold balanced in *. cbn [app] in *. eapply Permutation_trans; [apply Permutation_app_comm|]. cbn [app]. apply perm_skip.
        now rewrite app_nil_r in B. }
      destruct H as [[-> [= -> ->]] | (-> & a & b & Q & [= -> ->])].
      + exists [v], [], [v]. repeat split. exact P.
      + destruct a as [|y a].
        * exists [v], [], (v :: held m2). rewrite app_nil_r. repeat split. exact P.
        * injection Q as <- Q. symmetry in Q. apply app_eq_nil in Q. destruct Q as [-> ->].
          exists [v], [v], (held m2). repeat split. exact P.
    - destruct (Hup m). now rewrite E.
    - destruct H as [-> _]. exact I.
  Qed.

  (** or_insert *)
  Lemma or_insert_law (m : list (option V)) (k : K) i e v w log log' m' r : Entry_new m k i = Val e ->
    or_insert_life boom e v w (log, m) = ((log', m'), r) -> good_call (OpEntryOrInsert k v w) (stored m) log r log' (stored m').
  Proof.
    intros He. destruct (new_entry He) as (o0 & En & Ho). unfold or_insert_life.
    destruct o0 as [old|]; subst e; unfold Entry_or_insert; cbn [o_entry v_entry].
    - assert (D : deref m i = Val (Some old)) by (unfold deref, slice_get; now rewrite En).
      assert (W : write_some m i w = Val (store_at m i (Some w))) by (unfold write_some; now rewrite D).
      unfold owning, calm, look, put, replaces, abind, ret. rewrite D. cbn [bind unwrap ending_of].
      destruct (destroy boom v (log, m)) as [s1 e1] eqn:E1. apply destroy_law in E1.
      destruct E1 as [-> [-> | (w1 & -> & _)]].
      + unfold look, put. rewrite D, W. cbn [bind unwrap ending_of]. intros [= <- <- <-].
        exists [v; w], [old], [v]. repeat split.
        * exists old. repeat split; auto.
        * pose proof (swap_slot (Some w) En) as P. unfold balanced. cbn [app opt_list] in *.
          eapply Permutation_trans; [apply Permutation_app_comm|]. cbn [app].
          eapply Permutation_trans; [|apply perm_swap]. apply perm_skip.
          eapply Permutation_trans; [apply Permutation_cons_append|]. exact P.
      + intros [= <- <- <-]. exists [v], [], [v]. repeat split; [now right|]. unfold balanced. cbn [app].
        apply Permutation_sym, Permutation_cons_append.
    - assert (E2 : nth_error (store_at m i (Some v)) (N.to_nat i) = Some (Some v)).
      { unfold store_at. clear - En. revert En. generalize (N.to_nat i). induction m as [|x m IH]; intros [|j]; cbn; try discriminate; auto. }
      assert (D : deref m i = Val None) by (unfold deref, slice_get; now rewrite En).
      assert (D2 : deref (store_at m i (Some v)) i = Val (Some v)) by (unfold deref, slice_get; now rewrite E2).
      assert (W : write_some (store_at m i (Some v)) i w = Val (store_at (store_at m i (Some v)) i (Some w)))
        by (unfold write_some; now rewrite D2).
      unfold owning, calm, look, put, replaces, abind, ret. rewrite D. cbn [bind unwrap ending_of].
      unfold look, put. rewrite D2. cbn [bind]. rewrite W. cbn [bind unwrap ending_of]. intros [= <- <- <-].
      exists [v; w], [v], []. rewrite app_nil_r. repeat split; [exists v; repeat split; auto|].
      exact (chain (swap_slot (Some v) En) (swap_slot (Some w) E2)).
  Qed.

  Lemma assign_law {M A} (values : M -> list V) (step : M -> res (A * M)) log m log' m' e :
    assign_life boom values step (log, m) = ((log', m'), e) ->
    match step m with
    | Val (o, m1) => m' = m1 /\ ((e = Ended o \/ exists w, e = Unwinds w) /\ log' = log ++ values m \/
                                 e = Aborts /\ exists a b, values m = a ++ b /\ log' = log ++ a)
    | Panic w => e = Unwinds w /\ m' = m /\ log' = log
    | _ => e = Stuck
    end.
  Proof.
    unfold assign_life. unfold abind at 1, calm at 1, look at 1. destruct (step m) as [[o m1]|w| | |]; cbn [ending_of];
      try (intros [= <- <- <-]; auto).
    unfold abind at 1, calm at 1, look at 1. cbn [ending_of]. unfold abind at 1, calm, put. unfold abind.
    destruct (glue boom (values m) (log, m1)) as [s1 e1] eqn:E. destruct (glue_law E) as [[H ->] | (-> & a & b & Q & ->)].
    - destruct H as [-> | (w & ->)]; intros [= <- <- <-]; (split; [reflexivity|]); left; eauto.
    - intros [= <- <- <-]. split; [reflexivity|]. right. split; [reflexivity|]. exists a, b. auto.
  Qed.

  Lemma clone_good (cl : V -> V) h log e log' h' : h' = map cl h ->
    ((e = Ended (@OutUnit K V) \/ exists w, e = Unwinds w) /\ log' = log ++ h \/ e = Aborts /\ exists a b, h = a ++ b /\ log' = log ++ a) ->
    good_call (OpClone K cl) h log e log' h'.
  Proof.
    intros ->.
    assert (B : forall a b, h = a ++ b -> balanced h (map cl h) [] a (b ++ map cl h)).
    { intros a b Q. unfold balanced. rewrite Q at 1. cbn [app]. rewrite <- app_assoc. apply Permutation_refl. }
    intros [[[-> | (w & ->)] ->] | (-> & a & b & Q & ->)].
    1, 2: exists (map cl h), [], h; repeat split; pose proof (B h [] (eq_sym (app_nil_r h))) as X; exact X.
    exists (map cl h), a, (b ++ map cl h). repeat split. exact (B _ _ Q).
  Qed.

  Lemma heap_entry_stored k (m m1 : @OrdinalMap V) e : OrdinalMap_entry_act O k m = (m1, e) ->
    match e with
    | Ended en => stored m1 = stored m /\ exists i, Entry_new m1 k i = Val en
    | Unwinds _ => stored m1 = stored m
    | Aborts => False
    | Stuck => True
    end.
  Proof.
    unfold OrdinalMap_entry_act, OrdinalMap_init_full_map_act.
    assert (Init : forall n, llen m =? 0 = true -> stored (repeat (@None V) n) = stored m).
    { intros n E. rewrite stored_none. destruct m; [reflexivity|discriminate E]. }
    unfold abind, look, put, ret. destruct (ORDINAL_SIZE O) as [n|w| | |]; cbn [ending_of]; try (intros [= <- <-]; solve [auto]).
    destruct (llen m =? 0) eqn:E0; cbv beta iota; destruct (ordinal O k) as [i|w| | |]; cbn [ending_of];
      try (intros [= <- <-]; solve [auto]);
      (destruct (index_slot _ i) as [j|w| | |]; cbn [ending_of]; try (intros [= <- <-]; solve [auto]));
      match goal with |- context [Entry_new ?a k j] => destruct (Entry_new a k j) as [en|w| | |] eqn:En end; cbn [ending_of];
      intros [= <- <-]; eauto.
  Qed.
  Lemma array_entry_stored S k (m m1 : @OrdinalArrayMap V S) e : OrdinalArrayMap_entry_act O k m = (m1, e) ->
    m1 = m /\ match e with
    | Ended en => exists i, Entry_new (arr_list m1) k i = Val en
    | Aborts => False
    | _ => True
    end.
  Proof.
    unfold OrdinalArrayMap_entry_act, abind, look. destruct (OrdinalTotalArrayMap_index_mut O m k) as [i|w| | |]; cbn [ending_of];
      try (intros [= <- <-]; solve [auto]).
    destruct (Entry_new (arr_list m) k i) as [en|w| | |] eqn:En; cbn [ending_of]; intros [= <- <-]; eauto.
  Qed.
  Lemma no_entry k (v w : V) w0 log h : good_call (K := K) (OpEntryOrInsert k v w) h log (Unwinds w0) log h.
  Proof. exists [], [], []. rewrite app_nil_r. repeat split; [now left|]. unfold balanced. now rewrite app_nil_r. Qed.

  Lemma heap_life_law op log (m : @OrdinalMap V) log' m' e : heap_life boom O op (log, m) = ((log', m'), e) ->
    good_call op (stored m) log e log' (stored m').
  Proof.
    assert (G : gentle op = true -> (match op with OpInsert _ v => owning boom [v] (calm (heap_act O op)) | _ => calm (heap_act O op) end) (log, m)
      = ((log', m'), e) -> good_call op (stored m) log e log' (stored m')).
    { intros Hg. apply (gentle_law (held := @stored V)); [exact Hg|exact (heap_up Hg)| |]; intros.
      - eapply heap_returns; eassumption. - eapply heap_panics; eassumption. }
    destruct op; try (exact (G eq_refl)); clear G; cbn [heap_life].
    - exact (@clear_life_law _ _ _ _ _ _ _ _ _ _).
    - exact (@drain_life_law _ _ _ _ _ _ _ _ _ _ _ _).
    - unfold abind at 1. destruct (calm (OrdinalMap_entry_act O k) (log, m)) as [s1 e1] eqn:E1. apply calm_law in E1.
      destruct E1 as (m1 & E1 & ->). apply heap_entry_stored in E1. destruct e1 as [en|w0| |].
      + destruct E1 as [<- (i & En)]. exact (or_insert_law En).
      + intros [= <- <- <-]. rewrite <- E1. apply no_entry.
      + destruct E1.
      + intros [= <- <- <-]. exact I.
    - intros E. apply calm_law in E. destruct E as (m1 & E & [= <- <-]). unfold heap_act, replaces in E. cbn [heap_step] in E.
      injection E as <- <-. exact I.
    - intros E. apply assign_law in E. cbn [heap_step] in E. destruct E as [-> E]. apply clone_good; [|exact E].
      unfold OrdinalMap_clone. apply stored_map.
  Qed.

  Lemma slots_law S A (f : act (list V * list (option V)) A) log (m : @OrdinalArrayMap V S) log' m' e :
    on_slots_life f (log, m) = ((log', m'), e) -> e = Stuck \/ f (log, arr_list m) = ((log', arr_list m'), e).
  Proof.
    unfold on_slots_life. destruct (f (log, arr_list m)) as [[log1 l] e1]. destruct (try_arr S l) as [a|] eqn:Ga; intros [= <- <- <-]; auto.
    rewrite (try_arr_list Ga). auto.
  Qed.
  Lemma array_life_law S op log (m : @OrdinalArrayMap V S) log' m' e : array_life boom O op (log, m) = ((log', m'), e) ->
    good_call op (stored (arr_list m)) log e log' (stored (arr_list m')).
  Proof.
    assert (G : gentle op = true -> (match op with OpInsert _ v => owning boom [v] (calm (array_act O op)) | _ => calm (array_act O op) end) (log, m)
      = ((log', m'), e) -> good_call op (stored (arr_list m)) log e log' (stored (arr_list m'))).
    { intros Hg. apply (gentle_law (held := fun m : @OrdinalArrayMap V S => stored (arr_list m))); [exact Hg|exact (array_up Hg)| |]; intros.
      - eapply array_returns; eassumption. - eapply array_panics; eassumption. }
    destruct op; try (exact (G eq_refl)); clear G; cbn [array_life].
    - intros E. destruct (slots_law E) as [-> | E1]; [exact I|]. exact (clear_life_law E1).
    - intros E. destruct (slots_law E) as [-> | E1]; [exact I|]. exact (drain_life_law E1).
    - unfold abind at 1. destruct (calm (OrdinalArrayMap_entry_act O k) (log, m)) as [s1 e1] eqn:E1. apply calm_law in E1.
      destruct E1 as (m1 & E1 & ->). apply array_entry_stored in E1. destruct E1 as [-> E1]. destruct e1 as [en|w0| |].
      + destruct E1 as (i & En). intros E. destruct (slots_law E) as [-> | E2]; [exact I|]. exact (or_insert_law En E2).
      + intros [= <- <- <-]. apply no_entry.
      + destruct E1.
      + intros [= <- <- <-]. exact I.
    - apply retain_life_law.
    - intros E. apply assign_law in E. cbn [array_step] in E. destruct E as [-> E]. apply clone_good; [|exact E].
      unfold OrdinalArrayMap_clone, OrdinalTotalArrayMap_clone. unfold arr_clone; cbn [arr_list]. apply stored_map.
  Qed.

  (** *** Total maps *)
  Definition good_total (op : total_op K V) (h log : list V) (e : ending (total_out K V)) (log' h' : list V) : Prop :=
    match e with
    | Ended o => exists g t ds, log' = log ++ ds /\ total_life_account op (Seen o) h g t ds h' /\ balanced h g t ds h'
    | Unwinds w => exists g t ds, log' = log ++ ds /\ total_life_account op (Caught w) h g t ds h' /\ balanced h g t ds h'
    | Aborts => exists g ds rest, log' = log ++ ds /\ total_abort_account op h g /\ balanced h g [] ds rest
    | Stuck => True
    end.
  Definition tgentle (op : total_op K V) : bool := match op with TClone_ _ => false | _ => true end.
  Lemma tgentle_drops op s h g t d : tgentle op = true -> total_account op s h g t d -> d = [].
  Proof.
    destruct op; try discriminate; intros _; destruct s; cbn [total_account]; intros H;
      repeat match type of H with exists _, _ => destruct H as (? & H) | _ /\ _ => destruct H as (? & H) end; auto.
  Qed.
  Lemma tgentle_law {M} (held : M -> list V) (x : act M (total_out K V)) op log m log' m' e : tgentle op = true -> holds_up x ->
    (forall m' o, x m = (m', Ended o) -> taccounted op (Seen o) (held m) (held m')) ->
    (forall m' w, x m = (m', Unwinds w) -> taccounted op (Caught w) (held m) (held m')) ->
    (match op with TInsert _ v => owning boom [v] (calm x) | _ => calm x end) (log, m) = ((log', m'), e) ->
    good_total op (held m) log e log' (held m').
  Proof.
    intros Hg Hup Hret Hpan.
    assert (Calm : (forall k v, op <> TInsert k v) -> calm x (log, m) = ((log', m'), e) -> good_total op (held m) log e log' (held m')).
    { intros Ni E. apply calm_law in E. destruct E as (m1 & E & [= <- <-]). destruct e as [o|w| |].
      - destruct (Hret _ _ E) as (g & t & d & A & B). pose proof (tgentle_drops Hg A). subst d.
        exists g, t, []. rewrite app_nil_r. repeat split; [|exact B]. destruct op; try discriminate Hg; exact A.
      - destruct (Hpan _ _ E) as (g & t & d & A & B). pose proof (tgentle_drops Hg A). subst d.
        exists g, t, []. rewrite app_nil_r. repeat split; [|exact B]. destruct op; try discriminate Hg; try exact A.
        destruct (Ni k v eq_refl).
      - destruct (Hup m). now rewrite E.
      - exact I. }
    destruct op; try (apply Calm; discriminate).
    all: intros E; apply owning_law in E; destruct E as (log1 & m1 & e1 & E & H); apply calm_law in E; destruct E as (m2 & E & [= -> ->]).
    destruct e1 as [o|w| |].
    - destruct H as [-> [= -> ->]]. destruct (Hret _ _ E) as (g & t & d & A & B). pose proof (tgentle_drops Hg A). subst d.
      exists g, t, []. rewrite app_nil_r. repeat split; assumption.
    - destruct (Hpan _ _ E) as (g & t & d & (-> & -> & ->) & B).
      assert (P : balanced (held m) [v] [] [v] (held m2)).
      { unfold balanced in *. cbn [app] in *. eapply Permutation_trans; [apply Permutation_app_comm|]. cbn [app]. apply perm_skip.
        now rewrite app_nil_r in B. }
      destruct H as [[-> [= -> ->]] | (-> & a & b & Q & [= -> ->])].
      + exists [v], [], [v]. repeat split. exact P.
      + destruct a as [|y a].
        * exists [v], [], (v :: held m2). rewrite app_nil_r. repeat split. exact P.
        * injection Q as <- Q. symmetry in Q. apply app_eq_nil in Q. destruct Q as [-> ->].
          exists [v], [v], (held m2). repeat split. exact P.
    - destruct (Hup m). now rewrite E.
    - destruct H as [-> _]. exact I.
  Qed.
  Lemma tclone_good (cl : V -> V) h log e log' h' o : h' = map cl h ->
    ((e = Ended o \/ exists w, e = Unwinds w) /\ log' = log ++ h \/ e = Aborts /\ exists a b, h = a ++ b /\ log' = log ++ a) ->
    good_total (TClone_ K cl) h log e log' h'.
  Proof.
    intros ->.
    assert (B : forall a b, h = a ++ b -> balanced h (map cl h) [] a (b ++ map cl h)).
    { intros a b Q. unfold balanced. rewrite Q at 1. cbn [app]. rewrite <- app_assoc. apply Permutation_refl. }
    intros [[[-> | (w & ->)] ->] | (-> & a & b & Q & ->)].
    1, 2: exists (map cl h), [], h; repeat split; pose proof (B h [] (eq_sym (app_nil_r h))) as X; exact X.
    exists (map cl h), a, (b ++ map cl h). repeat split. exact (B _ _ Q).
  Qed.
  Lemma htotal_life_law op log (m : @OrdinalTotalMap V) log' m' e : htotal_life boom O op (log, m) = ((log', m'), e) ->
    good_total op m log e log' m'.
  Proof.
    assert (G : tgentle op = true -> (match op with TInsert _ v => owning boom [v] (calm (htotal_act O op)) | _ => calm (htotal_act O op) end) (log, m)
      = ((log', m'), e) -> good_total op m log e log' m').
    { intros Hg. apply (tgentle_law (held := fun m : @OrdinalTotalMap V => m)); [exact Hg|apply htotal_up| |]; intros.
      - eapply htotal_returns; eassumption. - eapply htotal_panics; eassumption. }
    destruct op; try (exact (G eq_refl)); clear G; cbn [htotal_life].
    intros E. apply assign_law in E. cbn [htotal_step] in E. destruct E as [-> E]. exact (tclone_good eq_refl E).
  Qed.
  Lemma atotal_life_law S op log (m : OrdinalTotalArrayMap S V) log' m' e : atotal_life boom O op (log, m) = ((log', m'), e) ->
    good_total op (arr_list m) log e log' (arr_list m').
  Proof.
    assert (G : tgentle op = true -> (match op with TInsert _ v => owning boom [v] (calm (atotal_act O op)) | _ => calm (atotal_act O op) end) (log, m)
      = ((log', m'), e) -> good_total op (arr_list m) log e log' (arr_list m')).
    { intros Hg. apply (tgentle_law (held := fun m : OrdinalTotalArrayMap S V => arr_list m)); [exact Hg|apply atotal_up| |]; intros.
      - eapply atotal_returns; eassumption. - eapply atotal_panics; eassumption. }
    destruct op; try (exact (G eq_refl)); clear G; cbn [atotal_life].
    intros E. apply assign_law in E. cbn [atotal_step] in E. destruct E as [-> E]. exact (tclone_good eq_refl E).
  Qed.
End Steps.
