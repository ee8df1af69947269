(** * SetLifeProofs2: lemmas for C113, programs over the three sets. *)
From Verif Require Import Base Spec SpecIter SpecMap SpecSet SpecCatch SpecResume SpecLifeRun SpecSetLife ModelOrdinal ModelValues ModelArrayBuilder
  ModelIter ModelSet ModelResume SetMachine ModelCatch ModelLife ModelSetLife
  OrdinalProofs BaseProofs BitProofs IterLib ArrayProofs ValuesProofs SetProofs CatchProofs CatchProofs3 CatchProofs4 LifeProofs5 SetLifeProofs.
From Coq Require Import List Lia. Import ListNotations.
Set Implicit Arguments. Unset Strict Implicit.

Section Lawful.
  Context {cfg : Config} {T : Type} (boom : list T -> T -> option panic) (O O0 : Ordinal T) (HP : panicking_version O O0).
  Context (n : N) (HO : ordinal_bijection O0 n).
  Context (eqd : forall a b : T, {a = b} + {a <> b}).
  Context (ks : list T) (He : enumeration O0 ks).
  Implicit Types (m : mset T) (log l : list T).

  Lemma returns_elem t : (exists i, ordinal O t = Val i) -> elem_panic O t = None.
  Proof. intros (i & E). unfold elem_panic, key_panic. now rewrite E. Qed.
  Lemma panics_elem t w : ordinal O t = Panic w -> elem_panic O t = Some w.
  Proof. intros E. unfold elem_panic, key_panic. now rewrite E. Qed.

  Section Kind.
    Context {M : Type} (rep : M -> mset T -> Prop) (scans : bool).
    Context (rep_ext : forall s m m', (forall t, m t = m' t) -> rep s m -> rep s m').
    Context (acts : set_op T -> act M (set_out T)) (reads : set_op T -> bool).
    (** One call, without destructors. *)
    Definition one_call (op : set_op T) : Prop := forall s m, rep s m ->
      (exists s', acts op s = (s', Ended (fst (sspec_step eqd ks op m))) /\ set_returns O op /\ rep s' (snd (sspec_step eqd ks op m))) \/
      (exists s' w, acts op s = (s', Unwinds w) /\ set_panics O reads op w /\ rep s' m).
    Context (life : set_op T -> act (list T * M) (set_out T)).
    Notation followed op := (follows life (set_life_step boom eqd ks O scans) rep op).

    Lemma calls_insert ins : (forall t, acts (SInsert t) = (b <! ins t ;; ret (SBool b))) -> (forall t, one_call (SInsert t)) ->
      adds_element O eqd rep ins (fun m t => negb (m t)).
    Proof.
      intros E H t s m R. destruct (H t s m R) as [(s' & E1 & Hr & R')|(s' & w & E1 & Hp & R')]; rewrite E in E1; unfold abind, ret in E1;
        destruct (ins t s) as [s1 e1]; destruct e1; try discriminate E1; injection E1 as E1 E2; subst; exists s'.
      - rewrite (returns_elem Hr). auto.
      - rewrite (panics_elem Hp). auto.
    Qed.
    Lemma follows_insert ins t : adds_element O eqd rep ins (fun m t => negb (m t)) ->
      life (SInsert t) = (b <! insert_element boom (ins t) t ;; ret (SBool b)) -> followed (SInsert t).
    Proof.
      intros H E log s m R. rewrite E. destruct (insert_ok boom H t log R) as (s' & E1 & R'). exists s'.
      unfold abind, set_life_step. cbn [sspec_step]. rewrite E1. destruct (elem_panic O t) as [w|].
      - unfold with_set, lost_elements. destruct (destroyed_all boom (Some w) log [t]) as [log' [e|]]; cbn; split; auto; intros; congruence.
      - destruct (boom log t); cbn; auto.
    Qed.
    Lemma follows_reads op : match op with SContains _ | SClone => True | _ => False end -> one_call op ->
      life op = calm (acts op) -> followed op.
    Proof.
      intros Hop H E log s m R. rewrite E. destruct op as [|t| | | |]; try destruct Hop; unfold set_life_step; cbn [sspec_step];
        destruct (H s m R) as [(s' & E1 & Hr & R')|(s' & w & E1 & Hp & R')]; exists s'; rewrite (calm_is log E1).
      - rewrite (returns_elem Hr). auto.
      - rewrite (panics_elem Hp). auto.
      - auto.
      - destruct Hp.
    Qed.
    (** A call that makes an iterator and uses it. *)
    Lemma follows_made It (make : M -> res It) (use : It -> act (list T * It) (set_out T)) op (spec : list T -> mset T -> list T * option (seen (set_out T))) :
      (forall log m, set_life_step boom eqd ks O scans op (log, m) = with_set m (spec log m)) ->
      (forall s m, rep s m -> exists it, make s = Val it /\ forall log, exists it',
         use it (log, it) = ((fst (spec log m), it'), ends_as (snd (spec log m)))) ->
      life op = made_from make use -> followed op.
    Proof.
      intros Es H E log s m R. rewrite E, Es. destruct (H s m R) as (it & Em & Hu). destruct (Hu log) as (it' & Eu).
      exists s. unfold made_from, abind.
      assert (Q : calm (V := T) (look make) (log, s) = ((log, s), Ended it)) by (apply calm_is; unfold look; now rewrite Em).
      rewrite Q, Eu. unfold with_set. cbn [fst snd]. auto.
    Qed.
    (** An iterator over all elements, as at the start. *)
    Definition fresh (make : M -> res SetIter) : Prop := forall s m, rep s m -> exists it ws,
      make s = Val it /\ words_ok O0 ws m /\ at_rest O0 n ws it ks.
    Lemma follows_debug make : fresh make -> life SDebug = debug_elements boom O make -> followed SDebug.
    Proof.
      intros H E. unfold debug_elements in E. refine (follows_made (spec := fun log m => printed boom O (SElems (members ks m)) log ks) _ _ E); [reflexivity|].
      intros s m R.
      destruct (H s m R) as (it & ws & Em & Hw & Hr). exists it. split; [exact Em|]. intros log.
      rewrite (rest_len Hr). exact (@print_ok _ _ boom O O0 HP n HO eqd ws m Hw (S (length ks)) [] log it ks Hr (Nat.lt_succ_diag_r _)).
    Qed.
    Lemma follows_scan make sched : scans = true -> fresh make ->
      life (SIter sched) = made_from make (fun _ => client_calls boom (elements_next boom O) sched []) -> followed (SIter sched).
    Proof.
      intros Hs H E. refine (follows_made (spec := fun log m => asked boom (next_passed boom O m) sched [] log ks) _ _ E).
      { intros log m. unfold set_life_step. rewrite Hs. reflexivity. }
      intros s m R.
      destruct (H s m R) as (it & ws & Em & Hw & Hr). exists it. split; [exact Em|]. intros log.
      exact (client_ok boom (elements_next_ok boom HP HO eqd Hw) sched [] log Hr).
    Qed.
    Lemma follows_collect new l ins b : adds_element O eqd rep ins b -> (exists s0, new = Val s0 /\ rep s0 ms_empty) ->
      life (SFromIter l) = assign_collected boom new (fun t => insert_element boom (ins t) t) l -> followed (SFromIter l).
    Proof.
      intros H (s0 & -> & R0) E log s m R. rewrite E. unfold assign_collected, abind.
      assert (Q : calm (V := T) (look (fun _ : M => Val s0)) (log, s) = ((log, s), Ended s0)) by (apply calm_is; reflexivity).
      rewrite (owning_ended boom l Q). destruct (collect_ok boom H l log R0) as (s1 & E1 & R1). rewrite E1.
      unfold set_life_step. cbn [sspec_step]. destruct (collected boom O log l) as [log' e]. cbn [fst snd] in *.
      destruct e as [[o|w]|]; [destruct R1 as [-> R1]; exists s1|exists s..]; split; try reflexivity; intros; auto.
      apply (rep_ext (m := adds eqd l ms_empty)); [|exact R1]. intros t. apply adds_set_of.
    Qed.
  End Kind.

  (** ** Iterators at the start *)
  Lemma ref_iter_start ws m : words_ok O0 ws m -> exists it, OrdinalSetRef_iter O0 ws = Val it /\ at_rest O0 n ws it ks.
  Proof.
    intros Hw. destruct (values_init HO) as (l & s & Hs & Hr & _ & He' & _).
    unfold OrdinalSetRef_iter, SetIter_new. rewrite Hs. cbn [bind]. eexists. split; [reflexivity|].
    rewrite (enumeration_unique He He'). split; [exact Hr|reflexivity].
  Qed.
  Lemma same_set_iter s : OrdinalSet_iter O s = OrdinalSet_iter O0 s.
  Proof. destruct HP as (H1 & H2 & _). clear - H1 H2. destruct O as [s1 o1 f1], O0 as [s2 o2 f2]. cbn in *. subst. reflexivity. Qed.
  Lemma same_array_iter (S : nat) (s : OrdinalArraySet S) :
    (r <- OrdinalArraySet_as_ref O s ;; OrdinalSetRef_iter O r) = (r <- OrdinalArraySet_as_ref O0 s ;; OrdinalSetRef_iter O0 r).
  Proof. destruct HP as (H1 & H2 & _). clear - H1 H2. destruct O as [s1 o1 f1], O0 as [s2 o2 f2]. cbn in *. subst. reflexivity. Qed.
  Lemma same_set64_iter s :
    (r <- OrdinalSet64_as_ref O s ;; OrdinalSetRef_iter O r) = (r <- OrdinalSet64_as_ref O0 s ;; OrdinalSetRef_iter O0 r).
  Proof. destruct HP as (H1 & H2 & _). clear - H1 H2. destruct O as [s1 o1 f1], O0 as [s2 o2 f2]. cbn in *. subst. reflexivity. Qed.
  Lemma same_assert : Set64_ASSERT O = Set64_ASSERT O0.
  Proof. destruct HP as (H1 & H2 & _). clear - H1 H2. destruct O as [s1 o1 f1], O0 as [s2 o2 f2]. cbn in *. subst. reflexivity. Qed.

  (** ** OrdinalSet *)
  Lemma set_one op : n <= usize_max - 64 \/ n <= 64 -> inhabited_or_release n -> one_call (set_inv O0 n) (set_act O) scans_words op.
  Proof.
    intros Hn Hi s m H. destruct (set_good O op) as (Er & P & L). destruct (set_cases HP HO eqd He op Hn H) as [[E Hr]|(w & E & Hp)].
    - left. destruct (set_step_law HO eqd op Hn Hi He H) as (s' & E' & H'). exists s'. split; [|auto]. apply Er. now rewrite E.
    - right. destruct (proj1 (P s w) E) as (s' & E'). exists s', w. split; [exact E'|]. split; [exact Hp|].
      exact (left_inv HP HO (L _ _ _ E') H).
  Qed.
  Lemma set_follows op : n <= usize_max - 64 \/ n <= 64 -> inhabited_or_release n ->
    follows (set_life boom O) (set_life_step boom eqd ks O true) (set_inv O0 n) op.
  Proof.
    intros Hn Hi.
    assert (Hins : adds_element O eqd (set_inv O0 n) (OrdinalSet_insert_act O) (fun m t => negb (m t))).
    { apply calls_insert with (acts := set_act O) (reads := scans_words); [reflexivity|]. intros t. now apply set_one. }
    assert (Hf : fresh (set_inv O0 n) (OrdinalSet_iter O)).
    { intros s m H. rewrite same_set_iter. destruct (as_ref_law HO Hi H) as (ws & E & Hw). unfold OrdinalSet_iter. rewrite E. cbn [bind].
      destruct (ref_iter_start Hw) as (it & Ei & Hr). exists it, ws. auto. }
    destruct op as [t|t|sched|l| |].
    - eapply follows_insert; [exact Hins|reflexivity].
    - apply follows_reads with (acts := set_act O) (reads := scans_words); [exact I|now apply set_one|reflexivity].
    - eapply follows_scan; [reflexivity|exact Hf|reflexivity].
    - eapply follows_collect; [exact (@set_inv_ext _ O0 n)|exact Hins| |reflexivity].
      rewrite (set_new_version HP). exact (set_new_law HO).
    - apply follows_reads with (acts := set_act O) (reads := scans_words); [exact I|now apply set_one|reflexivity].
    - eapply follows_debug; [exact Hf|reflexivity].
  Qed.

  (** ** OrdinalArraySet *)
  Lemma array_inv_ext (S : nat) (s : OrdinalArraySet S) m m' : (forall t, m t = m' t) -> array_set_inv O0 n s m -> array_set_inv O0 n s m'.
  Proof. intros E [H1 H2]. split; [exact H1|]. exact (words_ok_ext E H2). Qed.
  Lemma array_one (S : nat) op : not_iter op = true -> one_call (array_set_inv O0 n (S := S)) (array_set_act O (S := S)) scans_words op.
  Proof.
    intros Hop s m H. destruct (array_set_good O S op) as (Er & P & L). destruct (array_cases HP HO eqd He Hop H) as [[E Hr]|(w & E & Hp)].
    - left. destruct (array_step_law HO eqd He Hop H) as (s' & E' & H'). exists s'. split; [|auto]. apply Er. now rewrite E.
    - right. destruct (proj1 (P s w) E) as (s' & E'). exists s', w. split; [exact E'|]. split; [exact Hp|].
      rewrite <- (L _ _ _ E'). exact H.
  Qed.
  Lemma array_set_follows (S : nat) op : N.of_nat S = wcount n -> not_iter op = true ->
    follows (array_set_life boom O (S := S)) (set_life_step boom eqd ks O true) (array_set_inv O0 n (S := S)) op.
  Proof.
    intros HS Hop.
    assert (Hins : adds_element O eqd (array_set_inv O0 n (S := S)) (OrdinalArraySet_insert_act O (S := S)) (fun m t => negb (m t))).
    { apply calls_insert with (acts := array_set_act O (S := S)) (reads := scans_words); [reflexivity|]. intros t. now apply array_one. }
    assert (Hf : fresh (array_set_inv O0 n (S := S)) (fun s => r <- OrdinalArraySet_as_ref O s ;; OrdinalSetRef_iter O r)).
    { intros s m H. rewrite same_array_iter, (array_as_ref_law HO H). cbn [bind].
      destruct (ref_iter_start (proj2 H)) as (it & Ei & Hr). exists it, (arr_list s). split; [exact Ei|]. split; [exact (proj2 H)|exact Hr]. }
    destruct op as [t|t|sched|l| |]; try discriminate Hop.
    - eapply follows_insert; [exact Hins|reflexivity].
    - apply follows_reads with (acts := array_set_act O (S := S)) (reads := scans_words); [exact I|now apply array_one|reflexivity].
    - eapply follows_collect; [exact (@array_inv_ext S)|exact Hins| |reflexivity].
      rewrite (array_set_new_version HP). exact (array_new_law HO HS).
    - apply follows_reads with (acts := array_set_act O (S := S)) (reads := scans_words); [exact I|now apply array_one|reflexivity].
    - eapply follows_debug; [exact Hf|reflexivity].
  Qed.

  (** ** OrdinalSet64 *)
  Lemma set64_inv_ext s m m' : (forall t, m t = m' t) -> set64_inv O0 n s m -> set64_inv O0 n s m'.
  Proof. intros E (H1 & H2 & H3). split; [exact H1|]. split; [exact H2|]. intros t i Hi. rewrite <- E. auto. Qed.
  Lemma set64_one op : not_debug op = true \/ inhabited_or_release n -> one_call (set64_inv O0 n) (set64_act O) scans_set64 op.
  Proof.
    intros Hop s m H. destruct (set64_good O op) as (Er & P & L). destruct (set64_cases HP HO eqd He op H) as [[E Hr]|(w & E & Hp)].
    - left. destruct (set64_step_law HO eqd Hop He H) as (s' & E' & H'). exists s'. split; [|auto]. apply Er. now rewrite E.
    - right. destruct (proj1 (P s w) E) as (s' & E'). exists s', w. split; [exact E'|]. split; [exact Hp|].
      rewrite <- (L _ _ _ E'). exact H.
  Qed.
  Lemma or_adds : adds_element O eqd (set64_inv O0 n) (or_element O) (fun _ _ => true).
  Proof.
    intros t s m H. unfold or_element, abind, look, put, ret.
    destruct (elem_cases HP HO t) as [[E ->]|(w & E & ->)]; rewrite E; [|exists s; auto].
    destruct (bij_to HO t) as (i & Hi & Hlt & _). rewrite Hi. cbn [ending_of]. pose proof (proj1 H). rewrite shl_one by lia. cbn [ending_of].
    eexists. split; [reflexivity|]. now apply set64_add_law.
  Qed.
  Lemma set64_follows op : n <= 64 -> not_debug op = true \/ inhabited_or_release n ->
    follows (set64_life boom O) (set_life_step boom eqd ks O false) (set64_inv O0 n) op.
  Proof.
    intros Hn Hop.
    assert (Hins : adds_element O eqd (set64_inv O0 n) (OrdinalSet64_insert_act O) (fun m t => negb (m t))).
    { apply calls_insert with (acts := set64_act O) (reads := scans_set64); [reflexivity|]. intros t. apply set64_one. now left. }
    destruct op as [t|t|sched|l| |].
    - eapply follows_insert; [exact Hins|reflexivity].
    - apply follows_reads with (acts := set64_act O) (reads := scans_set64); [exact I|now apply set64_one|reflexivity].
    - apply (@follows_made _ (set64_inv O0 n) false (set64_life boom O) _ (OrdinalSet64_iter O) (fun _ => client_calls boom (members_next O) sched [])
        (SIter sched) (fun log m => asked boom next_member sched [] log (members ks m))); [reflexivity| |reflexivity].
      intros s m R. exists s. split; [unfold OrdinalSet64_iter; rewrite same_assert, (set64_assert HO Hn); reflexivity|].
      intros log. exact (client_ok boom (members_next_ok HP HO) sched [] log (i64_start HO R He)).
    - eapply follows_collect; [exact set64_inv_ext|exact or_adds| |reflexivity].
      rewrite (set64_new_version HP). exists 0. exact (set64_new_law HO Hn).
    - apply follows_reads with (acts := set64_act O) (reads := scans_set64); [exact I|now apply set64_one|reflexivity].
    - assert (Hi : inhabited_or_release n) by (destruct Hop as [Hop|Hop]; [discriminate Hop|exact Hop]).
      assert (Hf : fresh (set64_inv O0 n) (fun s => r <- OrdinalSet64_as_ref O s ;; OrdinalSetRef_iter O r)).
      { intros s m H. rewrite same_set64_iter. unfold OrdinalSet64_as_ref. pose proof (set64_words HO H) as Hw.
        rewrite (ref_new_law HO); [|unfold ref_fits; destruct Hi as [Hi|Hi]; [|auto]; rewrite (wcount_small Hi Hn); auto].
        cbn [bind]. destruct (ref_iter_start Hw) as (it & Ei & Hr). exists it, [s]. auto. }
      eapply follows_debug; [exact Hf|reflexivity].
  Qed.
End Lawful.
