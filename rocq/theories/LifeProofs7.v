(** * LifeProofs7: lemmas for C110, owning iterators. *)
From Verif Require Import Base Spec SpecIter SpecMap SpecTotal SpecCatch SpecResume SpecDrop SpecLifeRun SpecLifeEnds ModelOrdinal ModelValues ModelArrayBuilder
  ModelIter ModelTotal ModelMap ModelResume ModelUnwind ModelDrop MapMachine TotalMachine ModelCatch ModelLife
  OrdinalProofs BaseProofs IterLib ValuesProofs IterProofs MapIterProofs MapLib ArrayProofs MapMutProofs MapProofs MapProofs2 MapProofs5 TotalProofs TotalProofs3 ResumeProofs UnwindProofs2 DropProofs
  CatchProofs CatchProofs2 LifeProofs5 LifeProofs6.
From Coq Require Import List. Import ListNotations.
Set Implicit Arguments. Unset Strict Implicit.

(** ** Calls that may panic *)
Section Owned.
  Context {cfg : Config} {K V : Type} (boom : list V -> V -> option panic).

  Lemma ask_key (O : Ordinal K) i : answers_all O ->
    ask (pure_from O) tt i = (tt, match key_for O i with ResOk k => Val k | ResErr w => Panic w end).
  Proof.
    intros H. unfold ask, pure_from, key_for. destruct (H i) as [(o & ->)|(w & ->)]; [destruct o|]; reflexivity.
  Qed.

  Section Items.
  Context {A : Type} (values : list A -> list V).
  Notation at_pos := (@at_pos A).
  (** [p]: the position of the first item left. *)
  Definition follows_items (it : enumerate A) (s : N * list (N * A)) : Prop :=
    exists p, snd s = at_pos p (e_items it) /\ e_next it + fst s = N.of_nat p /\ e_next it + llen (e_items it) <= usize_max.

  Definition step_end (O : Ordinal K) (i : N) (a : A) (log : list V) (it it1 : enumerate A)
      : (list V * enumerate A) * ending (option (K * A)) :=
    match key_for O i with
    | ResOk k => ((log, it1), Ended (Some (k, a)))
    | ResErr w => ((fst (@lost V boom (option (K * A)) w log (values [a])), it), ends_as (snd (@lost V boom (option (K * A)) w log (values [a]))))
    end.
  Lemma owned_front O log nx a r : answers_all O -> nx + 1 <= usize_max ->
    owned_step boom O values Front (log, {| e_next := nx; e_items := a :: r |}) =
    step_end O nx a log {| e_next := nx; e_items := r |} {| e_next := nx + 1; e_items := r |}.
  Proof.
    intros HA Hn. unfold owned_step, step_end. cbn [enumerate_resume]. unfold enumerate_resume_next. cbn [e_items e_next pop_front].
    rewrite (ask_key _ HA). destruct (key_for O nx) as [k|w].
    - rewrite uadd_small by exact Hn. now apply owning_ended.
    - cbn [bind]. apply (@owning_lost _ _ boom). reflexivity.
  Qed.
  Lemma owned_back O log nx a r : answers_all O -> nx + llen r <= usize_max ->
    owned_step boom O values Back (log, {| e_next := nx; e_items := r ++ [a] |}) =
    step_end O (nx + llen r) a log {| e_next := nx; e_items := r |} {| e_next := nx; e_items := r |}.
  Proof.
    intros HA Hn. unfold owned_step, step_end. cbn [enumerate_resume]. unfold enumerate_resume_back, popped. cbn [e_items e_next].
    rewrite pop_back_snoc, (uadd_small Hn), (ask_key _ HA). destruct (key_for O (nx + llen r)) as [k|w].
    - now apply owning_ended.
    - cbn [bind]. apply (@owning_lost _ _ boom). reflexivity.
  Qed.
  Lemma owned_empty (O : Ordinal K) d log nx : owned_step boom O values d (log, {| e_next := nx; e_items := [] |}) = ((log, {| e_next := nx; e_items := [] |}), Ended None).
  Proof. destruct d; reflexivity. Qed.
  End Items.

  Lemma walk_lost A O d values keep log lag p (a : A) l w : key_for O (p - lag) = ResErr w ->
    owned_walk boom (K := K) values O d keep log lag ((p, a) :: l) =
    ((fst (@lost V boom (option (K * V)) w log (values a)), (match d with Front => lag + 1 | Back => lag end, l)), snd (@lost V boom (option (K * V)) w log (values a))).
  Proof. intros E. cbn [owned_walk]. rewrite E. destruct (lost _ _ _ _); reflexivity. Qed.

  (** *** Sparse maps *)
  Notation one := (fun o : option V => stored [o]).
  Notation sparse := (owned_spec (K := K) boom one (fun o => o)).
  Lemma ends_lost B C w vs log : @ends_as B (snd (lost boom w log vs)) = match @ends_as C (snd (lost boom w log vs)) with Ended _ => Stuck | Unwinds w => Unwinds w | Aborts => Aborts | Stuck => Stuck end.
  Proof. rewrite !lost_end. destruct (snd _); reflexivity. Qed.
  Lemma lost_same B C w vs log : fst (@lost V boom B w log vs) = fst (@lost V boom C w log vs).
  Proof. now rewrite !lost_log. Qed.

  Lemma sparse_front (O : Ordinal K) (HA : answers_all O) items : forall fuel log nx lag p, (length items < fuel)%nat ->
    nx + lag = N.of_nat p -> nx + llen items <= usize_max ->
    exists it', owned_sparse boom O Front fuel (log, {| e_next := nx; e_items := items |}) =
      ((fst (fst (owned_walk boom one O Front (fun o => o) log lag (at_pos p items))), it'),
       ends_as (snd (owned_walk boom one O Front (fun o => o) log lag (at_pos p items)))) /\
      follows_items it' (snd (fst (owned_walk boom one O Front (fun o => o) log lag (at_pos p items)))).
  Proof.
    induction items as [|a items IH]; intros fuel log nx lag p Hf Hp Hu; (destruct fuel as [|fuel]; [cbn in Hf; lia|]);
      cbn [owned_sparse]; unfold abind.
    - rewrite owned_empty. eexists. split; [reflexivity|]. exists p. cbn. auto.
    - unfold llen in Hu. cbn [length] in Hu, Hf. rewrite owned_front by (assumption || lia). unfold step_end.
      change (at_pos p (a :: items)) with ((N.of_nat p, a) :: at_pos (S p) items).
      assert (Ep : N.of_nat p - lag = nx) by lia. destruct (key_for O nx) as [k|w] eqn:Ek.
      + cbn [owned_walk]. rewrite Ep, Ek. destruct a as [v|].
        * eexists. split; [reflexivity|]. exists (S p). cbn [fst snd e_next e_items]. unfold llen. repeat split; lia.
        * apply IH; unfold llen; lia.
      + rewrite walk_lost with (w := w) by (rewrite Ep; exact Ek). cbn [fst snd].
        rewrite (ends_lost (option (K * V)) (option (K * option V))), (lost_same (option (K * V)) (option (K * option V))), lost_end.
        eexists. split; [destruct (snd _); reflexivity|]. exists (S p). cbn [fst snd e_next e_items]. unfold llen. repeat split; lia.
  Qed.
  Lemma sparse_back (O : Ordinal K) (HA : answers_all O) items : forall fuel log nx lag p, (length items < fuel)%nat ->
    nx + lag = N.of_nat p -> nx + llen items <= usize_max ->
    let '((log', (lag', l')), x) := owned_walk boom one O Back (fun o => o) log lag (rev (at_pos p items)) in
    exists it', owned_sparse boom O Back fuel (log, {| e_next := nx; e_items := items |}) = ((log', it'), ends_as x) /\
      follows_items it' (lag', rev l').
  Proof.
    induction items as [|a items IH] using rev_ind; intros fuel log nx lag p Hf Hp Hu; (destruct fuel as [|fuel]; [cbn in Hf; lia|]);
      cbn [owned_sparse]; unfold abind.
    - rewrite owned_empty. eexists. split; [reflexivity|]. exists p. cbn. auto.
    - unfold llen in Hu. rewrite app_length in Hu, Hf. cbn [length] in Hu, Hf. rewrite owned_back by (assumption || (unfold llen; lia)). unfold step_end.
      rewrite at_pos_snoc, rev_app_distr. cbn [rev app].
      assert (Ep : N.of_nat (p + length items) - lag = nx + llen items) by (unfold llen; lia). destruct (key_for O (nx + llen items)) as [k|w] eqn:Ek.
      + cbn [owned_walk]. rewrite Ep, Ek. destruct a as [v|].
        * eexists. split; [reflexivity|]. exists p. cbn [fst snd e_next e_items]. rewrite rev_involutive. unfold llen. repeat split; lia.
        * apply IH; unfold llen; lia.
      + rewrite walk_lost with (w := w) by (rewrite Ep; exact Ek).
        rewrite (ends_lost (option (K * V)) (option (K * option V))), (lost_same (option (K * V)) (option (K * option V))), lost_end.
        eexists. split; [destruct (snd _); reflexivity|]. exists p. cbn [fst snd e_next e_items]. rewrite rev_involutive. unfold llen. repeat split; lia.
  Qed.
  Lemma sparse_follows (c : Ordinal K * dir) : answers_all (fst c) ->
    follows (fun c => owned_next boom (fst c) (snd c)) (fun c => sparse (fst c) (snd c)) (follows_items (A := option V)) c.
  Proof.
    destruct c as [O d]. cbn [fst snd]. intros HA log [nx items] [lag l] (p & E & Hp & Hu). cbn [fst snd e_next e_items] in *. subst l.
    unfold owned_next, owned_spec. cbn [fst snd e_items]. destruct d.
    - destruct (sparse_front HA (fuel := Datatypes.S (length items)) log (nx := nx) (lag := lag) (p := p) (items := items)) as (it' & E & R); [lia|lia|lia|].
      exists it'. split; [exact E|auto].
    - pose proof (sparse_back HA (fuel := Datatypes.S (length items)) log (nx := nx) (lag := lag) (p := p) (items := items)) as X.
      destruct (owned_walk boom one O Back _ log lag (rev (at_pos p items))) as [[log' [lag' l']] x].
      destruct X as (it' & E & R); [lia|lia|lia|]. exists it'. cbn [fst snd]. split; [exact E|auto].
  Qed.

  (** *** Total maps *)
  Lemma total_follows (c : Ordinal K * dir) : answers_all (fst c) ->
    follows (fun c => total_next boom (fst c) (snd c)) (fun c => owned_spec boom (fun v : V => [v]) (@Some V) (fst c) (snd c)) (follows_items (A := V)) c.
  Proof.
    destruct c as [O d]. cbn [fst snd]. intros HA log [nx items] [lag l] (p & E & Hp & Hu). cbn [fst snd e_next e_items] in *. subst l.
    unfold total_next, owned_spec. unfold llen in Hu. destruct d.
    - destruct items as [|a items]; cbn [length] in Hu.
      + rewrite owned_empty. eexists. split; [reflexivity|]. intros _. exists p. cbn. auto.
      + rewrite owned_front by (assumption || lia). unfold step_end.
        change (at_pos p (a :: items)) with ((N.of_nat p, a) :: at_pos (S p) items).
        assert (Ep : N.of_nat p - lag = nx) by lia. destruct (key_for O nx) as [k|w] eqn:Ek.
        * cbn [owned_walk]. rewrite Ep, Ek. eexists. split; [reflexivity|]. intros _. exists (S p). cbn [fst snd e_next e_items]. unfold llen. repeat split; lia.
        * rewrite walk_lost with (w := w) by (rewrite Ep; exact Ek). cbn [fst snd].
          eexists. split; [reflexivity|]. intros _. exists (S p). cbn [fst snd e_next e_items]. unfold llen. repeat split; lia.
    - destruct items as [|a items _] using rev_ind; rewrite ?app_length in Hu; cbn [length] in Hu.
      + rewrite owned_empty. eexists. split; [reflexivity|]. intros _. exists p. cbn. auto.
      + rewrite owned_back by (assumption || (unfold llen; lia)). unfold step_end. rewrite at_pos_snoc, rev_app_distr. cbn [rev app].
        assert (Ep : N.of_nat (p + length items) - lag = nx + llen items) by (unfold llen; lia). destruct (key_for O (nx + llen items)) as [k|w] eqn:Ek.
        * cbn [owned_walk]. rewrite Ep, Ek. eexists. split; [reflexivity|]. intros _. exists p. cbn [fst snd e_next e_items].
          rewrite rev_involutive. unfold llen. repeat split; lia.
        * rewrite walk_lost with (w := w) by (rewrite Ep; exact Ek). cbn [fst snd].
          eexists. split; [reflexivity|]. intros _. exists p. cbn [fst snd e_next e_items]. rewrite rev_involutive. unfold llen. repeat split; lia.
  Qed.

  (** *** All calls *)
  Lemma items_start {A} (items : list A) : llen items <= usize_max -> follows_items (enumerate_new items 0) (0, positions items).
  Proof. intros H. exists 0%nat. cbn [fst snd enumerate_new e_next e_items]. auto. Qed.
  Lemma items_left {A} it lag (rest : list (N * A)) : follows_items it (lag, rest) -> e_items it = map snd rest.
  Proof.
    intros (p & E & _). cbn [snd] in E. rewrite E. unfold at_pos. rewrite combine_snd; [reflexivity|]. now rewrite map_length, seq_length.
  Qed.
  Lemma owned_exact (calls : list (Ordinal K * dir)) log : Forall (fun c => answers_all (fst c)) calls ->
    (forall items : list (option V), llen items <= usize_max ->
       match life_run (fun c => owned_spec boom (fun o => stored [o]) (fun o => o) (fst c) (snd c)) calls (log, (0, positions items)) with
       | Some (got, (log', (_, rest))) => exists it,
           catch_run (fun c => owned_next boom (fst c) (snd c)) calls (log, enumerate_new items 0) = Some (got, (log', it)) /\ e_items it = map snd rest
       | None => exists calls1 c calls2 got s, calls = calls1 ++ c :: calls2 /\
           catch_run (fun c => owned_next boom (fst c) (snd c)) calls1 (log, enumerate_new items 0) = Some (got, s) /\
           snd (owned_next boom (fst c) (snd c) s) = Aborts
       end) /\
    (forall items : list V, llen items <= usize_max ->
       match life_run (fun c => owned_spec boom (fun v => [v]) (@Some V) (fst c) (snd c)) calls (log, (0, positions items)) with
       | Some (got, (log', (_, rest))) => exists it,
           catch_run (fun c => total_next boom (fst c) (snd c)) calls (log, enumerate_new items 0) = Some (got, (log', it)) /\ e_items it = map snd rest
       | None => exists calls1 c calls2 got s, calls = calls1 ++ c :: calls2 /\
           catch_run (fun c => total_next boom (fst c) (snd c)) calls1 (log, enumerate_new items 0) = Some (got, s) /\
           snd (total_next boom (fst c) (snd c) s) = Aborts
       end).
  Proof.
    intros HA. split; intros items Hl.
    - pose proof (follows_run sparse_follows HA log (items_start Hl)) as F.
      destruct (life_run _ calls _) as [[got [log' [lag rest]]]|]; [|exact F]. destruct F as (it & E & R). exists it. split; [exact E|exact (items_left R)].
    - pose proof (follows_run total_follows HA log (items_start Hl)) as F.
      destruct (life_run _ calls _) as [[got [log' [lag rest]]]|]; [|exact F]. destruct F as (it & E & R). exists it. split; [exact E|exact (items_left R)].
  Qed.
End Owned.

(** ** Calls that do not panic *)
Section Calm.
  Context {cfg : Config} {K V : Type} (boom : list V -> V -> option panic) (O O0 : Ordinal K) (HP : panicking_version O O0).
  Context (n : N) (HO : ordinal_bijection O0 n).

  Lemma owned_step_val {A} (values : list A -> list V) d log it o it' : enumerate_step O d it = Val (o, it') ->
    owned_step boom O values d (log, it) = ((log, it'), Ended o).
  Proof.
    rewrite enumerate_agree. unfold forget, owned_step. destruct (enumerate_resume (pure_from O) d (tt, it)) as [[u it1] r]. cbn [fst snd].
    destruct r as [x| | | |]; cbn; try discriminate. intros [= -> ->]. reflexivity.
  Qed.
  Lemma owned_sparse_val d fuel : forall log it o it', sparse_loop (enumerate_step O d) (fun o => Val o) fuel it = Val (o, it') ->
    owned_sparse boom O d fuel (log, it) = ((log, it'), Ended o).
  Proof.
    induction fuel as [|fuel IH]; intros log it o it'; [discriminate|]. cbn [sparse_loop owned_sparse]. unfold abind.
    destruct (enumerate_step O d it) as [[x it1]| | | |] eqn:E; cbn [bind]; try discriminate. rewrite (owned_step_val _ _ E).
    destruct x as [[k [v|]]|]; cbn [bind]; [intros [= <- <-]; reflexivity|apply IH|intros [= <- <-]; reflexivity].
  Qed.
  Lemma same_enumerate {A} d (it : enumerate A) : enumerate_step O d it = enumerate_step O0 d it.
  Proof. destruct HP as (_ & Hf & _). destruct d; cbn; unfold enumerate_next, enumerate_next_back; now rewrite Hf. Qed.
  Lemma same_sparse d fuel : forall it : enumerate (option V),
    sparse_loop (enumerate_step O d) (fun o => Val o) fuel it = sparse_loop (enumerate_step O0 d) (fun o => Val o) fuel it.
  Proof.
    induction fuel as [|fuel IH]; intros it; [reflexivity|]. cbn [sparse_loop]. rewrite same_enumerate.
    destruct (enumerate_step O0 d it) as [[[[k [v|]]|] it1]| | | |]; cbn [bind]; auto.
  Qed.
  Lemma owned_calm d log (it : enumerate (option V)) l : spending O0 n (fun o => Val o) (fun o => o) it l ->
    exists it', owned_next boom O d (log, it) = ((log, it'), Ended (fst (deque_step d l))) /\
      spending O0 n (fun o => Val o) (fun o => o) it' (snd (deque_step d l)).
  Proof.
    intros H. destruct (IntoIter_refines HO d H) as (it' & E & H'). exists it'. split; [|exact H'].
    unfold owned_next. cbn [snd]. apply owned_sparse_val. rewrite same_sparse. exact E.
  Qed.
  Lemma total_calm d log (it : enumerate V) l : pending O0 n it l ->
    exists it', total_next boom O d (log, it) = ((log, it'), Ended (fst (deque_step d l))) /\ pending O0 n it' (snd (deque_step d l)).
  Proof.
    intros H. destruct (enumerate_refines HO d H) as (it' & E & H'). exists it'. split; [|exact H'].
    apply owned_step_val. now rewrite same_enumerate.
  Qed.
End Calm.

Section Lives.
  Context {cfg : Config} {K V : Type} (boom : list V -> V -> option panic) (O : Ordinal K) (n : N) (HO : ordinal_bijection O n).
  Context (eqd : forall a b : K, {a = b} + {a <> b}) (ks : list K) (He : enumeration O ks).

  Section Run.
  Context {It : Type} (next : Ordinal K -> dir -> act (list V * It) (option (K * V))) (R : It -> list (K * V) -> Prop).
  Context (Hn : forall O1 d log it l, panicking_version O1 O -> R it l ->
    exists it', next O1 d (log, it) = ((log, it'), Ended (fst (deque_step d l))) /\ R it' (snd (deque_step d l))).
  Lemma calm_run (cs : list (Ordinal K * dir)) : Forall (fun c => panicking_version (fst c) O) cs -> forall log it l, R it l ->
    exists it', catch_run (fun c => next (fst c) (snd c)) cs (log, it) =
      Some (map Seen (fst (deque_run (map snd cs) l)), (log, it')) /\ R it' (snd (deque_run (map snd cs) l)).
  Proof.
    induction 1 as [|[O1 d] cs H1 _ IH]; intros log it l HR; cbn [catch_run map snd fst]; [exists it; auto|].
    cbn [fst] in H1. destruct (Hn d log H1 HR) as (it1 & E & R1). destruct (IH log it1 _ R1) as (it2 & E2 & R2). exists it2.
    rewrite E, E2, deque_run_cons. auto.
  Qed.
  End Run.

  Definition glued (p : option (option panic)) : ending unit :=
    match p with Some None => Ended tt | Some (Some w) => Unwinds w | None => Aborts end.
  Lemma spending_stored (it : enumerate (option V)) l : spending O n (fun o => Val o) (fun o => o) it l -> stored (e_items it) = map snd l.
  Proof.
    intros (l' & (_ & -> & _) & -> & _). clear. induction l' as [|[k [v|]] l' IH]; cbn; [reflexivity| |]; rewrite ?IH; reflexivity.
  Qed.

  (** *** Sparse maps *)
  Lemma sparse_end (st : list (option V)) ks' (m : pmap K V) (cs : list (Ordinal K * dir)) log : st = map m ks' -> key_slots O n ks' ->
    Forall (fun c => panicking_version (fst c) O) cs ->
    exists it, catch_run (fun c => owned_next boom (fst c) (snd c)) cs (log, enumerate_new st 0) =
        Some (map Seen (fst (deque_run (map snd cs) (pm_entries ks' m))), (log, it)) /\
      glue boom (stored (e_items it)) (log, tt) =
        ((fst (destroyed_all boom None log (map snd (snd (deque_run (map snd cs) (pm_entries ks' m))))), tt),
         glued (snd (destroyed_all boom None log (map snd (snd (deque_run (map snd cs) (pm_entries ks' m))))))).
  Proof.
    intros -> Hk Hc. destruct (calm_run (R := spending O n (fun o => Val o) (fun o => o))
      (fun O1 d log it l H1 H2 => owned_calm boom H1 HO d log H2) Hc log (iter_init m Hk)) as (it & E & R).
    exists it. split; [exact E|]. rewrite (spending_stored R). apply glue_is.
  Qed.
  Lemma heap_life_exact O1 (l : list (K * V)) log0 m0 (ops : list (Ordinal K * map_op K V)) outs log1 m1 : panicking_version O1 O ->
    Forall (fun p => panicking_version (fst p) O /\ heap_op (snd p) = true) ops ->
    collected boom O1 eqd ks [] l pm_empty = (log0, Some (Seen m0)) ->
    life_run (fun p => life_step boom eqd ks (fst p) (snd p)) ops (log0, m0) = Some (outs, (log1, m1)) ->
    exists st0 st1, heap_from_iter_life boom O1 l ([], tt) = ((log0, tt), Ended st0) /\
      catch_run (fun p => heap_life boom (fst p) (snd p)) ops (log0, st0) = Some (outs, (log1, st1)) /\
      forall cs : list (Ordinal K * dir), Forall (fun c => panicking_version (fst c) O) cs ->
      let '(got, rest) := deque_run (map snd cs) (pm_entries ks m1) in
      let '(log2, p) := destroyed_all boom None log1 (map snd rest) in
      exists it, catch_run (fun c => owned_next boom (fst c) (snd c)) cs (log1, OrdinalMap_into_iter st1) = Some (map Seen got, (log1, it)) /\
        glue boom (stored (e_items it)) (log1, tt) = ((log2, tt), glued p).
  Proof.
    intros H1 Ho E0 E1. destruct (heap_collected boom H1 HO eqd He l []) as (e & Ec & H). rewrite E0 in *. cbn [fst snd] in *.
    destruct H as (st0 & -> & R0). exists st0.
    pose proof (@follows_run _ _ _ _ _ (fun p : Ordinal K * map_op K V => heap_life boom (fst p) (snd p))
      (fun p => life_step boom eqd ks (fst p) (snd p)) (heap_rep O n ks) (fun p => panicking_version (fst p) O /\ heap_op (snd p) = true)) as F.
    specialize (F ltac:(intros [O2 op] [H2 H3]; exact (heap_follows boom H2 HO eqd He H3)) ops Ho log0 st0 m0 R0).
    rewrite E1 in F. destruct F as (st1 & Er & R1). exists st1. split; [exact Ec|]. split; [exact Er|]. intros cs Hc.
    destruct R1 as (ks' & Es & Hcov & H3). pose proof (sparse_end log1 Es (proj1 Hcov) Hc) as X. rewrite (rep_entries Hcov H3) in X.
    destruct (deque_run (map snd cs) (pm_entries ks m1)) as [got rest]. cbn [fst snd] in X.
    destruct (destroyed_all boom None log1 (map snd rest)) as [log2 p]. exact X.
  Qed.
  Lemma array_life_exact S O1 (l : list (K * V)) log0 m0 (ops : list (Ordinal K * map_op K V)) outs log1 m1 : N.of_nat S = n -> panicking_version O1 O ->
    Forall (fun p => panicking_version (fst p) O) ops ->
    collected boom O1 eqd ks [] l pm_empty = (log0, Some (Seen m0)) ->
    life_run (fun p => life_step boom eqd ks (fst p) (snd p)) ops (log0, m0) = Some (outs, (log1, m1)) ->
    exists a0 a1, array_from_iter_life boom O1 S l ([], tt) = ((log0, tt), Ended a0) /\
      catch_run (fun p => array_life boom (fst p) (S := S) (snd p)) ops (log0, a0) = Some (outs, (log1, a1)) /\
      forall cs : list (Ordinal K * dir), Forall (fun c => panicking_version (fst c) O) cs ->
      let '(got, rest) := deque_run (map snd cs) (pm_entries ks m1) in
      let '(log2, p) := destroyed_all boom None log1 (map snd rest) in
      exists it, catch_run (fun c => owned_next boom (fst c) (snd c)) cs (log1, OrdinalArrayMap_into_iter a1) = Some (map Seen got, (log1, it)) /\
        glue boom (stored (e_items it)) (log1, tt) = ((log2, tt), glued p).
  Proof.
    intros HS H1 Ho E0 E1. destruct (array_collected boom H1 HO eqd He HS l []) as (e & Ec & H). rewrite E0 in *. cbn [fst snd] in *.
    destruct H as (a0 & -> & R0). exists a0.
    pose proof (@follows_run _ _ _ _ _ (fun p : Ordinal K * map_op K V => array_life boom (fst p) (S := S) (snd p))
      (fun p => life_step boom eqd ks (fst p) (snd p)) (array_rep ks (S := S)) (fun p => panicking_version (fst p) O)) as F.
    specialize (F ltac:(intros [O2 op] H2; exact (array_follows boom H2 HO eqd He (S := S) op)) ops Ho log0 a0 m0 R0).
    rewrite E1 in F. destruct F as (a1 & Er & R1). exists a1. split; [exact Ec|]. split; [exact Er|]. intros cs Hc.
    pose proof (sparse_end log1 R1 (ks_slots HO He) Hc) as X.
    destruct (deque_run (map snd cs) (pm_entries ks m1)) as [got rest]. cbn [fst snd] in X.
    destruct (destroyed_all boom None log1 (map snd rest)) as [log2 p]. exact X.
  Qed.

  (** *** Total maps *)
  Lemma total_end (l : list V) (m : K -> V) (cs : list (Ordinal K * dir)) log : l = map m ks ->
    Forall (fun c => panicking_version (fst c) O) cs ->
    exists it, catch_run (fun c => total_next boom (fst c) (snd c)) cs (log, enumerate_new l 0) =
        Some (map Seen (fst (deque_run (map snd cs) (tm_entries ks m))), (log, it)) /\
      glue boom (e_items it) (log, tt) =
        ((fst (destroyed_all boom None log (map snd (snd (deque_run (map snd cs) (tm_entries ks m))))), tt),
         glued (snd (destroyed_all boom None log (map snd (snd (deque_run (map snd cs) (tm_entries ks m))))))).
  Proof.
    intros -> Hc. destruct (calm_run (R := pending O n)
      (fun O1 d log it l H1 H2 => total_calm boom H1 HO d log H2) Hc log (pending_values m (ks_slots HO He))) as (it & E & R).
    exists it. split; [exact E|]. destruct R as (_ & -> & _). apply glue_is.
  Qed.
End Lives.

(** ** The statements *)
Section Statements.
  Context {cfg : Config} {K V : Type} (boom : list V -> V -> option panic) (O : Ordinal K) (n : N) (HO : ordinal_bijection O n).
  Context (eqd : forall a b : K, {a = b} + {a <> b}) (ks : list K) (He : enumeration O ks).

  Lemma heap_collects O1 (l : list (K * V)) log : panicking_version O1 O ->
    let '(log', x) := collected boom O1 eqd ks log l pm_empty in
    exists e, heap_from_iter_life boom O1 l (log, tt) = ((log', tt), e) /\
      match x with
      | Some (Seen m) => exists st, e = Ended st /\ OrdinalMap_debug O st = Val (pm_entries ks m) /\ forall k, OrdinalMap_get O st k = Val (m k)
      | Some (Caught w) => e = Unwinds w
      | None => e = Aborts
      end.
  Proof.
    intros H1. destruct (heap_collected boom H1 HO eqd He l log) as (e & E & H).
    destruct (collected boom O1 eqd ks log l pm_empty) as [log' x]. exists e. split; [exact E|]. cbn [snd] in H.
    destruct x as [[m|w]|]; [|exact H|exact H]. destruct H as (st & -> & R). exists st. split; [reflexivity|].
    split; [exact (heap_rep_iter (same_version O) HO eqd He R)|]. intros k. exact (heap_get_ok HO He k R).
  Qed.
  Lemma array_collects S O1 (l : list (K * V)) log : N.of_nat S = n -> panicking_version O1 O ->
    let '(log', x) := collected boom O1 eqd ks log l pm_empty in
    exists e, array_from_iter_life boom O1 S l (log, tt) = ((log', tt), e) /\
      match x with
      | Some (Seen m) => exists a, e = Ended a /\ OrdinalArrayMap_debug O a = Val (pm_entries ks m) /\ forall k, OrdinalArrayMap_get O a k = Val (m k)
      | Some (Caught w) => e = Unwinds w
      | None => e = Aborts
      end.
  Proof.
    intros HS H1. destruct (array_collected boom H1 HO eqd He HS l log) as (e & E & H).
    destruct (collected boom O1 eqd ks log l pm_empty) as [log' x]. exists e. split; [exact E|]. cbn [snd] in H.
    destruct x as [[m|w]|]; [|exact H|exact H]. destruct H as (a & -> & R). exists a. split; [reflexivity|].
    split; [|intros k; exact (array_get_ok HO He k R)].
    pose proof (array_step_ok HO eqd He OpDebug R) as (a' & E' & _). cbn [array_step spec_step fst snd] in E'.
    destruct (OrdinalArrayMap_debug O a); cbn in E'; congruence.
  Qed.
  Lemma htotal_makes (E St : Type) (init : St -> K -> St * seen (result V E)) log st :
    let '(s', x) := made_map boom init log st [] ks in
    htotal_try_new_life boom O (as_code init) (log, st) =
      (s', match x with Some (Seen r) => Ended r | Some (Caught w) => Unwinds w | None => Aborts end).
  Proof. rewrite (htotal_new boom HO He init log st). destruct (made_map _ _ _ _ _ _) as [s' x]. reflexivity. Qed.
  Lemma atotal_makes (E St : Type) (init : St -> K -> St * seen (result V E)) S log st : N.of_nat S = n ->
    let '(s', x) := made_array boom init log st [] ks in
    exists e, atotal_try_new_life boom O S (as_code init) (log, st) = (s', e) /\
      match x with
      | Some (Seen (ResOk vs)) => exists a, e = Ended (ResOk a) /\ arr_list a = vs
      | Some (Seen (ResErr er)) => e = Ended (ResErr er)
      | Some (Caught w) => e = Unwinds w
      | None => e = Aborts
      end.
  Proof.
    intros HS. destruct (atotal_new boom HO He init HS log st) as (e & E1 & H).
    destruct (made_array _ _ _ _ _ _) as [s' x]. cbn [fst snd] in *. exists e. split; [exact E1|].
    destruct x as [[[vs|er]|w]|]; cbn [ends_as] in H; destruct e as [[a|er']|w'| |]; cbn in H; try discriminate H;
      injection H as <- || idtac; eauto.
  Qed.
  Lemma total_ends (l : list V) (m : K -> V) (cs : list (Ordinal K * dir)) log : l = map m ks ->
    Forall (fun c => panicking_version (fst c) O) cs ->
    let '(got, rest) := deque_run (map snd cs) (tm_entries ks m) in
    let '(log', p) := destroyed_all boom None log (map snd rest) in
    exists it, catch_run (fun c => total_next boom (fst c) (snd c)) cs (log, OrdinalTotalMap_into_iter l) = Some (map Seen got, (log, it)) /\
      glue boom (e_items it) (log, tt) = ((log', tt), match p with Some None => Ended tt | Some (Some w) => Unwinds w | None => Aborts end).
  Proof.
    intros E Hc. pose proof (total_end boom HO He log E Hc) as X. destruct (deque_run _ _) as [got rest]. cbn [fst snd] in X.
    destruct (destroyed_all boom None log (map snd rest)) as [log' p]. exact X.
  Qed.
  Lemma atotal_ends S (a : OrdinalTotalArrayMap S V) (m : K -> V) (cs : list (Ordinal K * dir)) log : arr_list a = map m ks ->
    Forall (fun c => panicking_version (fst c) O) cs ->
    let '(got, rest) := deque_run (map snd cs) (tm_entries ks m) in
    let '(log', p) := destroyed_all boom None log (map snd rest) in
    exists it, catch_run (fun c => total_next boom (fst c) (snd c)) cs (log, OrdinalTotalArrayMap_into_iter a) = Some (map Seen got, (log, it)) /\
      glue boom (e_items it) (log, tt) = ((log', tt), match p with Some None => Ended tt | Some (Some w) => Unwinds w | None => Aborts end).
  Proof. exact (@total_ends (arr_list a) m cs log). Qed.
End Statements.
