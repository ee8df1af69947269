(** * SetLifeProofs: lemmas for C113, iterators and collecting. *)
From Verif Require Import Base Spec SpecIter SpecMap SpecSet SpecCatch SpecResume SpecLifeRun SpecSetLife ModelOrdinal ModelValues ModelArrayBuilder
  ModelIter ModelSet ModelResume SetMachine ModelCatch ModelLife ModelSetLife
  OrdinalProofs BaseProofs IterLib ValuesProofs SetProofs ResumeProofs CatchProofs LifeProofs5.
From Coq Require Import List Lia. Import ListNotations.
Set Implicit Arguments. Unset Strict Implicit.

Definition turned {A} (d : dir) (l : list A) : list A := match d with Front => l | Back => rev l end.
Lemma turned_twice A d (l : list A) : turned d (turned d l) = l.
Proof. destruct d; [reflexivity|apply rev_involutive]. Qed.
Lemma turned_step A d (t : A) l : deque_step d (turned d (t :: l)) = (Some t, turned d l).
Proof.
  destruct d; [reflexivity|]. cbn [turned rev]. unfold deque_step. rewrite rev_app_distr. cbn [rev app]. now rewrite rev_involutive.
Qed.
Lemma turned_nil A d : deque_step d (turned d (@nil A)) = (None, []).
Proof. destruct d; reflexivity. Qed.

Section Lawful.
  Context {cfg : Config} {T : Type} (boom : list T -> T -> option panic) (O O0 : Ordinal T) (HP : panicking_version O O0).
  Context (n : N) (HO : ordinal_bijection O0 n).
  Context (eqd : forall a b : T, {a = b} + {a <> b}).
  Context (ks : list T) (He : enumeration O0 ks).
  Implicit Types (m : mset T) (log l : list T).
  Notation elem_panic := (elem_panic O).
  Notation passes := (passes boom O).
  Notation lost w log ts := (@lost_elements T boom _ w log ts).

  Lemma elem_cases t : ordinal O t = ordinal O0 t /\ elem_panic t = None \/
    exists w, ordinal O t = Panic w /\ elem_panic t = Some w.
  Proof.
    unfold SpecSetLife.elem_panic, key_panic. destruct (proj2 (proj2 HP) t) as [E|(w & E)].
    - left. split; [exact E|]. rewrite E. destruct (bij_to HO t) as (i & -> & _). reflexivity.
    - right. exists w. now rewrite E.
  Qed.
  Lemma contains_version ws m t : words_ok O0 ws m ->
    OrdinalSetRef_contains O ws t = match elem_panic t with Some w => Panic w | None => Val (m t) end.
  Proof.
    intros H. rewrite <- (contains_law HO t H). unfold OrdinalSetRef_contains.
    destruct (elem_cases t) as [[E ->]|(w & E & ->)]; rewrite E; reflexivity.
  Qed.

  (** ** Iterators *)
  Definition at_rest ws (it : SetIter) l : Prop := remaining O0 n (si_iter it) l /\ si_set it = ws.
  Lemma elements_act_ok ws d it l : at_rest ws it l -> exists it',
    elements_act O d it = (it', Ended (fst (deque_step d l))) /\ at_rest ws it' (snd (deque_step d l)).
  Proof.
    intros [H1 H2]. destruct (values_refines d H1) as (v & E & H). rewrite values_agree in E. unfold forget in E.
    unfold elements_act. unfold pure_from at 1. rewrite (proj1 (proj2 HP)). fold (pure_from O0).
    destruct (values_resume (pure_from O0) d (tt, si_iter it)) as [[u v'] r]. cbn [fst snd] in E.
    destruct r as [o| | | |]; cbn [bind] in E; try discriminate E. injection E as -> ->.
    eexists. split; [reflexivity|]. split; assumption.
  Qed.

  Lemma elements_loop_ok ws m d : words_ok O0 ws m -> forall l fuel log it, at_rest ws it (turned d l) -> (length l < fuel)%nat ->
    exists it', elements_loop boom O d fuel (log, it) = ((fst (fst (passes m log l)), it'), ends_as (snd (passes m log l))) /\
      at_rest ws it' (turned d (snd (fst (passes m log l)))).
  Proof.
    intros Hw. induction l as [|t l IH]; intros [|fuel] log it H Hf; try (cbn in Hf; lia); cbn [elements_loop SpecSetLife.passes];
      destruct (elements_act_ok d H) as (it1 & E1 & H1); unfold abind at 1; rewrite (calm_is log E1).
    - rewrite turned_nil in *. exists it1. split; [reflexivity|]. destruct d; exact H1.
    - rewrite turned_step in *. cbn [fst snd] in *. unfold abind at 1.
      assert (Q : forall lg, calm (V := T) (look (fun it => OrdinalSetRef_contains O (si_set it) t)) (lg, it1) =
                    ((lg, it1), match elem_panic t with Some w => Unwinds w | None => Ended (m t) end)).
      { intros lg. apply calm_is. unfold look. rewrite (proj2 H1), (contains_version t Hw). destruct (elem_panic t); reflexivity. }
      specialize (Q log). destruct (elem_panic t) as [w|].
      + rewrite (owning_caught boom [t] Q). unfold lost_elements. destruct (destroyed_all boom (Some w) log [t]) as [log' e].
        exists it1. destruct e; split; try reflexivity; exact H1.
      + rewrite (owning_ended boom [t] Q). destruct (m t); [exists it1; split; [reflexivity|exact H1]|].
        unfold abind. rewrite destroy_is. destruct (boom log t) as [w|]; [exists it1; split; [reflexivity|exact H1]|].
        apply IH; [exact H1|cbn in Hf; lia].
  Qed.
  Lemma rest_len ws it l : at_rest ws it l -> N.to_nat (range_len (si_iter it)) = length l.
  Proof. intros [(_ & H & _) _]. unfold range_len. unfold llen in H. clear - H. lia. Qed.
  Lemma turned_len A d (x : list A) : length (turned d x) = length x.
  Proof. destruct d; [reflexivity|apply rev_length]. Qed.

  (** An iterator and its specification. *)
  Definition answers_as {It} (R : It -> list T -> Prop) (next : dir -> act (list T * It) (option T))
      (snext : dir -> list T -> list T -> list T * list T * option (seen (option T))) : Prop :=
    forall d log it l, R it l -> exists it',
      next d (log, it) = ((fst (fst (snext d log l)), it'), ends_as (snd (snext d log l))) /\ R it' (snd (fst (snext d log l))).

  Lemma elements_next_ok ws m : words_ok O0 ws m -> answers_as (at_rest ws) (elements_next boom O) (next_passed boom O m).
  Proof.
    intros Hw d log it l H. unfold elements_next. cbn [snd]. rewrite (rest_len H).
    assert (H' : at_rest ws it (turned d (turned d l))) by now rewrite turned_twice.
    destruct (@elements_loop_ok ws m d Hw (turned d l) (S (length l)) log it H') as (it' & E & R); [rewrite turned_len; lia|].
    exists it'. rewrite E. destruct d; cbn [next_passed turned] in *; [auto|].
    destruct (passes m log (rev l)) as [[log' l'] o]. auto.
  Qed.
  Lemma members_next_ok : answers_as (i64_rem O0 n) (members_next O) next_member.
  Proof.
    intros d log it l H. destruct (i64_refines HO d H) as (it' & E & R). rewrite iter64_agree in E. unfold forget in E.
    unfold members_next, calm, next_member. unfold pure_from. rewrite (proj1 (proj2 HP)). fold (pure_from O0). unfold Iter64 in *.
    destruct (iter64_resume (pure_from O0) d (tt, it)) as [[u v] r]. cbn [fst snd] in E.
    destruct r as [o| | | |]; cbn [bind] in E; try discriminate E. injection E as -> ->.
    destruct (deque_step d l) as [o l']. exists it'. auto.
  Qed.

  Lemma client_ok It (R : It -> list T -> Prop) next snext : answers_as R next snext -> forall sched got log it l, R it l ->
    exists it', client_calls boom next sched got (log, it) =
      ((fst (asked boom snext sched got log l), it'), ends_as (snd (asked boom snext sched got log l))).
  Proof.
    intros H. induction sched as [|d ds IH]; intros got log it l Hr; cbn [client_calls asked]; [exists it; reflexivity|].
    destruct (H d log it l Hr) as (it' & E & R'). unfold abind. destruct (snext d log l) as [[log' l'] o]. cbn [fst snd] in *.
    destruct o as [[x|w]|]; cbn [ends_as] in E.
    - rewrite (owning_ended boom (somes got) E). apply IH. exact R'.
    - rewrite (owning_caught boom (somes got) E). unfold lost_elements.
      destruct (destroyed_all boom (Some w) log' (somes got)) as [log2 [e|]]; exists it'; reflexivity.
    - unfold owning. rewrite E. exists it'. reflexivity.
  Qed.

  (** ** Printing *)
  Lemma passes_members m l : forall log,
    match snd (passes m log l) with
    | Some (Seen (Some t)) => filter m l = t :: filter m (snd (fst (passes m log l))) /\ (length (snd (fst (passes m log l))) < length l)%nat
    | Some (Seen None) => filter m l = []
    | _ => True
    end.
  Proof.
    induction l as [|t l IH]; intros log; cbn [SpecSetLife.passes filter]; [reflexivity|].
    destruct (elem_panic t) as [w|].
    - unfold lost_elements. destruct (destroyed_all boom (Some w) log [t]) as [log' [e|]]; exact I.
    - destruct (m t); cbn [fst snd]; [split; [reflexivity|cbn; lia]|]. destruct (boom log t); cbn [snd]; [exact I|].
      specialize (IH (log ++ [t])). destruct (snd (passes m (log ++ [t]) l)) as [[[u|]|]|]; auto.
      destruct IH as [-> H]. split; [reflexivity|cbn; lia].
  Qed.
  Lemma passes_printed m o l : forall log, printed boom O o log l =
    let '(log', l', x) := passes m log l in
    match x with
    | Some (Seen None) => (log', Some (Seen o))
    | Some (Seen (Some t)) => match boom log' t with None => printed boom O o (log' ++ [t]) l' | Some w => (log' ++ [t], Some (Caught w)) end
    | Some (Caught w) => (log', Some (Caught w))
    | None => (log', None)
    end.
  Proof.
    induction l as [|t l IH]; intros log; cbn [SpecSetLife.passes printed]; [reflexivity|].
    destruct (elem_panic t) as [w|].
    - unfold lost_elements. destruct (destroyed_all boom (Some w) log [t]) as [log' [e|]]; reflexivity.
    - destruct (m t); [reflexivity|]. destruct (boom log t); [reflexivity|]. apply IH.
  Qed.
  Lemma print_ok ws m : words_ok O0 ws m -> forall fuel acc log it l, at_rest ws it l -> (length l < fuel)%nat ->
    exists it', print_all boom (elements_next boom O Front) fuel acc (log, it) =
      ((fst (printed boom O (SElems (acc ++ filter m l)) log l), it'), ends_as (snd (printed boom O (SElems (acc ++ filter m l)) log l))).
  Proof.
    intros Hw. induction fuel as [|fuel IH]; intros acc log it l H Hf; [lia|]. cbn [print_all].
    destruct (elements_next_ok Hw Front log H) as (it' & E & R). cbn [next_passed] in E, R. unfold abind at 1. rewrite E.
    rewrite (passes_printed m). pose proof (passes_members m l log) as P.
    destruct (passes m log l) as [[log' l'] x]. cbn [fst snd] in *.
    destruct x as [[[t|]|w]|]; cbn [ends_as]; [|rewrite P, app_nil_r; exists it'; reflexivity|exists it'; reflexivity|exists it'; reflexivity].
    destruct P as [P L]. unfold abind. rewrite destroy_is. destruct (boom log' t) as [w|]; [exists it'; reflexivity|].
    destruct (IH (acc ++ [t]) (log' ++ [t]) it' l' R) as (it2 & E2); [lia|].
    rewrite <- app_assoc in E2. cbn [app] in E2. rewrite P. exists it2. exact E2.
  Qed.

  (** ** Elements as arguments *)
  Section Kind.
    Context {M : Type} (rep : M -> mset T -> Prop).
    (** [ins t] adds [t], or panics as [ordinal] does. *)
    Definition adds_element (ins : T -> act M bool) (b : mset T -> T -> bool) : Prop := forall t s m, rep s m ->
      exists s', ins t s = (s', match elem_panic t with None => Ended (b m t) | Some w => Unwinds w end) /\
        rep s' (match elem_panic t with None => ms_add eqd m t | Some _ => m end).
    Context (ins : T -> act M bool) (b : mset T -> T -> bool) (Hins : adds_element ins b).

    Lemma insert_ok t log s m : rep s m -> exists s',
      insert_element boom (ins t) t (log, s) =
      match elem_panic t with
      | Some w => ((fst (@lost_elements T boom bool w log [t]), s'), ends_as (A := bool) (snd (lost w log [t])))
      | None => ((log ++ [t], s'), match boom log t with None => Ended (b m t) | Some w => Unwinds w end)
      end /\ rep s' (match elem_panic t with None => ms_add eqd m t | Some _ => m end).
    Proof.
      intros H. destruct (Hins t H) as (s' & E & R). exists s'. split; [|exact R]. unfold insert_element, abind.
      destruct (elem_panic t) as [w|].
      - rewrite (owning_caught boom [t] (calm_is log E)). unfold lost_elements.
        destruct (destroyed_all boom (Some w) log [t]) as [log' [e|]]; reflexivity.
      - rewrite (owning_ended boom [t] (calm_is log E)), destroy_is. destruct (boom log t); reflexivity.
    Qed.
    Lemma collect_ok l : forall log s m, rep s m -> exists s',
      collect_elements boom (fun t => insert_element boom (ins t) t) l (log, s) =
        ((fst (collected boom O log l), s'),
         match snd (collected boom O log l) with Some (Seen _) => Ended tt | Some (Caught w) => Unwinds w | None => Aborts end) /\
      match snd (collected boom O log l) with Some (Seen o) => o = SUnit_ /\ rep s' (adds eqd l m) | _ => True end.
    Proof.
      induction l as [|t l IH]; intros log s m H; cbn [collect_elements collected]; [exists s; split; [reflexivity|]; split; [reflexivity|exact H]|].
      destruct (insert_ok t log H) as (s1 & E & R). unfold abind. destruct (elem_panic t) as [w|].
      - unfold lost_elements in *. cbn [destroyed_all] in *. destruct (boom log t) as [w'|]; cbn [fst snd opt_map ends_as] in *.
        + unfold owning. rewrite E. exists s1. split; [reflexivity|exact I].
        + rewrite (owning_caught boom l E). destruct (destroyed_all boom (Some w) (log ++ [t]) l) as [log' [e|]]; exists s1; split; try reflexivity; exact I.
      - destruct (boom log t) as [w|].
        + rewrite (owning_caught boom l E). unfold lost_elements.
          destruct (destroyed_all boom (Some w) (log ++ [t]) l) as [log' [e|]]; exists s1; split; try reflexivity; exact I.
        + rewrite (owning_ended boom l E). destruct (IH (log ++ [t]) s1 _ R) as (s2 & E2 & R2). exists s2. split; [exact E2|exact R2].
    Qed.
  End Kind.
End Lawful.
