(** * KeyLifeProofs: lemmas for C111, the iterators. *)
From Verif Require Import Base Spec SpecIter SpecMap SpecCatch SpecResume SpecLifeRun SpecKeyLife ModelOrdinal ModelValues ModelArrayBuilder
  ModelIter ModelTotal ModelMap ModelResume MapMachine ModelCatch ModelLife ModelKeyLife
  OrdinalProofs BaseProofs IterLib IterProofs MapIterProofs MapLib ArrayProofs MapMutProofs MapProofs ResumeProofs LifeProofs5.
From Coq Require Import List. Import ListNotations.
Set Implicit Arguments. Unset Strict Implicit.

(** A list as seen from one end. *)
Definition from_end {A} (d : dir) (l : list A) : list A := match d with Front => l | Back => rev l end.
Lemma from_end_cons {A} d (x : A) l : deque_step d (from_end d (x :: l)) = (Some x, from_end d l).
Proof. destruct d; [reflexivity|]. cbn [from_end rev]. apply deque_back. Qed.
Lemma from_end_twice {A} d (l : list A) : from_end d (from_end d l) = l.
Proof. destruct d; [reflexivity|]. apply rev_involutive. Qed.
Lemma from_end_map {A B} (f : A -> B) d l : map f (from_end d l) = from_end d (map f l).
Proof. destruct d; [reflexivity|]. apply map_rev. Qed.
Lemma from_end_length {A} d (l : list A) : length (from_end d l) = length l.
Proof. destruct d; [reflexivity|]. apply rev_length. Qed.
Lemma from_end_in {A} d (l : list A) x : In x (from_end d l) <-> In x l.
Proof. destruct d; [reflexivity|]. cbn [from_end]. rewrite <- in_rev. reflexivity. Qed.

Section Spec.
  Context {K V : Type} (boom : list (K + V) -> K + V -> option panic).

  Lemma next_entry_is B d log (l : list (K * option B)) :
    next_entry boom d log l = let '(log', l', o) := walk boom log (from_end d l) in (log', from_end d l', o).
  Proof. destruct d; cbn [next_entry from_end]; [|reflexivity]. destruct (walk boom log l) as [[? ?] ?]. reflexivity. Qed.

  Definition there {B} (l : list (K * option B)) : list (K * B) := fm (fun o => o) l.
  Lemma there_rev B (l : list (K * option B)) : there (rev l) = rev (there l).
  Proof.
    induction l as [|[k o] l IH]; [reflexivity|]. cbn [rev]. unfold there in *. rewrite fm_app, IH.
    cbn [fm flat_map fst snd]. destruct o; cbn [app rev]; [reflexivity|]. rewrite app_nil_r. reflexivity.
  Qed.
  Lemma there_slots ks (m : pmap K V) : there (slots_of ks m) = pm_entries ks m.
  Proof. apply fm_id. Qed.

  Lemma walk_there B (l : list (K * option B)) : forall log,
    match walk boom log l with
    | (_, l', Seen o) => deque_step Front (there l) = (o, there l')
    | _ => True
    end.
  Proof.
    induction l as [|[k o] l IH]; intros log; cbn [walk]; [reflexivity|]. destruct o as [b|]; [reflexivity|].
    destruct (boom log (inl k)); [exact I|]. apply IH.
  Qed.
  Lemma next_there B d log (l : list (K * option B)) :
    match next_entry boom d log l with
    | (_, l', Seen o) => deque_step d (there l) = (o, there l')
    | _ => True
    end.
  Proof.
    rewrite next_entry_is. pose proof (walk_there (from_end d l) log) as H.
    destruct (walk boom log (from_end d l)) as [[log' l'] [o|w]]; [|exact I].
    destruct d; [exact H|]. cbn [from_end] in *. rewrite there_rev in *. cbn [deque_step] in *.
    destruct (rev (there l)) as [|x r]; injection H as <- <-; reflexivity.
  Qed.
  Lemma calls_there B sched : forall log (l : list (K * option B)),
    match made_calls (next_entry boom) sched log l with
    | (got, _, None) => got = fst (deque_run sched (there l))
    | _ => True
    end.
  Proof.
    induction sched as [|d sched IH]; intros log l; cbn [made_calls deque_run]; [reflexivity|].
    pose proof (next_there d log l) as H. destruct (next_entry boom d log l) as [[log' l'] [o|w]]; [|exact I].
    rewrite H. specialize (IH log' l'). destruct (made_calls (next_entry boom) sched log' l') as [[got s] [w|]]; [exact I|].
    subst got. destruct (deque_run sched (there l')). reflexivity.
  Qed.
  Lemma value_there B d log (l : list (K * option B)) :
    match next_value boom d log l with
    | (_, l', Seen o) => exists p, deque_step d (there l) = (p, there l') /\ o = opt_map snd p
    | _ => True
    end.
  Proof.
    unfold next_value. pose proof (next_there d log l) as H. destruct (next_entry boom d log l) as [[log' l'] [o|w]]; [|exact I].
    destruct o as [[k b]|]; [destruct (boom log' (inl k)); [exact I|]|]; eexists; split; try exact H; reflexivity.
  Qed.
  Lemma values_there B sched : forall log (l : list (K * option B)),
    match made_calls (next_value boom) sched log l with
    | (got, _, None) => got = map (opt_map snd) (fst (deque_run sched (there l)))
    | _ => True
    end.
  Proof.
    induction sched as [|d sched IH]; intros log l; cbn [made_calls deque_run]; [reflexivity|].
    pose proof (value_there d log l) as H. destruct (next_value boom d log l) as [[log' l'] [o|w]]; [|exact I].
    destruct H as (p & -> & ->). specialize (IH log' l'). destruct (made_calls (next_value boom) sched log' l') as [[got s] [w|]]; [exact I|].
    subst got. destruct (deque_run sched (there l')). reflexivity.
  Qed.

  (** What is destroyed does not depend on what the slots hold. *)
  Section Erase.
    Context {B C : Type}.
    Definition alike (x : K * option B) (y : K * option C) : Prop := fst x = fst y /\ (snd x = None <-> snd y = None).
    Definition same_key (o : option (K * B)) (p : option (K * C)) : Prop := opt_map fst o = opt_map fst p.
    Definition seen_rel {X Y} (R : X -> Y -> Prop) (a : seen X) (b : seen Y) : Prop :=
      match a, b with Seen x, Seen y => R x y | Caught v, Caught w => v = w | _, _ => False end.
    Lemma walk_alike l l' : Forall2 alike l l' -> forall log,
      let '(log1, r, o) := walk boom log l in let '(log1', r', o') := walk boom log l' in
      log1 = log1' /\ Forall2 alike r r' /\ seen_rel same_key o o'.
    Proof.
      induction 1 as [|[k o] [k' o'] l l' [E1 E2] H IH]; intros log; cbn [walk]; [repeat constructor|]. cbn [fst snd] in *. subst k'.
      destruct o as [b|], o' as [c|]; try (destruct E2 as [E2 E3]; (discriminate E2 || discriminate E3); reflexivity).
      - split; [reflexivity|]. split; [exact H|]. reflexivity.
      - destruct (boom log (inl k)); [split; [reflexivity|]; split; [exact H|reflexivity]|]. apply IH.
    Qed.
    Lemma next_alike d l l' log : Forall2 alike l l' ->
      let '(log1, r, o) := next_entry boom d log l in let '(log1', r', o') := next_entry boom d log l' in
      log1 = log1' /\ Forall2 alike r r' /\ seen_rel same_key o o'.
    Proof.
      intros H. rewrite !next_entry_is.
      assert (H' : Forall2 alike (from_end d l) (from_end d l')) by (destruct d; [exact H|now apply Forall2_rev]).
      pose proof (walk_alike H' log) as G. destruct (walk boom log (from_end d l)) as [[? r] ?], (walk boom log (from_end d l')) as [[? r'] ?].
      destruct G as (G1 & G2 & G3). split; [exact G1|]. split; [|exact G3]. destruct d; [exact G2|now apply Forall2_rev].
    Qed.
    Lemma value_alike d l l' log : Forall2 alike l l' ->
      let '(log1, r, o) := next_value boom d log l in let '(log1', r', o') := next_value boom d log l' in
      log1 = log1' /\ Forall2 alike r r' /\ seen_rel (fun _ _ => True) o o'.
    Proof.
      intros H. unfold next_value. pose proof (next_alike d log H) as G.
      destruct (next_entry boom d log l) as [[log1 r] o], (next_entry boom d log l') as [[log1' r'] o'].
      destruct G as (<- & G2 & G3). destruct o as [[[k b]|]|w], o' as [[[k' c]|]|w']; cbn in G3; try contradiction G3; try discriminate G3.
      - injection G3 as <-. split; [reflexivity|]. split; [exact G2|]. destruct (boom log1 (inl k)); cbn; auto.
      - cbn. auto.
      - auto.
    Qed.
    Lemma calls_alike X Y (R : X -> Y -> Prop)
        (next : dir -> list (K + V) -> list (K * option B) -> list (K + V) * list (K * option B) * seen X)
        (next' : dir -> list (K + V) -> list (K * option C) -> list (K + V) * list (K * option C) * seen Y) :
      (forall d l l' log, Forall2 alike l l' ->
        let '(log1, r, o) := next d log l in let '(log1', r', o') := next' d log l' in
        log1 = log1' /\ Forall2 alike r r' /\ seen_rel R o o') ->
      forall sched log l l', Forall2 alike l l' ->
      let '(got, (log1, _), p) := made_calls next sched log l in let '(got', (log1', _), p') := made_calls next' sched log l' in
      log1 = log1' /\ p = p' /\ Forall2 R got got'.
    Proof.
      intros Hn. induction sched as [|d sched IH]; intros log l l' H; cbn [made_calls]; [auto|].
      specialize (Hn d l l' log H). destruct (next d log l) as [[log1 r] o], (next' d log l') as [[log1' r'] o'].
      destruct Hn as (<- & G2 & G3). destruct o as [x|w], o' as [y|w']; try contradiction G3; cbn in G3.
      - specialize (IH log1 r r' G2). destruct (made_calls next sched log1 r) as [[got [? ?]] p], (made_calls next' sched log1 r') as [[got' [? ?]] p'].
        destruct IH as (I1 & I2 & I3). auto.
      - subst w'. auto.
    Qed.
    Lemma same_keys_got (g : list (option (K * B))) (g' : list (option (K * C))) : Forall2 same_key g g' ->
      keys_got (V := V) g = keys_got g'.
    Proof.
      unfold keys_got. induction 1 as [|o p g g' H _ IH]; [reflexivity|]. cbn [somes flat_map]. fold (somes g) (somes g').
      rewrite !map_app, IH. destruct o as [[]|], p as [[]|]; try discriminate H; [|reflexivity]. cbn in H. injection H as ->. reflexivity.
    Qed.
  End Erase.

  Lemma walk_stops B (l : list (K * option B)) : forall log,
    match walk boom log l with
    | (log', l', Seen None) => stops_at boom log (map (fun x => inl (fst x)) l) = (log', None) /\ l' = []
    | (log', l', Seen (Some (k, b))) =>
        stops_at boom log (map (fun x => inl (fst x)) l) = stops_at boom log' (inl k :: map (fun x => inl (fst x)) l') /\ (length l' < length l)%nat
    | (log', l', Caught w) => stops_at boom log (map (fun x => inl (fst x)) l) = (log', Some w)
    end.
  Proof.
    induction l as [|[k o] l IH]; intros log; cbn [walk]; [split; reflexivity|]. destruct o as [b|].
    - cbn [map fst length]. split; [reflexivity|lia].
    - cbn [map fst stops_at length]. destruct (boom log (inl k)); [reflexivity|]. specialize (IH (log ++ [inl k])).
      destruct (walk boom (log ++ [inl k]) l) as [[log' l'] [[[k' b]|]|w]]; [destruct IH; split; [assumption|lia]|exact IH|exact IH].
  Qed.
End Spec.

Section Iterators.
  Context {cfg : Config} {K V : Type} (boom : list (K + V) -> K + V -> option panic) (O : Ordinal K).
  Context (n : N) (HO : ordinal_bijection O n).
  Implicit Types log : list (K + V).

  Lemma enumerate_act_ok A d (it : enumerate A) l : pending O n it l ->
    exists it', enumerate_act O d it = (it', Ended (fst (deque_step d l))) /\ pending O n it' (snd (deque_step d l)).
  Proof.
    intros H. destruct (enumerate_refines HO d H) as (it' & E & H'). exists it'. split; [|exact H'].
    rewrite enumerate_agree in E. unfold forget in E. unfold enumerate_act.
    destruct (enumerate_resume (pure_from O) d (tt, it)) as [[u it1] r]. cbn [fst snd] in E.
    destruct r as [o| | | |]; cbn [bind] in E; try discriminate E. injection E as -> ->. reflexivity.
  Qed.

  Section Sel.
    Context {A B : Type} (sel' : A -> res (option B)) (sel : A -> option B).
    Definition sl (l : list (K * A)) : list (K * option B) := map (fun ka => (fst ka, sel (snd ka))) l.
    Definition sel_ok (l : list (K * A)) : Prop := forall a, In a (map snd l) -> sel' a = Val (sel a).

    Lemma key_loop_ok d l : forall log it fuel, pending O n it (from_end d l) -> (length l < fuel)%nat -> sel_ok l ->
      let '(log', ss, o) := walk boom log (sl l) in
      exists it' l', key_loop boom O sel' d fuel (log, it) = ((log', it'), ends_as (Some o)) /\
        pending O n it' (from_end d l') /\ sl l' = ss /\ incl l' l.
    Proof.
      induction l as [|[k a] l IH]; intros log it fuel H Hf Hs; (destruct fuel as [|fuel]; [cbn in Hf; lia|]);
        destruct (enumerate_act_ok d H) as (it' & E & H').
      - assert (En : deque_step d (from_end d (@nil (K * A))) = (None, [])) by (destruct d; reflexivity). rewrite En in E, H'. cbn [fst snd] in E, H'.
        cbn [key_loop sl map walk]. unfold abind at 1, calm. rewrite E. exists it', [].
        split; [reflexivity|]. split; [destruct d; exact H'|]. split; [reflexivity|apply incl_refl].
      - rewrite from_end_cons in E, H'. cbn [fst snd] in E, H'. cbn [key_loop sl map walk fst snd].
        unfold abind at 1, calm at 1. rewrite E. unfold abind at 1, owning, look.
        rewrite (Hs a) by (left; reflexivity). cbn [ending_of]. fold (sl l).
        destruct (sel a) as [b|].
        + exists it', l. split; [reflexivity|]. split; [exact H'|]. split; [reflexivity|]. apply incl_tl, incl_refl.
        + unfold abind at 1. rewrite destroy_is. destruct (boom log (inl k)) as [w|].
          * exists it', l. split; [reflexivity|]. split; [exact H'|]. split; [reflexivity|]. apply incl_tl, incl_refl.
          * assert (Hf' : (length l < fuel)%nat) by (cbn in Hf; lia).
            assert (Hs' : sel_ok l) by (intros x Hx; apply Hs; right; exact Hx).
            specialize (IH (log ++ [inl k]) it' fuel H' Hf' Hs').
            destruct (walk boom (log ++ [inl k]) (sl l)) as [[log' ss] o]. destruct IH as (it2 & l2 & E2 & H2 & H3 & H4).
            exists it2, l2. split; [exact E2|]. split; [exact H2|]. split; [exact H3|]. now apply incl_tl.
    Qed.
    Lemma sl_end d l : sl (from_end d l) = from_end d (sl l).
    Proof. apply from_end_map. Qed.
    Lemma key_next_ok d log it l : pending O n it l -> sel_ok l ->
      let '(log', ss, o) := next_entry boom d log (sl l) in
      exists it' l', key_next boom O sel' d (log, it) = ((log', it'), ends_as (Some o)) /\
        pending O n it' l' /\ sl l' = ss /\ sel_ok l'.
    Proof.
      intros H Hs. rewrite next_entry_is, <- sl_end. unfold key_next. cbn [snd].
      assert (L : length (e_items it) = length (from_end d l)) by (rewrite from_end_length; exact (pending_len H)).
      assert (H1 : pending O n it (from_end d (from_end d l))) by (rewrite from_end_twice; exact H).
      assert (Hs1 : sel_ok (from_end d l)).
      { intros a Ha. apply Hs. rewrite from_end_map in Ha. now apply from_end_in in Ha. }
      pose proof (@key_loop_ok d (from_end d l) log it (S (length (e_items it))) H1 ltac:(lia) Hs1) as G.
      destruct (walk boom log (sl (from_end d l))) as [[log' ss] o]. destruct G as (it' & l' & E & H2 & H3 & H4).
      exists it', (from_end d l'). split; [exact E|]. split; [exact H2|]. split; [rewrite sl_end, H3; reflexivity|].
      intros a Ha. rewrite from_end_map in Ha. apply from_end_in in Ha. apply in_map_iff in Ha. destruct Ha as (p & <- & Hp).
      apply Hs1. apply in_map. now apply H4.
    Qed.
    Lemma key_value_ok d log it l : pending O n it l -> sel_ok l ->
      let '(log', ss, o) := next_value boom d log (sl l) in
      exists it' l', without_key boom (key_next boom O sel') d (log, it) = ((log', it'), ends_as (Some o)) /\
        pending O n it' l' /\ sl l' = ss /\ sel_ok l'.
    Proof.
      intros H Hs. unfold next_value, without_key. pose proof (key_next_ok d log H Hs) as G.
      destruct (next_entry boom d log (sl l)) as [[log' ss] o]. destruct G as (it' & l' & E & R). unfold abind. rewrite E.
      destruct o as [[[k b]|]|w]; cbn [ends_as].
      - rewrite destroy_is. exists it', l'. destruct (boom log' (inl k)); auto.
      - exists it', l'. auto.
      - exists it', l'. auto.
    Qed.

    Definition same_calls {X} (next : dir -> act (list (K + V) * enumerate A) X)
        (snext : dir -> list (K + V) -> list (K * option B) -> list (K + V) * list (K * option B) * seen X) : Prop :=
      forall d log it l, pending O n it l -> sel_ok l ->
        let '(log', ss, o) := snext d log (sl l) in
        exists it' l', next d (log, it) = ((log', it'), ends_as (Some o)) /\ pending O n it' l' /\ sl l' = ss /\ sel_ok l'.
    Definition calls_end (p : option panic) : ending unit := match p with None => Ended tt | Some w => Unwinds w end.
    Lemma calls_ok X (next : dir -> act _ X) snext : same_calls next snext ->
      forall sched log it l, pending O n it l -> sel_ok l ->
      let '(got, (log', _), p) := made_calls snext sched log (sl l) in
      exists it', calls next sched (log, it) = (got, (log', it'), calls_end p).
    Proof.
      intros Hn. induction sched as [|d sched IH]; intros log it l H Hs; cbn [made_calls calls]; [eauto|].
      specialize (Hn d log it l H Hs). destruct (snext d log (sl l)) as [[log' ss] o].
      destruct Hn as (it' & l' & E & H' & <- & Hs'). rewrite E. destruct o as [x|w]; cbn [ends_as]; [|eauto].
      specialize (IH log' it' l' H' Hs'). destruct (made_calls snext sched log' (sl l')) as [[got [log2 ss2]] p].
      destruct IH as (it2 & ->). eauto.
    Qed.

    Lemma client_ok X M (held : list X -> list (K + V)) (make : M -> enumerate A) (next : M -> dir -> act _ X) snext sched log m l :
      same_calls (next m) snext -> pending O n (make m) l -> sel_ok l ->
      client boom held make next sched (log, m) =
        let '(got, (log', _), p) := made_calls snext sched log (sl l) in
        match p with
        | None => ((log', m), Ended got)
        | Some w => let '(log2, e) := all_lost (A := list X) boom w log' (held got) in ((log2, m), ends_as e)
        end.
    Proof.
      intros Hn H Hs. unfold client. pose proof (calls_ok Hn sched log H Hs) as G.
      destruct (made_calls snext sched log (sl l)) as [[got [log' ss]] p]. destruct G as (it' & ->). destruct p as [w|]; cbn [calls_end].
      - erewrite owning_caught by reflexivity. unfold all_lost.
        destruct (destroyed_all boom (Some w) log' (held got)) as [log2 e]. cbn [fst snd]. destruct e; reflexivity.
      - erewrite owning_ended by reflexivity. reflexivity.
    Qed.

    (** Loops *)
    Fixpoint fold_res {X} (body : X -> K -> B -> res X) (l : list (K * B)) (x : X) : res X :=
      match l with [] => Val x | (k, b) :: l' => x' <- body x k b ;; fold_res body l' x' end.
    Lemma there_sl l : there (sl l) = fm sel l.
    Proof. induction l as [|[k a] l IH]; [reflexivity|]. cbn. unfold there, fm in *. cbn. now rewrite <- IH. Qed.
    Lemma each_ok X (body : X -> K -> B -> res X) fuel : forall l log it x x', pending O n it l -> sel_ok l -> (length l < fuel)%nat ->
      fold_res body (there (sl l)) x = Val x' ->
      exists it', each boom (key_next boom O sel' Front) body fuel x (log, it) =
        ((fst (stops_at boom log (map (fun p => inl (fst p)) l)), it'),
         match snd (stops_at boom log (map (fun p => inl (fst p)) l)) with None => Ended x' | Some w => Unwinds w end).
    Proof.
      induction fuel as [|fuel IH]; intros l log it x x' H Hs Hf Hb; [lia|]. cbn [each]. unfold abind at 1.
      pose proof (key_next_ok Front log H Hs) as G. cbn [next_entry] in G.
      pose proof (walk_stops boom (sl l) log) as W. pose proof (walk_there boom (sl l) log) as T.
      assert (Em : map (fun y : K * option B => inl (fst y)) (sl l) = map (fun p : K * A => inl (fst p)) l :> list (K + V)).
      { unfold sl. rewrite map_map. reflexivity. }
      rewrite Em in W. destruct (walk boom log (sl l)) as [[log' ss] o]. destruct G as (it' & l' & E & H' & <- & Hs'). rewrite E.
      destruct o as [[[k b]|]|w]; cbn [ends_as].
      - assert (Em' : map (fun y : K * option B => inl (fst y)) (sl l') = map (fun p : K * A => inl (fst p)) l' :> list (K + V)).
        { unfold sl. rewrite map_map. reflexivity. }
        destruct W as [W L]. rewrite Em' in W. rewrite W. cbn [deque_step] in T.
        destruct (there (sl l)) as [|kb tl]; [discriminate T|]. injection T as -> ->. cbn [fold_res] in Hb.
        destruct (body x k b) as [x1| | | |] eqn:Eb; cbn [bind] in Hb; try discriminate Hb.
        unfold abind, owning, look. cbn [ending_of]. rewrite destroy_is. cbn [stops_at].
        destruct (boom log' (inl k)) as [w|]; [exists it'; reflexivity|].
        apply (IH l' _ it' x1 x' H' Hs'); [|exact Hb]. unfold sl in L. rewrite !map_length in L. lia.
      - destruct W as [W _]. rewrite W. cbn [deque_step] in T. destruct (there (sl l)); [|discriminate T]. cbn in Hb. injection Hb as ->.
        exists it'. reflexivity.
      - rewrite W. exists it'. reflexivity.
    Qed.
  End Sel.
End Iterators.
