(** * CallsProofs5: the questions of each operation on a set. *)
From Verif Require Import Base Spec SpecMap SpecTotal SpecSet SpecAtomic SpecSafety SpecCalls ModelOrdinal ModelValues ModelArrayBuilder
  ModelIter ModelTotal ModelMap ModelSet ModelAtomic MapMachine TotalMachine SetMachine ModelCalls BaseProofs IterLib BitProofs SafetyProofs SafetyProofs2
  CallsProofs1 CallsProofs3 CallsProofs4.
From Coq Require Import List Lia Permutation. Import ListNotations.
Set Implicit Arguments. Unset Strict Implicit.

Section Ends.
  Context {K C : Type} {R : C -> Type}.

  (** Every run of [p] ends with questions and an outcome as described by [P]. *)
  Definition ends {A} (p : prog K C R A) (P : list (query K C) -> res A -> Prop) : Prop :=
    forall U (w : world K C R U) u, let '(_, l, r) := run w u p in P (questions l) r.

  Lemma ends_weaken A (p : prog K C R A) (P Q : list (query K C) -> res A -> Prop) :
    (forall l r, P l r -> Q l r) -> ends p P -> ends p Q.
  Proof. intros H Hp U w u. specialize (Hp U w u). destruct (run w u p) as [[u1 l1] r]. auto. Qed.
  Lemma ends_done A (r : res A) (P : list (query K C) -> res A -> Prop) : P [] r -> ends (Done r) P.
  Proof. intros H U w u. exact H. Qed.
  Lemma ends_bind A B (p : prog K C R A) (k : A -> prog K C R B) P Q :
    ends p P ->
    (forall l1 a, P l1 (Val a) -> ends (k a) (fun l2 r => Q (l1 ++ l2) r)) ->
    (forall l1 w, P l1 (Panic w) -> Q l1 (Panic w)) -> (forall l1, P l1 NoCompile -> Q l1 NoCompile) ->
    (forall l1, P l1 UB -> Q l1 UB) -> (forall l1, P l1 OutOfFuel -> Q l1 OutOfFuel) ->
    ends (pbind p k) Q.
  Proof.
    intros Hp Hk H1 H2 H3 H4 U w u. rewrite run_bind. specialize (Hp U w u). destruct (run w u p) as [[u1 l1] r].
    destruct r as [a| | | |]; cbv beta iota; auto.
    specialize (Hk _ _ Hp U w u1). destruct (run w u1 (k a)) as [[u2 l2] y]. unfold questions in *. rewrite map_app. exact Hk.
  Qed.
  Lemma ends_then A B (r : res A) (k : A -> prog K C R B) Q :
    (forall a, r = Val a -> ends (k a) Q) -> (ended r = false -> forall r', ended r' = false -> Q [] r') ->
    ends (pbind (Done r) k) Q.
  Proof.
    intros H1 H2. destruct r as [a| | | |]; cbn [pbind]; [apply H1; reflexivity| | | |]; apply ends_done, H2; reflexivity.
  Qed.
  Lemma ends_ask A q (k : res (answer q) -> prog K C R A) Q :
    (forall r, ends (k r) (fun l x => Q (q :: l) x)) -> ends (Ask q k) Q.
  Proof.
    intros H U w u. cbn [run]. destruct (w u q) as [u1 r]. specialize (H r U w u1). destruct (run w u1 (k r)) as [[u2 l2] y]. exact H.
  Qed.
  (** Rules for outcomes that are described by whether they are a value. *)
  Definition ends_in {A} (p : prog K C R A) (P : bool -> list (query K C) -> Prop) : Prop :=
    ends p (fun l r => P (ended r) l).
  Lemma ends_in_bind A B (p : prog K C R A) (k : A -> prog K C R B) (P Q : bool -> list (query K C) -> Prop) :
    ends_in p P -> (forall l, P false l -> Q false l) ->
    (forall l1 a, P true l1 -> ends_in (k a) (fun b l2 => Q b (l1 ++ l2))) -> ends_in (pbind p k) Q.
  Proof.
    intros Hp H1 Hk. eapply ends_bind; [exact Hp|exact (fun l1 a => Hk l1 a)| | | |]; cbv beta; cbn [ended]; auto.
  Qed.
  Lemma ends_in_bind2 A B (p : prog K C R A) (k : A -> prog K C R B) (P Q : bool -> list (query K C) -> Prop) l1 :
    ends_in p P -> (forall l, P false l -> Q false (l1 ++ l)) ->
    (forall l2 a, P true l2 -> ends_in (k a) (fun b l3 => Q b (l1 ++ l2 ++ l3))) ->
    ends (pbind p k) (fun l2 r => Q (ended r) (l1 ++ l2)).
  Proof. intros Hp H1 Hk. exact (@ends_in_bind A B p k P (fun b l => Q b (l1 ++ l)) Hp H1 Hk). Qed.
  Lemma ends_in_last A B (p : prog K C R A) (k : A -> res B) (P : bool -> list (query K C) -> Prop) :
    ends_in p P -> (forall l, P true l -> P false l) -> ends_in (pbind p (fun a => Done (k a))) P.
  Proof.
    intros Hp H. eapply ends_in_bind; [exact Hp|auto|]. intros l1 a H1. apply ends_done. rewrite app_nil_r.
    destruct (k a); cbn [ended]; auto.
  Qed.
  Lemma ends_in_then A B (r : res A) (k : A -> prog K C R B) (Q : bool -> list (query K C) -> Prop) :
    Q false [] -> (forall a, r = Val a -> ends_in (k a) Q) -> ends_in (pbind (Done r) k) Q.
  Proof. intros H1 H2. apply ends_then; [exact H2|]. intros _ r' ->. exact H1. Qed.
End Ends.

(** ** Windows of ordinals *)
Definition span (a b : N) : list N := map (fun j => a + N.of_nat j) (seq 0 (N.to_nat (b - a))).
Lemma span_empty a b : b <= a -> span a b = [].
Proof. intros H. unfold span. replace (N.to_nat (b - a)) with 0%nat by lia. reflexivity. Qed.
Lemma span_front a b : a < b -> span a b = a :: span (a + 1) b.
Proof.
  intros H. unfold span. replace (N.to_nat (b - a)) with (Datatypes.S (N.to_nat (b - (a + 1)))) by lia.
  cbn [seq map]. rewrite <- seq_shift, map_map. f_equal; [lia|]. apply map_ext. intros j. lia.
Qed.
Lemma span_back a b : a < b -> span a b = span a (b - 1) ++ [b - 1].
Proof.
  intros H. unfold span. replace (N.to_nat (b - a)) with (Datatypes.S (N.to_nat (b - 1 - a))) by lia.
  rewrite seq_S, map_app. cbn [map]. do 2 f_equal. lia.
Qed.
Lemma span_full n : span 0 n = map fst (full_window n).
Proof.
  unfold full_window, total_window. rewrite window_fst, repeat_length. unfold span. now rewrite N.sub_0_r.
Qed.

Definition absent (l : list N) : window := map (fun i => (i, false)) l.
Lemma absent_fst l : map fst (absent l) = l.
Proof. unfold absent. rewrite map_map. apply map_id. Qed.
Lemma up_to_absent l : up_to_value (absent l) = (l, []).
Proof. induction l as [|a l IH]; [reflexivity|]. cbn. fold (absent l). now rewrite IH. Qed.
Lemma visit_absent d l : visit d (absent l) = (match d with Front => l | Back => rev l end, []).
Proof.
  destruct d; cbn [visit]; [apply up_to_absent|]. unfold absent. rewrite <- map_rev. fold (absent (rev l)). now rewrite up_to_absent.
Qed.

Section Sets.
  Context {cfg : Config} {K C : Type} {R : C -> Type}.
  Local Notation ends := (@ends K C R _).
  Local Notation ends_in := (@ends_in K C R _).
  Local Notation block := (@block K C).

  Lemma ends_in_ordinal B t (k : N -> prog K C R B) (Q : bool -> list (query K C) -> Prop) :
    Q false [QOrdinal t] -> (forall a, ends_in (k a) (fun b l => Q b (QOrdinal t :: l))) -> ends_in (pbind (ask_ordinal t) k) Q.
  Proof.
    intros H1 H2. apply (@ends_ask _ _ _ _ (QOrdinal t)). intros r.
    exact (@ends_in_then K C R N B r k (fun b l => Q b (QOrdinal t :: l)) H1 (fun a _ => H2 a)).
  Qed.
  Lemma ends_in_from B i (k : option K -> prog K C R B) (Q : bool -> list (query K C) -> Prop) :
    Q false [QFrom i] -> (forall a, ends_in (k a) (fun b l => Q b (QFrom i :: l))) -> ends_in (pbind (ask_from i) k) Q.
  Proof.
    intros H1 H2. apply (@ends_ask _ _ _ _ (QFrom i)). intros r.
    exact (@ends_in_then K C R (option K) B r k (fun b l => Q b (QFrom i :: l)) H1 (fun a _ => H2 a)).
  Qed.

  Lemma contains_ends r t :
    ends_in (OrdinalSetRef_contains_p r t)
      (fun b qs => exists c, ((if b then 1 else 0) <= c <= 2)%nat /\ qs = repeat (QOrdinal t) c).
  Proof.
    unfold OrdinalSetRef_contains_p. apply ends_in_ordinal; [exists 1%nat; split; [lia|reflexivity]|]. intros i.
    apply ends_in_then; [exists 1%nat; split; [lia|reflexivity]|]. intros q _.
    destruct (slice_get r q) as [word|]; [|apply ends_done; cbn [ended]; exists 1%nat; split; [lia|reflexivity]].
    apply ends_in_ordinal; [exists 2%nat; split; [lia|reflexivity]|]. intros i2.
    apply ends_in_then; [exists 2%nat; split; [lia|reflexivity]|]. intros m _.
    apply ends_in_then; [exists 2%nat; split; [lia|reflexivity]|]. intros x _.
    apply ends_done. cbn [ended]. exists 2%nat. split; [lia|reflexivity].
  Qed.

  Lemma repeat_add A (a : A) n m : repeat a n ++ repeat a m = repeat a (n + m).
  Proof. symmetry. apply repeat_app. Qed.

  Lemma insert_words_ends size words t :
    ends_in (OrdinalSetMut_insert_p size words t)
      (fun b qs => exists c, ((if b then 3 else 0) <= c <= 4)%nat /\ qs = repeat (QOrdinal t) c).
  Proof.
    unfold OrdinalSetMut_insert_p. apply ends_in_then; [exists 0%nat; split; [lia|reflexivity]|]. intros r _.
    eapply ends_in_bind; [apply contains_ends| |].
    - intros l (c & Hc & ->). exists c. split; [lia|reflexivity].
    - intros l1 prev (c & Hc & ->). cbv beta iota in Hc.
      apply ends_in_ordinal; [exists (c + 1)%nat; split; [lia|apply (@repeat_add _ _ c 1)]|]. intros i.
      apply ends_in_then; [exists (c + 1)%nat; split; [lia|apply (@repeat_add _ _ c 1)]|]. intros m _.
      apply ends_in_then; [exists (c + 1)%nat; split; [lia|apply (@repeat_add _ _ c 1)]|]. intros x _.
      apply ends_in_ordinal; [exists (c + 2)%nat; split; [lia|apply (@repeat_add _ _ c 2)]|]. intros i2.
      apply ends_in_then; [exists (c + 2)%nat; split; [lia|apply (@repeat_add _ _ c 2)]|]. intros q _.
      apply ends_in_then; [exists (c + 2)%nat; split; [lia|apply (@repeat_add _ _ c 2)]|]. intros wd _.
      apply ends_done. cbn [ended]. exists (c + 2)%nat. split; [lia|apply (@repeat_add _ _ c 2)].
  Qed.

  Definition some_times (lo : nat) t (b : bool) (qs : list (query K C)) : Prop :=
    exists c, ((if b then lo else 0) <= c <= 4)%nat /\ qs = repeat (QOrdinal t) c.
  Lemma some_none lo t : some_times lo t false [].
  Proof. exists 0%nat. split; [lia|reflexivity]. Qed.
  Lemma some_less lo t qs : some_times lo t true qs -> some_times lo t false qs.
  Proof. intros (c & H & ->). exists c. split; [lia|reflexivity]. Qed.

  Lemma insert_ends size s t : ends_in (OrdinalSet_insert_p size s t) (some_times 3 t).
  Proof.
    unfold OrdinalSet_insert_p. apply ends_in_then; [apply some_none|]. intros small _. destruct small, s as [w|ws];
      try (apply ends_done; apply some_none).
    - apply ends_in_then; [apply some_none|]. intros ws _.
      eapply ends_in_bind; [apply insert_words_ends|auto|]. intros l1 [r [|w' [|]]] H; apply ends_done; rewrite app_nil_r; try (apply some_less; exact H).
      exact H.
    - apply ends_in_then; [apply some_none|]. intros ws' _. apply ends_in_then; [apply some_none|]. intros ws2 _.
      eapply ends_in_bind; [apply insert_words_ends|auto|]. intros l1 [r w'] H; apply ends_done; rewrite app_nil_r. exact H.
  Qed.
  Lemma array_insert_ends size S (s : OrdinalArraySet S) t : ends_in (OrdinalArraySet_insert_p size s t) (some_times 3 t).
  Proof.
    unfold OrdinalArraySet_insert_p. apply ends_in_then; [apply some_none|]. intros [] _.
    apply ends_in_then; [apply some_none|]. intros ws _.
    eapply ends_in_bind; [apply insert_words_ends|auto|]. intros l1 [r ws'] H.
    apply ends_in_then; [rewrite app_nil_r; apply some_less; exact H|]. intros a _. apply ends_done. rewrite app_nil_r. exact H.
  Qed.

  (** Repeated insertion. *)
  Definition inserts (l : list K) (b : bool) (qs : list (query K C)) : Prop :=
    exists cs : list nat,
      (length cs <= length l)%nat /\ Forall (fun c => c <= 4)%nat cs /\
      (b = true -> length cs = length l /\ Forall (fun c => 3 <= c)%nat cs) /\
      qs = flat_map (fun p => repeat (QOrdinal (fst p)) (snd p)) (combine l cs).
  Lemma inserts_none l : inserts l false [].
  Proof.
    exists []. split; [cbn; lia|]. split; [constructor|]. split; [discriminate|]. destruct l; reflexivity.
  Qed.
  Lemma inserts_less l qs : inserts l true qs -> inserts l false qs.
  Proof. intros (cs & H1 & H2 & H3 & H4). exists cs. repeat split; auto; discriminate. Qed.
  Lemma inserts_cons t l b l1 l2 : some_times 3 t true l1 -> inserts l b l2 -> inserts (t :: l) b (l1 ++ l2).
  Proof.
    intros (c & Hc & ->) (cs & H1 & H2 & H3 & ->). exists (c :: cs). split; [cbn; lia|]. split; [constructor; [lia|exact H2]|].
    split; [|reflexivity]. intros Hb. destruct (H3 Hb) as [E F]. split; [cbn; lia|]. constructor; [lia|exact F].
  Qed.
  Lemma inserts_first t l qs : some_times 3 t false qs -> inserts (t :: l) false qs.
  Proof.
    intros (c & Hc & ->). exists [c]. split; [cbn; lia|]. split; [constructor; [lia|constructor]|]. split; [discriminate|].
    cbn. destruct l; cbn; now rewrite app_nil_r.
  Qed.
  Lemma insert_all_ends S (ins : S -> K -> prog K C R (bool * S)) (all : list K -> S -> prog K C R S) :
    (forall s t, ends_in (ins s t) (some_times 3 t)) ->
    (forall s, all [] s = Done (Val s)) -> (forall t l s, all (t :: l) s = ('(_, s') <~ ins s t ;; all l s')) ->
    forall l s, ends_in (all l s) (inserts l).
  Proof.
    intros Hi E0 E1. induction l as [|t l IH]; intros s.
    - rewrite E0. apply ends_done. exists []. repeat split; constructor.
    - rewrite E1. eapply ends_in_bind; [apply Hi|intros l1; apply inserts_first|]. intros l1 [b s'] H1.
      specialize (IH s'). eapply ends_weaken; [|exact IH]. intros l2 r H2. now apply inserts_cons.
  Qed.

  (** ** Iteration *)
  Definition visited (order : window -> list N) (elems : list N) (done : bool) (qs : list (query K C)) : Prop :=
    exists w q blocks,
      map fst w = elems /\ (if done then q = order w else prefix q (order w)) /\ Forall2 (block done) q blocks /\ qs = concat blocks.
  Lemma block_less d i b : block d i b -> block false i b.
  Proof. intros [[_ ->]|H]; [left; auto|right; exact H]. Qed.
  Lemma blocks_less d q bs : Forall2 (block d) q bs -> Forall2 (block false) q bs.
  Proof. intros H. induction H; constructor; auto. eapply block_less; eauto. Qed.
  Lemma visited_less order e d qs : visited order e d qs -> visited order e false qs.
  Proof.
    intros (w & q & bs & H1 & H2 & H3 & ->). exists w, q, bs. repeat split; auto; [|eapply blocks_less; eauto].
    destruct d; [subst; apply prefix_refl|exact H2].
  Qed.
  Lemma visited_none order e : visited order e false [].
  Proof. exists (absent e), [], []. split; [apply absent_fst|]. split; [apply prefix_nil|]. split; [constructor|reflexivity]. Qed.

  Definition elems (it : OrdinalValues) : list N := span (r_start it) (r_end it).

  (** One step visits a first part; the marks of what remains are free. *)
  Definition step_ok (d : dir) (it : OrdinalValues) (qs : list (query K C)) (r : res (option K * OrdinalValues)) : Prop :=
    match r with
    | Val (o, it') => exists q blocks, Forall2 (block true) q blocks /\ qs = concat blocks /\
        (o = None -> elems it' = []) /\
        (range_len it' + (if is_some o then 1 else 0) <= range_len it)%N /\
        forall w', map fst w' = elems it' -> exists w, map fst w = elems it /\ visit d w = (q, w')
    | _ => visited (fun w => fst (visit d w)) (elems it) false qs
    end.

  Lemma loop_ends d set fuel it : ends (set_loop_p d set fuel it) (step_ok d it).
  Proof.
    revert it. induction fuel as [|fuel IH]; intros it; cbn [set_loop_p]; [apply ends_done, visited_none|].
    destruct it as [a b]. unfold values_step_p, range_next, range_next_back. cbn [r_start r_end].
    assert (Empty : b <= a -> ends (Done (Val (None : option K, {| r_start := a; r_end := b |}))) (step_ok d {| r_start := a; r_end := b |})).
    { intros L. apply ends_done. exists [], []. split; [constructor|]. split; [reflexivity|].
      unfold elems. cbn [r_start r_end is_some]. rewrite span_empty by exact L. split; [reflexivity|]. split; [lia|].
      intros w' Hw. exists []. split; [reflexivity|]. destruct w'; [|discriminate]. destruct d; reflexivity. }
    destruct (N.ltb_spec a b) as [L|L]; [|destruct d; cbn [pbind]; apply Empty, L].
    set (i := match d with Front => a | Back => b - 1 end).
    set (it1 := match d with Front => {| r_start := a + 1; r_end := b |} | Back => {| r_start := a; r_end := b - 1 |} end).
    assert (El : elems {| r_start := a; r_end := b |} = match d with Front => i :: elems it1 | Back => elems it1 ++ [i] end).
    { unfold elems, i, it1. destruct d; cbn [r_start r_end]; [apply span_front|apply span_back]; exact L. }
    assert (Len : range_len it1 + 1 = range_len {| r_start := a; r_end := b |}).
    { unfold range_len, it1. destruct d; cbn [r_start r_end]; lia. }
    match goal with |- ends (pbind ?p ?k) _ => replace p with (r <~ @ask_from K C R i ;; t <~ Done (unwrap r) ;; @Done K C R _ (Val (Some (t : K), it1))) end.
    2:{ unfold i, it1. destruct d; reflexivity. }
    clear Empty. generalize dependent it1. clearbody i. intros it1 El Len.
    set (it := {| r_start := a; r_end := b |}) in *. clearbody it. clear L a b.
    (* stopping after the first ordinal *)
    assert (Stop : forall b0, block false i b0 -> visited (fun w => fst (visit d w)) (elems it) false b0).
    { intros b0 Hb. exists (absent (elems it)), [i], [b0]. split; [apply absent_fst|]. split.
      - rewrite visit_absent, El. cbn [fst]. destruct d; [exists (elems it1); reflexivity|].
        rewrite rev_app_distr. exists (rev (elems it1)). reflexivity.
      - split; [constructor; [exact Hb|constructor]|]. cbn. now rewrite app_nil_r. }
    assert (F0 : block false i [QFrom i]) by (left; auto).
    apply (@ends_ask _ _ _ _ (QFrom i)). intros r.
    destruct r as [[t|]| | | |]; cbn [pbind unwrap]; try (apply ends_done, Stop, F0).
    eapply ends_bind; [apply contains_ends| | | | |]; cbn [ended];
      try (intros l1; intros; match goal with H : exists _, _ |- _ => destruct H as (c & Hc & ->) end;
           apply Stop; destruct c as [|c]; [exact F0|right; exists t, (Datatypes.S c); split; [lia|reflexivity]]).
    intros l1 [|] (c & Hc & ->).
    - (* a member *)
      apply ends_done. rewrite app_nil_r. exists [i], [QFrom i :: repeat (QOrdinal t) c].
      split; [constructor; [right; exists t, c; split; [lia|reflexivity]|constructor]|].
      split; [cbn; now rewrite app_nil_r|]. split; [discriminate|]. cbn [is_some]. split; [lia|].
      intros w' Hw. destruct d.
      + exists ((i, true) :: w'). cbn [map fst]. rewrite Hw, El. auto.
      + exists (w' ++ [(i, true)]). rewrite map_app. cbn [map fst]. rewrite Hw, El. split; [reflexivity|].
        cbn [visit]. rewrite rev_app_distr. cbn [rev app up_to_value]. now rewrite rev_involutive.
    - (* not a member *)
      assert (Bl : block true i (QFrom i :: repeat (QOrdinal t) c)) by (right; exists t, c; split; [lia|reflexivity]).
      eapply ends_weaken; [|apply IH]. intros l2 r. cbv beta.
      change (QFrom i :: repeat (QOrdinal t) c ++ l2) with ((QFrom i :: repeat (QOrdinal t) c) ++ l2).
      assert (More : visited (fun w => fst (visit d w)) (elems it1) false l2 ->
        visited (fun w => fst (visit d w)) (elems it) false ((QFrom i :: repeat (QOrdinal t) c) ++ l2)).
      { intros (w & q & bs & H1 & H2 & H3 & ->).
        exists (match d with Front => (i, false) :: w | Back => w ++ [(i, false)] end), (i :: q), ((QFrom i :: repeat (QOrdinal t) c) :: bs).
        split; [|split; [|split; [constructor; [eapply block_less; eauto|exact H3]|reflexivity]]].
        - rewrite El, <- H1. destruct d; [reflexivity|]. now rewrite map_app.
        - destruct H2 as (rest & H2). exists rest. destruct d; cbn [visit up_to_value] in *.
          + destruct (up_to_value w). cbn [fst] in *. now rewrite H2.
          + rewrite rev_app_distr. cbn [rev app up_to_value]. destruct (up_to_value (rev w)). cbn [fst] in *. now rewrite H2. }
      destruct r as [[o it2]| | | |]; cbn [step_ok]; try exact More.
      intros (q & bs & H1 & -> & H2 & H3 & H4). exists (i :: q), ((QFrom i :: repeat (QOrdinal t) c) :: bs).
      split; [constructor; assumption|]. split; [reflexivity|]. split; [exact H2|]. split; [lia|].
      intros w' Hw. destruct (H4 w' Hw) as (w & Ew & Vw).
      exists (match d with Front => (i, false) :: w | Back => w ++ [(i, false)] end). split.
      + rewrite El, <- Ew. destruct d; [reflexivity|]. now rewrite map_app.
      + destruct d; cbn [visit up_to_value] in *.
        * now rewrite Vw.
        * rewrite rev_app_distr. cbn [rev app up_to_value]. destruct (up_to_value (rev w)). injection Vw as -> <-. reflexivity.
  Qed.

  Definition step_ok' d (s : SetIter) qs (r : res (option K * SetIter)) : Prop :=
    step_ok d (si_iter s) qs (match r with Val (o, s') => Val (o, si_iter s') | Panic w => Panic w | NoCompile => NoCompile | UB => UB | OutOfFuel => OutOfFuel end).
  Lemma set_step_ends d s : ends (SetIter_step_p d s) (step_ok' d s).
  Proof.
    unfold SetIter_step_p. eapply ends_bind; [apply loop_ends| | | | |]; auto.
    intros l1 [o it] H. apply ends_done. rewrite app_nil_r. exact H.
  Qed.

  Lemma set_drive_ends sched s :
    ends_in (drive_p SetIter_step_p sched s) (visited (fun w => fst (visits sched w)) (elems (si_iter s))).
  Proof.
    revert s. induction sched as [|d sched IH]; intros s; cbn [drive_p].
    - apply ends_done. cbn [ended]. exists (absent (elems (si_iter s))), [], []. split; [apply absent_fst|].
      split; [reflexivity|]. split; [constructor|reflexivity].
    - assert (First : forall qs, visited (fun w => fst (visit d w)) (elems (si_iter s)) false qs ->
        visited (fun w => fst (visits (d :: sched) w)) (elems (si_iter s)) false qs).
      { intros qs (w & q & bs & H1 & H2 & H3 & H4). exists w, q, bs. repeat split; auto. cbn [visits].
        destruct (visit d w) as [q1 w1]. destruct (visits sched w1). cbn [fst] in *. now apply prefix_app. }
      eapply ends_bind; [apply set_step_ends| | | | |]; cbn [step_ok' step_ok ended]; auto.
      intros l1 [o s'] (q & bs & H1 & -> & H2 & _ & H3). cbn [step_ok'] in *.
      eapply ends_in_bind2; [apply IH| |].
      + intros l2 (w & q2 & bs2 & G1 & G2 & G3 & ->). destruct (H3 w G1) as (w0 & E0 & V0).
        exists w0, (q ++ q2), (bs ++ bs2). split; [exact E0|]. cbn [visits]. rewrite V0. destruct (visits sched w) as [q3 w3].
        cbn [fst] in *. split; [now apply app_prefix|]. split; [|now rewrite concat_app].
        apply Forall2_app; [eapply blocks_less; eauto|exact G3].
      + intros l2 [os s2] (w & q2 & bs2 & G1 & G2 & G3 & ->). apply ends_done. rewrite app_nil_r. cbn [ended].
        destruct (H3 w G1) as (w0 & E0 & V0). exists w0, (q ++ q2), (bs ++ bs2). split; [exact E0|]. cbn [visits].
        rewrite V0. destruct (visits sched w) as [q3 w3]. cbn [fst] in *. subst q2. split; [reflexivity|].
        split; [now apply Forall2_app|now rewrite concat_app].
  Qed.

  Lemma set_collect_ends n s :
    ends_in (collect_p (SetIter_step_p Front) n s) (visited (map fst) (elems (si_iter s))).
  Proof.
    revert s. induction n as [|n IH]; intros s; cbn [collect_p]; [apply ends_done, visited_none|].
    assert (First : forall qs, visited (fun w => fst (visit Front w)) (elems (si_iter s)) false qs ->
        visited (map fst) (elems (si_iter s)) false qs).
    { intros qs (w & q & bs & H1 & H2 & H3 & H4). exists w, q, bs. repeat split; auto. rewrite <- (up_to_value_all w). now apply prefix_app. }
    assert (Split : forall w q w', visit Front w = (q, w') -> map fst w = q ++ map fst w').
    { intros w q w' V. rewrite <- (up_to_value_all w). cbn [visit] in V. now rewrite V. }
    eapply ends_bind; [apply set_step_ends| | | | |]; cbn [step_ok' step_ok ended]; auto.
    intros l1 [o s'] (q & bs & H1 & -> & H2 & _ & H3). cbn [step_ok'] in *. destruct o as [t|].
    - eapply ends_in_bind2; [apply IH| |].
      + intros l2 (w & q2 & bs2 & G1 & G2 & G3 & ->). destruct (H3 w G1) as (w0 & E0 & V0).
        exists w0, (q ++ q2), (bs ++ bs2). split; [exact E0|]. rewrite (Split _ _ _ V0).
        split; [apply app_prefix; exact G2|]. split; [|now rewrite concat_app].
        apply Forall2_app; [eapply blocks_less; eauto|exact G3].
      + intros l2 [os s2] (w & q2 & bs2 & G1 & G2 & G3 & ->). apply ends_done. rewrite app_nil_r. cbn [ended].
        destruct (H3 w G1) as (w0 & E0 & V0). exists w0, (q ++ q2), (bs ++ bs2). split; [exact E0|]. rewrite (Split _ _ _ V0). subst q2.
        split; [reflexivity|]. split; [now apply Forall2_app|now rewrite concat_app].
    - apply ends_done. rewrite app_nil_r. cbn [ended]. destruct (H3 [] (eq_sym (H2 eq_refl))) as (w0 & E0 & V0).
      exists w0, q, bs. split; [exact E0|]. rewrite (Split _ _ _ V0). cbn [map]. rewrite app_nil_r. auto.
  Qed.

  Lemma iter_new_elems n r it : SetIter_new_p (Val n) r = Val it -> elems (si_iter it) = map fst (full_window n).
  Proof. cbn. intros [= <-]. cbn [si_iter]. unfold elems. cbn [r_start r_end]. apply span_full. Qed.
  Lemma ref_debug_ends n r : ends_in (OrdinalSetRef_debug_p (Val n) r) (iteration_questions (map fst) n).
  Proof.
    unfold OrdinalSetRef_debug_p. apply ends_in_then; [apply visited_none|]. intros it E.
    eapply ends_in_bind; [apply set_collect_ends| |]; rewrite (iter_new_elems E).
    - auto.
    - intros l1 [l s] H. apply ends_done. rewrite app_nil_r. exact H.
  Qed.

  Lemma less_questions op n qs : set_questions (C := C) op n true qs -> set_questions (C := C) (K := K) op n false qs.
  Proof.
    destruct op; cbn [set_questions].
    - intros (c & H & ->). exists c. split; [lia|reflexivity].
    - intros (c & H & ->). exists c. split; [lia|reflexivity].
    - apply visited_less.
    - apply inserts_less.
    - auto.
    - apply visited_less.
  Qed.

  Lemma set_ends n op s : ends_in (set_step_p (Val n) op s) (set_questions op n).
  Proof.
    destruct op as [t|t|sched|l| |]; cbn [set_step_p].
    - eapply ends_in_bind; [apply insert_ends|auto|]. intros l1 [b s'] H. apply ends_done. rewrite app_nil_r. exact H.
    - apply ends_in_last; [|apply less_questions]. unfold OrdinalSet_contains_p. apply ends_in_then; [|intros r _; apply contains_ends].
      exists 0%nat. split; [lia|reflexivity].
    - apply ends_in_then; [apply visited_none|]. intros it E.
      destruct (OrdinalSet_as_ref_p (Val n) s) as [r| | | |]; try discriminate. cbn [bind] in E.
      eapply ends_in_bind; [apply set_drive_ends| |]; rewrite (iter_new_elems E); [auto|].
      intros l1 [got s'] H. apply ends_done. rewrite app_nil_r. exact H.
    - apply ends_in_last; [|apply less_questions]. unfold OrdinalSet_from_iter_p. apply ends_in_then; [apply inserts_none|]. intros s' _.
      eapply (@insert_all_ends _ (OrdinalSet_insert_p (Val n)) (OrdinalSet_insert_all_p (Val n))); [|reflexivity|reflexivity].
      intros s2 t. apply insert_ends.
    - apply ends_done. reflexivity.
    - apply ends_in_last; [|apply less_questions]. apply ends_in_then; [apply visited_none|]. intros r _. apply ref_debug_ends.
  Qed.
  Lemma array_set_ends n S op (s : OrdinalArraySet S) : ends_in (array_set_step_p (Val n) op s) (set_questions op n).
  Proof.
    destruct op as [t|t|sched|l| |]; cbn [array_set_step_p].
    - eapply ends_in_bind; [apply array_insert_ends|auto|]. intros l1 [b s'] H. apply ends_done. rewrite app_nil_r. exact H.
    - apply ends_in_last; [|apply less_questions]. unfold OrdinalArraySet_contains_p. apply ends_in_then; [|intros r _; apply contains_ends].
      exists 0%nat. split; [lia|reflexivity].
    - apply ends_done, visited_none.
    - apply ends_in_last; [|apply less_questions]. unfold OrdinalArraySet_from_iter_p. apply ends_in_then; [apply inserts_none|]. intros s' _.
      eapply (@insert_all_ends _ (@OrdinalArraySet_insert_p _ _ _ _ (Val n) S) (@OrdinalArraySet_insert_all_p _ _ _ _ (Val n) S)); [|reflexivity|reflexivity].
      intros s2 t. apply array_insert_ends.
    - apply ends_done. reflexivity.
    - apply ends_in_last; [|apply less_questions]. apply ends_in_then; [apply visited_none|]. intros r _. apply ref_debug_ends.
  Qed.

  (** ** OrdinalSet64 *)
  Definition bit_ok (s : N) (w : window) : Prop := (forall k, N.testbit s k = true -> k < 64) /\ w = map (fun i => (i, true)) (bits s).
  Lemma member_bits_eq s : member_bits s = map (fun i => (i, true)) (bits s).
  Proof.
    unfold member_bits, bits. generalize 64%nat. intros k.
    assert (E : forall l, window_from (N.testbit s) (N.of_nat (length l)) (map N.of_nat (seq (length l) k)) = map (fun i => (i, N.testbit s i)) (map N.of_nat (seq (@length unit l) k))).
    { induction k as [|k IH]; intros l; [reflexivity|]. cbn [seq map window_from]. f_equal. specialize (IH (tt :: l)). cbn [length] in IH.
      rewrite <- IH. f_equal. lia. }
    specialize (E []). cbn in E. unfold slots. change (fun i : N => N.testbit s i) with (N.testbit s). rewrite E. clear E. induction (map N.of_nat (seq 0 k)) as [|i l IH]; [reflexivity|].
    cbn [map filter snd]. destruct (N.testbit s i) eqn:B; cbn [map]; rewrite IH; try rewrite B; reflexivity.
  Qed.
  Lemma visit_all_true d l : visit d (map (fun i : N => (i, true)) l) =
    match d with
    | Front => match l with [] => ([], []) | i :: l' => ([i], map (fun i => (i, true)) l') end
    | Back => match rev l with [] => ([], []) | i :: l' => ([i], map (fun i => (i, true)) (rev l')) end
    end.
  Proof.
    destruct d; cbn [visit].
    - destruct l; reflexivity.
    - rewrite <- map_rev. destruct (rev l) as [|i l']; [reflexivity|]. cbn [map up_to_value]. now rewrite map_rev.
  Qed.

  Lemma iter64_asks d s w : bit_ok s w ->
    @asks K C R _ (Iter64_step_p d s) (froms (fst (visit d w))) (fun a => bit_ok (snd a) (snd (visit d w))).
  Proof.
    intros [Hs ->]. rewrite visit_all_true.
    pose proof Hs as Hb.
    assert (Hc : forall i k, N.testbit (N.land s i) k = true -> k < 64).
    { intros i k. rewrite N.land_spec. intros H. apply andb_true_iff in H. apply Hs, H. }
    unfold Iter64_step_p. destruct d.
    - cbv zeta. pose proof (trailing_zeros_bits Hb) as T. destruct (trailing_zeros s =? 64).
      + rewrite T. apply asks_val. cbn [snd]. split; [exact Hs|]. now rewrite T.
      + destruct T as [T1 T2]. rewrite T2. apply asks_then. intros b Eb. cbv zeta. rewrite shl_one in Eb by exact T1. injection Eb as <-.
        cbn [fst snd froms map]. apply asks_from_then. intros o. apply asks_then. intros t _. apply asks_val. split; [apply Hc|reflexivity].
    - pose proof (leading_zeros_bits Hb) as T. destruct (checked_sub (64 - 1) (leading_zeros s)) as [i|].
      + destruct T as [T1 T2]. rewrite T2, rev_app_distr. cbn [rev app]. rewrite rev_involutive.
        apply asks_then. intros b Eb. cbv zeta. rewrite shl_one in Eb by exact T1. injection Eb as <-.
        cbn [fst snd froms map]. apply asks_from_then. intros o. apply asks_then. intros t _. apply asks_val. split; [apply Hc|reflexivity].
      + rewrite T. apply asks_val. cbn [snd rev]. split; [exact Hs|]. now rewrite T.
  Qed.
  Lemma asks_ends A (p : prog K C R A) qs P (Q : bool -> list (query K C) -> Prop) :
    asks p qs P -> Q true qs -> (forall l, prefix l qs -> Q false l) -> ends_in p Q.
  Proof.
    intros H H1 H2 U w u. specialize (H U w u). destruct (run w u p) as [[u1 l1] []]; cbn [ended]; auto. destruct H as [-> _]. exact H1.
  Qed.

  Lemma set64_ends n op s : s < 18446744073709551616 -> ends_in (set64_step_p (Val n) op s) (set64_questions op n s).
  Proof.
    intros Hs. destruct op as [t|t|sched|l| |]; cbn [set64_step_p].
    - eapply (@asks_ends _ _ [QOrdinal t; QOrdinal t] (fun _ => True)); cbn [set64_questions]; auto.
      unfold OrdinalSet64_insert_p, OrdinalSet64_contains_p.
      eapply asks_last; [|intros [b s'] _; apply asks_end]. apply asks_then. intros [] _.
      eapply (@asks_bind _ _ _ _ _ _ _ [QOrdinal t] [QOrdinal t]).
      + apply asks_then. intros [] _. apply asks_ordinal_then. intros i. apply asks_then. intros x _. apply asks_end.
      + intros c _. cbv zeta. apply asks_ordinal_then. intros i. apply asks_then. intros x _. apply asks_end.
    - eapply (@asks_ends _ _ [QOrdinal t] (fun _ => True)); cbn [set64_questions]; auto.
      unfold OrdinalSet64_contains_p. eapply asks_last; [|intros b _; apply asks_end]. apply asks_then. intros [] _.
      apply asks_ordinal_then. intros i. apply asks_then. intros x _. apply asks_end.
    - eapply (@asks_ends _ _ (froms (fst (visits sched (member_bits s)))) (fun _ => True)); cbn [set64_questions]; auto.
      apply asks_then. intros it E. destruct (Set64_ASSERT_p (Val n)); try discriminate. injection E as <-.
      eapply asks_last; [|intros [got s'] _; apply asks_end]. apply drive_asks with (ok := bit_ok).
      + intros d s' w Hw. apply iter64_asks, Hw.
      + split; [exact (is_u64_lt Hs)|apply member_bits_eq].
    - eapply (@asks_ends _ _ (map QOrdinal l) (fun _ => True)); cbn [set64_questions]; auto.
      eapply asks_last; [|intros s' _; apply asks_end]. unfold OrdinalSet64_from_iter_p. apply asks_then. intros s' _. clear Hs. revert s'.
      induction l as [|t l IH]; intros s'; cbn [OrdinalSet64_or_all_p map]; [apply asks_end|].
      apply asks_ordinal_then. intros i. apply asks_then. intros x _. apply IH.
    - apply ends_done. reflexivity.
    - apply ends_in_last; [|apply visited_less]. apply ends_in_then; [apply visited_none|]. intros r _. apply ref_debug_ends.
  Qed.
End Sets.
