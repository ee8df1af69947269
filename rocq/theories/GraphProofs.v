(** * GraphProofs: AtomicOrdinals and variables allow the same results under every memory model. *)
From Verif Require Import Base Spec SpecAtomic SpecGraph ModelAtomic ModelGraph BaseProofs AtomicProofs2.
From Coq Require Import List Lia.
Import ListNotations.
Set Implicit Arguments.
Unset Strict Implicit.

Definition node_map {A B} (f : A -> B) (e : node A) : node B := (fst e, option_map f (snd e)).
Definition graph_map {A B} (f : A -> B) (g : graph A) : graph B :=
  {| g_threads := map (map (node_map f)) (g_threads g); g_from := g_from g |}.

Lemma shape_map A B (f : A -> B) g : shape (graph_map f g) = shape g.
Proof.
  unfold shape. cbn [g_threads graph_map]. rewrite map_map. apply map_ext. intros es.
  rewrite map_map. apply map_ext. intros [[x a] w]. reflexivity.
Qed.

Lemma node_at_map A B (f : A -> B) g i k : node_at (graph_map f g) i k = option_map (node_map f) (node_at g i k).
Proof.
  unfold node_at. cbn [g_threads graph_map]. rewrite nth_error_map.
  destruct (nth_error (g_threads g) i) as [es|]; [|reflexivity]. cbn [option_map]. apply nth_error_map.
Qed.

Lemma value_read_map A B (f : A -> B) init init' g i k x : (forall y, f (init y) = init' y) ->
  value_read init' (graph_map f g) i k x = option_map f (value_read init g i k x).
Proof.
  intros H. unfold value_read. change (g_from (graph_map f g) i k) with (g_from g i k).
  destruct (g_from g i k) as [[j l]|].
  - rewrite node_at_map. destruct (node_at g j l) as [[[y a] [v|]]|]; try reflexivity.
    cbn. destruct (Nat.eqb x y); reflexivity.
  - cbn. rewrite H. reflexivity.
Qed.

Section Graph.
  Context {T : Type} (O : Ordinal T) (HO : undone O) (eqd : forall a b : T, {a = b} + {a <> b}).

  Definition numbered (t : T) : Prop := exists i, ordinal O t = Val i.
  Definition enc (t : T) : N := match ordinal O t with Val i => i | _ => 0 end.
  Definition dec (t0 : T) (i : N) : T := match decode O i with Val t => t | _ => t0 end.

  Lemma enc_val t : numbered t -> ordinal O t = Val (enc t).
  Proof. intros (i & H). unfold enc. rewrite H. reflexivity. Qed.

  Lemma dec_val t0 t i : ordinal O t = Val i -> dec t0 i = t.
  Proof. intros H. unfold dec. rewrite (decode_back HO H). reflexivity. Qed.

  Definition written_numbered (e : node T) : Prop := match snd e with Some t => numbered t | None => True end.

  (** One call. *)
  Lemma call_refused c w : refusal O c = Some w ->
    call_method O c = Panic w \/
    exists q k, call_method O c = Val (q, k) /\ illegal_request q = true /\ w = POrdering.
  Proof.
    unfold refusal. intros H. destruct (method_of HO eqd c) as [(w' & Hw & Hm)|(Hr & q & k & Hm & Hill & _)].
    - left. rewrite Hm. f_equal. destruct c as [o|t o|old new s f|]; cbn in Hw; try contradiction.
      + rewrite Hw in H. congruence.
      + destruct Hw as [Hw|[[i Hi] Hw]]; [rewrite Hw in H; congruence|].
        rewrite Hi, Hw in H. congruence.
    - right. exists q, k. split; [exact Hm|]. rewrite Hill.
      destruct c as [o|t o|old new s f|]; cbn [refuses] in Hr.
      + destruct (legal (CLoad o)); [discriminate H|]. split; [reflexivity|congruence].
      + destruct (has_ordinal HO t) as [(i & Hi)|(w' & Hw)]; [|destruct (Hr _ Hw)]. rewrite Hi in H.
        destruct (legal (CStore t o)); [discriminate H|]. split; [reflexivity|congruence].
      + destruct (has_ordinal HO old) as [(i & Hi)|(w' & Hw)]; [|destruct (Hr _ (or_introl Hw))].
        destruct (has_ordinal HO new) as [(j & Hj)|(w' & Hw)].
        2:{ exfalso. apply (Hr w'). right. eauto. }
        rewrite Hi, Hj in H.
        destruct (legal (CCas old new s f)); [discriminate H|]. split; [reflexivity|congruence].
      + discriminate H.
  Qed.

  Lemma call_accepted c : refusal O c = None ->
    exists q k, call_method O c = Val (q, k) /\ illegal_request q = false /\
    (forall i, is_read (act_of q (snd (perform q i))) = match c with CStore _ _ => false | _ => true end) /\
    (forall i w, snd (perform q i) = Some w -> exists t, ordinal O t = Val w) /\
    forall v i, (match c with CStore _ _ => True | _ => ordinal O v = Val i end) ->
      let '(a, w, o) := call_on eqd c v in
      act_of q (snd (perform q i)) = a /\ snd (perform q i) = option_map enc w /\
      k (fst (perform q i)) = Val o /\ written_numbered (0%nat, a, w).
  Proof.
    unfold refusal. intros H. destruct c as [o|t o|old new s f|]; cbn [call_method].
    - destruct (legal (CLoad o)) eqn:L; [|discriminate H]. do 2 eexists. split; [reflexivity|].
      split; [destruct o; (reflexivity || discriminate L)|]. split; [reflexivity|]. split; [discriminate|].
      intros v i Hv. cbn. rewrite (decode_back HO Hv). repeat split.
    - unfold AtomicOrdinal_store. destruct (has_ordinal HO t) as [(j & Hj)|(w & Hw)]; [|rewrite Hw in H; discriminate H].
      rewrite Hj in H |- *. destruct (legal (CStore t o)) eqn:L; [|discriminate H].
      do 2 eexists. split; [reflexivity|].
      split; [destruct o; (reflexivity || discriminate L)|]. split; [reflexivity|].
      split; [cbn; intros _ w [= <-]; eauto|].
      intros v i _. cbn. unfold enc. rewrite Hj. repeat split. exists j. exact Hj.
    - unfold AtomicOrdinal_compare_exchange.
      destruct (has_ordinal HO old) as [(j & Hj)|(w & Hw)]; [|rewrite Hw in H; discriminate H].
      destruct (has_ordinal HO new) as [(j' & Hj')|(w & Hw)]; [|rewrite Hj, Hw in H; discriminate H].
      rewrite Hj, Hj' in H |- *. destruct (legal (CCas old new s f)) eqn:L; [|discriminate H].
      do 2 eexists. split; [reflexivity|].
      split; [destruct f; (reflexivity || discriminate L)|].
      split; [intros i; cbn; destruct (i =? j); reflexivity|].
      split; [cbn; intros i w; destruct (i =? j); cbn; [intros [= <-]; eauto|discriminate]|].
      intros v i Hv. cbn [call_on]. destruct (eqd v old) as [->|Hne].
      + rewrite Hj in Hv. injection Hv as <-. cbn. rewrite N.eqb_refl. cbn.
        rewrite (decode_back HO Hj). unfold enc. rewrite Hj'. repeat split. exists j'. exact Hj'.
      + cbn. destruct (N.eqb_spec i j) as [->|Hij].
        * exfalso. apply Hne. eapply apart; eassumption.
        * cbn. rewrite (decode_back HO Hv). repeat split.
    - do 2 eexists. split; [reflexivity|]. split; [reflexivity|]. split; [reflexivity|]. split; [discriminate|].
      intros v i Hv. cbn. rewrite (decode_back HO Hv). repeat split.
  Qed.

  (** Events are only added. *)
  Lemma run_atomic_prefix p rd n : forall es os, exists more, fst (fst (run_atomic O p rd n es os)) = es ++ more.
  Proof.
    induction n as [|n IH]; intros es os; cbn [run_atomic]; [exists []; cbn; rewrite app_nil_r; reflexivity|].
    assert (Stop : exists more, es = es ++ more) by (exists []; rewrite app_nil_r; reflexivity).
    destruct (p os) as [[x c]|]; [|exact Stop].
    destruct (call_method O c) as [[q k]|w| | |]; try exact Stop.
    destruct (illegal_request q); [exact Stop|]. destruct (perform q (rd (length es))) as [r w].
    destruct (k r); try (eexists; reflexivity).
    destruct (IH (es ++ [(x, act_of q w, w)]) (os ++ [a])) as [more E].
    eexists. rewrite E, <- app_assoc. reflexivity.
  Qed.

  Lemma run_variable_prefix p rd n : forall es os,
    exists more, fst (fst (run_variable O eqd p rd n es os)) = es ++ more.
  Proof.
    induction n as [|n IH]; intros es os; cbn [run_variable]; [exists []; cbn; rewrite app_nil_r; reflexivity|].
    assert (Stop : exists more, es = es ++ more) by (exists []; rewrite app_nil_r; reflexivity).
    destruct (p os) as [[x c]|]; [|exact Stop]. destruct (refusal O c); [exact Stop|].
    destruct (call_on eqd c (rd (length es))) as [[a w] o].
    destruct (IH (es ++ [(x, a, w)]) (os ++ [o])) as [more E].
    eexists. rewrite E, <- app_assoc. reflexivity.
  Qed.

  (** What is written are ordinals, whatever is read. *)
  Definition ordinal_written (e : node N) : Prop :=
    match snd e with Some i => exists t, ordinal O t = Val i | None => True end.

  Lemma run_atomic_written p rd n : forall es os, Forall ordinal_written es ->
    Forall ordinal_written (fst (fst (run_atomic O p rd n es os))).
  Proof.
    induction n as [|n IH]; intros es os H; cbn [run_atomic]; [exact H|].
    destruct (p os) as [[x c]|]; [|exact H].
    destruct (refusal O c) as [w|] eqn:Hr.
    { destruct (call_refused Hr) as [E|(q & k & E & I & _)]; rewrite E; [exact H|]. rewrite I. exact H. }
    destruct (call_accepted Hr) as (q & k & E & I & _ & Hw & _). rewrite E, I.
    specialize (Hw (rd (length es))). destruct (perform q (rd (length es))) as [r w]. cbn [snd] in Hw.
    assert (H' : Forall ordinal_written (es ++ [(x, act_of q w, w)])).
    { apply Forall_app. split; [exact H|]. constructor; [|constructor]. unfold ordinal_written. cbn.
      destruct w as [i|]; [exact (Hw i eq_refl)|exact Logic.I]. }
    destruct (k r); [apply IH, H'|exact H'..].
  Qed.

  Lemma call_on_written c v : refusal O c = None ->
    match snd (fst (call_on eqd c v)) with Some t => numbered t | None => True end.
  Proof.
    unfold refusal. intros H. destruct c as [o|t o|old new s f|]; cbn; try exact I.
    - destruct (has_ordinal HO t) as [N|(w & Hw)]; [exact N|]. rewrite Hw in H. discriminate H.
    - destruct (has_ordinal HO old) as [(i & Hi)|(w & Hw)]; [|rewrite Hw in H; discriminate H].
      destruct (has_ordinal HO new) as [N|(w & Hw)]; [|rewrite Hi, Hw in H; discriminate H].
      destruct (eqd v old); cbn; [exact N|exact I].
  Qed.

  Lemma run_variable_written p rd n : forall es os, Forall written_numbered es ->
    Forall written_numbered (fst (fst (run_variable O eqd p rd n es os))).
  Proof.
    induction n as [|n IH]; intros es os H; cbn [run_variable]; [exact H|].
    destruct (p os) as [[x c]|]; [|exact H]. destruct (refusal O c) as [w|] eqn:Hr; [exact H|].
    pose proof (call_on_written (rd (length es)) Hr) as Hw.
    destruct (call_on eqd c (rd (length es))) as [[a w] o]. cbn [fst snd] in Hw.
    apply IH, Forall_app. split; [exact H|]. constructor; [exact Hw|constructor].
  Qed.

  Lemma event_of_step {A} (es more : list (node A)) e : nth_error ((es ++ [e]) ++ more) (length es) = Some e.
  Proof. rewrite <- app_assoc, nth_error_app2, Nat.sub_diag by lia. reflexivity. Qed.

  (** From AtomicOrdinals to variables, with [f] giving back the value of each number read. *)
  Lemma run_forward p rd (f : N -> T) n : (forall t i, ordinal O t = Val i -> f i = t) ->
    forall es os,
    (forall k x a w, nth_error (fst (fst (run_atomic O p rd n (map (node_map enc) es) os))) k = Some (x, a, w) ->
      is_read a = true -> exists t, ordinal O t = Val (rd k)) ->
    exists es' os' st, run_variable O eqd p (fun k => f (rd k)) n es os = (es', os', st) /\
      run_atomic O p rd n (map (node_map enc) es) os = (map (node_map enc) es', os', st).
  Proof.
    intros Hf. induction n as [|n IH]; intros es os Hrd; cbn [run_variable run_atomic] in *.
    { exists es, os, Running. auto. }
    revert Hrd. destruct (p os) as [[x c]|]; intros Hrd; [|exists es, os, Running; auto].
    destruct (refusal O c) as [w|] eqn:Hr.
    { destruct (call_refused Hr) as [E|(q & k & E & I & ->)]; rewrite E; [|rewrite I];
        do 3 eexists; split; reflexivity. }
    destruct (call_accepted Hr) as (q & k & E & I & Hread & _ & Hstep). rewrite E, I in Hrd |- *.
    rewrite map_length in Hrd |- *. specialize (Hread (rd (length es))).
    assert (Hv : match c with CStore _ _ => True | _ => ordinal O (f (rd (length es))) = Val (rd (length es)) end).
    { assert (G : is_read (act_of q (snd (perform q (rd (length es))))) = true ->
                ordinal O (f (rd (length es))) = Val (rd (length es))).
      { intros G. destruct (perform q (rd (length es))) as [r w] eqn:Hp. cbn [snd] in G.
        cbv beta iota zeta in Hrd.
        match type of Hrd with forall k0 _ _ _, nth_error ?L k0 = _ -> _ =>
          assert (P : exists more, L = (map (node_map enc) es ++ [(x, act_of q w, w)]) ++ more) end.
        { destruct (k r); [apply run_atomic_prefix|exists []; rewrite app_nil_r; reflexivity..]. }
        destruct P as [more P]. rewrite P in Hrd.
        destruct (Hrd (length es) x (act_of q w) w) as [t Ht]; [|exact G|rewrite (Hf _ _ Ht); exact Ht].
        rewrite <- (map_length (node_map enc) es). apply event_of_step. }
      destruct c; try (apply G; exact Hread). exact Logic.I. }
    specialize (Hstep _ _ Hv). destruct (call_on eqd c (f (rd (length es)))) as [[a w] o].
    destruct Hstep as (Ha & Hw & Hk & _).
    destruct (perform q (rd (length es))) as [r w'] eqn:Hp. cbv beta iota zeta in Hrd |- *.
    cbn [fst snd] in Ha, Hw, Hk. rewrite Hk in Hrd |- *. subst a w'.
    assert (Em : map (node_map enc) es ++ [(x, act_of q (option_map enc w), option_map enc w)] =
                 map (node_map enc) (es ++ [(x, act_of q (option_map enc w), w)])) by (rewrite map_app; reflexivity).
    rewrite Em in Hrd |- *. exact (IH _ _ Hrd).
  Qed.

  (** And back. *)
  Lemma run_backward p rd n : forall es os es' os' st,
    run_variable O eqd p rd n es os = (es', os', st) ->
    (forall k x a w, nth_error es' k = Some (x, a, w) -> is_read a = true -> numbered (rd k)) ->
    run_atomic O p (fun k => enc (rd k)) n (map (node_map enc) es) os = (map (node_map enc) es', os', st).
  Proof.
    induction n as [|n IH]; intros es os es' os' st E Hrd; cbn [run_variable run_atomic] in *.
    { injection E as <- <- <-. reflexivity. }
    destruct (p os) as [[x c]|]; [|injection E as <- <- <-; reflexivity].
    destruct (refusal O c) as [w|] eqn:Hr.
    { injection E as <- <- <-.
      destruct (call_refused Hr) as [E|(q & k & E & I & ->)]; rewrite E; [|rewrite I]; reflexivity. }
    destruct (call_accepted Hr) as (q & k & Em & I & Hread & _ & Hstep). rewrite Em, I, map_length.
    assert (Hv : match c with CStore _ _ => True | _ => ordinal O (rd (length es)) = Val (enc (rd (length es))) end).
    { destruct c as [o|t o|old new s f|]; try exact Logic.I; apply enc_val;
        (destruct (call_on eqd _ (rd (length es))) as [[a w] o'] eqn:Ec;
         pose proof (f_equal (fun z => fst (fst z)) Ec) as Ea; cbn in Ea;
         match type of E with run_variable _ _ _ _ _ ?es1 ?os1 = _ =>
           destruct (run_variable_prefix p rd n es1 os1) as [more P] end;
         rewrite E in P; cbn [fst] in P; apply (Hrd (length es) x a w);
         [rewrite P; apply event_of_step|]);
        try (rewrite <- Ea; try reflexivity; destruct (eqd _ _); reflexivity). }
    specialize (Hstep _ _ Hv). destruct (call_on eqd c (rd (length es))) as [[a w] o].
    destruct Hstep as (Ha & Hw & Hk & _).
    destruct (perform q (enc (rd (length es)))) as [r w']. cbn [fst snd] in *. rewrite Hk. subst a w'.
    rewrite <- (IH _ _ _ _ _ E Hrd). rewrite map_app. reflexivity.
  Qed.

  Lemma thread_of {A} run (init : nat -> A) progs g results j es : execution run init progs g results ->
    nth_error (g_threads g) j = Some es ->
    exists p rd n (os : list (out T)) st, run p rd n = (es, os, st).
  Proof.
    intros (L & _ & H) E. destruct (nth_error progs j) as [p|] eqn:Ep.
    2:{ apply nth_error_None in Ep. rewrite <- L in Ep. apply nth_error_None in Ep. congruence. }
    destruct (H _ _ Ep) as (rd & n & es' & os & st & R & E' & _). rewrite E in E'. injection E' as <-. exists p, rd, n, os, st. exact R.
  Qed.

  Lemma read_good {A} (Q : A -> Prop) (init : nat -> A) g i k x v : (forall y, Q (init y)) ->
    (forall j es, nth_error (g_threads g) j = Some es ->
       Forall (fun e : node A => match snd e with Some w => Q w | None => True end) es) ->
    value_read init g i k x = Some v -> Q v.
  Proof.
    intros Hi Hw. unfold value_read, node_at. destruct (g_from g i k) as [[j l]|]; [|intros [= <-]; apply Hi].
    destruct (nth_error (g_threads g) j) as [es|] eqn:E; [|discriminate].
    destruct (nth_error es l) as [[[y a] [w|]]|] eqn:El; try discriminate.
    destruct (Nat.eqb x y); [|discriminate]. intros [= <-].
    pose proof (proj1 (Forall_forall _ _) (Hw _ _ E) _ (nth_error_In _ _ El)) as G. exact G.
  Qed.

  Context (init : nat -> T) (initN : nat -> N) (Hinit : forall x, ordinal O (init x) = Val (initN x)).

  Lemma nodes_back es : Forall written_numbered es -> map (node_map (dec (init 0%nat))) (map (node_map enc) es) = es.
  Proof.
    induction 1 as [|[[x a] w] es H _ IH]; [reflexivity|]. cbn [map]. rewrite IH. f_equal.
    unfold node_map. cbn. f_equal. destruct w as [t|]; [|reflexivity]. cbn in H |- *. f_equal.
    apply dec_val, enc_val, H.
  Qed.

  Lemma execution_forward progs g results : execution (atomic O) initN progs g results ->
    execution (variable O eqd) init progs (graph_map (dec (init 0%nat)) g) results.
  Proof.
    intros X. pose proof X as (L1 & L2 & H).
    assert (Hd : forall y, dec (init 0%nat) (initN y) = init y) by (intros y; apply dec_val, Hinit).
    assert (Hg : forall j es, nth_error (g_threads g) j = Some es -> Forall ordinal_written es).
    { intros j es E. destruct (thread_of X E) as (p & rd & n & os & st & R). unfold atomic in R.
      pose proof (@run_atomic_written p rd n [] [] (Forall_nil _)) as W. rewrite R in W. exact W. }
    split; [cbn; rewrite map_length; exact L1|]. split; [exact L2|]. intros i p Hp.
    destruct (H _ _ Hp) as (rd & n & es & os & st & R & E & Er & Hrd). unfold atomic in R.
    change (@nil (node N)) with (map (node_map enc) []) in R.
    destruct (@run_forward p rd (dec (init 0%nat)) n (fun t i Hi => @dec_val (init 0%nat) t i Hi) [] []) as (es' & os' & st' & V & A).
    { intros k x a w. rewrite R. cbn [fst]. intros Hk Ha.
      exact (@read_good N (fun i => exists t, ordinal O t = Val i) initN g i k x (rd k)
               (fun y => ex_intro _ _ (Hinit y)) Hg (Hrd _ _ _ _ Hk Ha)). }
    rewrite R in A. injection A as -> -> ->.
    pose proof (@run_variable_written p (fun k => dec (init 0%nat) (rd k)) n [] [] (Forall_nil _)) as W.
    rewrite V in W. cbn [fst] in W.
    exists (fun k => dec (init 0%nat) (rd k)), n, es', os', st'. split; [exact V|]. split.
    { cbn [g_threads graph_map]. rewrite nth_error_map, E. cbn. f_equal. apply nodes_back, W. }
    split; [exact Er|]. intros k x a w Hk Ha.
    rewrite (value_read_map g i k x Hd), (Hrd k x a (option_map enc w)); [reflexivity| |exact Ha].
    rewrite nth_error_map, Hk. reflexivity.
  Qed.

  Lemma execution_backward progs g results : execution (variable O eqd) init progs g results ->
    execution (atomic O) initN progs (graph_map enc g) results.
  Proof.
    intros X. pose proof X as (L1 & L2 & H).
    assert (He : forall y, enc (init y) = initN y) by (intros y; unfold enc; rewrite Hinit; reflexivity).
    assert (Hg : forall j es, nth_error (g_threads g) j = Some es -> Forall written_numbered es).
    { intros j es E. destruct (thread_of X E) as (p & rd & n & os & st & R). unfold variable in R.
      pose proof (@run_variable_written p rd n [] [] (Forall_nil _)) as W. rewrite R in W. exact W. }
    split; [cbn; rewrite map_length; exact L1|]. split; [exact L2|]. intros i p Hp.
    destruct (H _ _ Hp) as (rd & n & es & os & st & R & E & Er & Hrd). unfold variable in R.
    exists (fun k => enc (rd k)), n, (map (node_map enc) es), os, st. split.
    { unfold atomic. change (@nil (node N)) with (map (node_map enc) []). apply run_backward with (1 := R).
      intros k x a w Hk Ha.
      exact (@read_good T numbered init g i k x (rd k) (fun y => ex_intro _ _ (Hinit y)) Hg (Hrd _ _ _ _ Hk Ha)). }
    split; [cbn [g_threads graph_map]; rewrite nth_error_map, E; reflexivity|].
    split; [exact Er|]. intros k x a w Hk Ha. rewrite nth_error_map in Hk.
    destruct (nth_error es k) as [[[y b] u]|] eqn:Ek; [|discriminate Hk]. injection Hk as <- <- <-.
    rewrite (value_read_map g i k y He), (Hrd _ _ _ _ Ek Ha). reflexivity.
  Qed.

  Lemma same_results M progs results :
    allowed M (atomic O) initN progs results <-> allowed M (variable O eqd) init progs results.
  Proof.
    split; intros (g & Hm & X).
    - exists (graph_map (dec (init 0%nat)) g). rewrite shape_map. split; [exact Hm|]. apply execution_forward, X.
    - exists (graph_map enc g). rewrite shape_map. split; [exact Hm|]. apply execution_backward, X.
  Qed.

  (** How a thread ends. *)
  Lemma run_variable_end p rd n : forall es os es' os' st,
    run_variable O eqd p rd n es os = (es', os', st) ->
    st = Running \/ exists x c why, st = Died why /\ p os' = Some (x, c) /\ refusal O c = Some why.
  Proof.
    induction n as [|n IH]; intros es os es' os' st E; cbn [run_variable] in E.
    { injection E as <- <- <-. auto. }
    destruct (p os) as [[x c]|] eqn:Ep; [|injection E as <- <- <-; auto].
    destruct (refusal O c) as [w|] eqn:Hr.
    - injection E as <- <- <-. right. exists x, c, w. auto.
    - destruct (call_on eqd c (rd (length es))) as [[a w] o]. exact (IH _ _ _ _ _ E).
  Qed.

  Lemma ends M progs results : allowed M (atomic O) initN progs results ->
    forall i p os st, nth_error progs i = Some p -> nth_error results i = Some (os, st) ->
    st = Running \/ exists x c why, st = Died why /\ p os = Some (x, c) /\ refusal O c = Some why.
  Proof.
    intros A i p os st Hp Hr. apply same_results in A. destruct A as (g & _ & _ & _ & H).
    destruct (H _ _ Hp) as (rd & n & es & os' & st' & R & _ & Er & _). rewrite Hr in Er. injection Er as <- <-.
    exact (run_variable_end R).
  Qed.

  Lemma run_variable_outs p rd n : forall es os,
    exists more, snd (fst (run_variable O eqd p rd n es os)) = os ++ more.
  Proof.
    induction n as [|n IH]; intros es os; cbn [run_variable]; [exists []; cbn; rewrite app_nil_r; reflexivity|].
    assert (Stop : exists more, os = os ++ more) by (exists []; rewrite app_nil_r; reflexivity).
    destruct (p os) as [[x c]|]; [|exact Stop]. destruct (refusal O c); [exact Stop|].
    destruct (call_on eqd c (rd (length es))) as [[a w] o].
    destruct (IH (es ++ [(x, a, w)]) (os ++ [o])) as [more E].
    eexists. rewrite E, <- app_assoc. reflexivity.
  Qed.

  (** What a call returns if it read [v]. *)
  Lemma run_variable_results p rd n : forall es os es' os' st,
    length es = length os ->
    run_variable O eqd p rd n es os = (es', os', st) ->
    length es' = length os' /\
    forall m o, nth_error os' m = Some o ->
      nth_error os m = Some o \/
      exists x c, p (firstn m os') = Some (x, c) /\ refusal O c = None /\
        nth_error es' m = Some (x, fst (fst (call_on eqd c (rd m))), snd (fst (call_on eqd c (rd m)))) /\
        o = snd (call_on eqd c (rd m)).
  Proof.
    induction n as [|n IH]; intros es os es' os' st L E; cbn [run_variable] in E.
    { injection E as <- <- <-. auto. }
    destruct (p os) as [[x c]|] eqn:Ep; [|injection E as <- <- <-; auto].
    destruct (refusal O c) as [w|] eqn:Hr; [injection E as <- <- <-; auto|].
    destruct (call_on eqd c (rd (length es))) as [[a w] o] eqn:Ec.
    assert (L' : length (es ++ [(x, a, w)]) = length (os ++ [o])) by (rewrite !app_length, L; reflexivity).
    destruct (IH _ _ _ _ _ L' E) as (L2 & H). split; [exact L2|].
    intros m o' Hm. destruct (H _ _ Hm) as [Hn|R]; [|right; exact R].
    destruct (Nat.ltb_spec m (length os)) as [Hlt|Hge].
    - left. rewrite nth_error_app1 in Hn by exact Hlt. exact Hn.
    - right. rewrite nth_error_app2 in Hn by exact Hge.
      destruct (m - length os)%nat as [|d] eqn:Ed; [|destruct d; discriminate Hn]. cbn in Hn. injection Hn as ->.
      assert (m = length es) by lia. subst m. exists x, c. rewrite Ec. cbn [fst snd].
      pose proof (run_variable_outs p rd n (es ++ [(x, a, w)]) (os ++ [o'])) as (more & Em).
      rewrite E in Em. cbn [fst snd] in Em.
      pose proof (run_variable_prefix p rd n (es ++ [(x, a, w)]) (os ++ [o'])) as (more' & Es).
      rewrite E in Es. cbn [fst] in Es. split.
      + rewrite Em, L, <- app_assoc, firstn_app, firstn_all, Nat.sub_diag. cbn. rewrite app_nil_r. exact Ep.
      + split; [exact Hr|]. split; [rewrite Es; apply event_of_step|reflexivity].
  Qed.

  Lemma values_given M progs results : allowed M (atomic O) initN progs results ->
    forall i p os st m o t, nth_error progs i = Some p -> nth_error results i = Some (os, st) ->
    nth_error os m = Some o -> (o = OVal t \/ o = OOk t \/ o = OErr t) ->
    exists x c, p (firstn m os) = Some (x, c) /\
      (t = init x \/
       exists j q osj stj l c' o', nth_error progs j = Some q /\ nth_error results j = Some (osj, stj) /\
         nth_error osj l = Some o' /\ q (firstn l osj) = Some (x, c') /\ wrote c' o' = Some t).
  Proof.
    intros A i p os st m o t Hp Hr Ho Ht. apply same_results in A. destruct A as (g & _ & X).
    pose proof X as (L1 & _ & H).
    destruct (H _ _ Hp) as (rd & n & es & os' & st' & R & Eg & Er & Hrd). rewrite Hr in Er. injection Er as <- <-.
    unfold variable in R. destruct (@run_variable_results p rd n [] [] _ _ _ eq_refl R) as (_ & G).
    destruct (G _ _ Ho) as [Hn|(x & c & Ep & _ & En & Eo)]; [destruct m; discriminate Hn|].
    exists x, c. split; [exact Ep|].
    assert (Ev : is_read (fst (fst (call_on eqd c (rd m)))) = true /\ t = rd m).
    { destruct c as [?|u ?|old u s f|]; cbn in Eo |- *.
      - split; [reflexivity|]. destruct Ht as [?|[?|?]]; congruence.
      - destruct Ht as [?|[?|?]]; congruence.
      - destruct (eqd (rd m) old); cbn in Eo |- *; (split; [reflexivity|]); destruct Ht as [?|[?|?]]; congruence.
      - split; [reflexivity|]. destruct Ht as [?|[?|?]]; congruence. }
    destruct Ev as (Ev & ->). pose proof (Hrd _ _ _ _ En Ev) as Hv.
    unfold value_read, node_at in Hv. destruct (g_from g i m) as [[j l]|]; [|left; congruence]. right.
    destruct (nth_error (g_threads g) j) as [esj|] eqn:Ej; [|discriminate Hv].
    destruct (nth_error esj l) as [[[y a] [w|]]|] eqn:El; try discriminate Hv.
    destruct (Nat.eqb_spec x y) as [<-|]; [|discriminate Hv]. injection Hv as ->.
    destruct (nth_error progs j) as [q|] eqn:Eq.
    2:{ apply nth_error_None in Eq. rewrite <- L1 in Eq. apply nth_error_None in Eq. congruence. }
    destruct (H _ _ Eq) as (rdj & nj & esj' & osj & stj & Rj & Egj & Erj & _).
    rewrite Ej in Egj. injection Egj as <-. unfold variable in Rj.
    destruct (@run_variable_results q rdj nj [] [] _ _ _ eq_refl Rj) as (Lj & Gj).
    destruct (nth_error osj l) as [o'|] eqn:Eol.
    2:{ apply nth_error_None in Eol. rewrite <- Lj in Eol. apply nth_error_None in Eol. congruence. }
    destruct (Gj _ _ Eol) as [Hn|(y & c' & Eq' & _ & En' & Eo')]; [destruct l; discriminate Hn|].
    rewrite El in En'. injection En' as <- _ Ew.
    exists j, q, osj, stj, l, c', o'. do 4 (split; [assumption|]). subst o'.
    destruct c' as [?|u ?|old' u s f|]; cbn in Ew |- *; try discriminate Ew; [congruence|].
    destruct (eqd (rdj l) old'); [cbn in Ew |- *; congruence|discriminate Ew].
  Qed.
End Graph.
