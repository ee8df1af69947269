(** * CallsProofs2: functions with a closure; replaying a dialogue with an impl that is a pair of
    functions. *)
From Verif Require Import Base Spec SpecMap SpecTotal SpecSet SpecAtomic SpecSafety SpecCalls ModelOrdinal ModelValues ModelArrayBuilder
  ModelIter ModelTotal ModelMap ModelSet ModelAtomic MapMachine TotalMachine SetMachine ModelCalls CallsProofs1.
From Coq Require Import List Lia. Import ListNotations.
Set Implicit Arguments. Unset Strict Implicit.

Section Closures.
  Context {cfg : Config} {K : Type} (O : Ordinal K).
  Local Notation size := (ORDINAL_SIZE O).

  Lemma evals_is A C R St (f : St -> forall c, St * res (R c)) (p : prog K C R A) st r : is O f p r -> evals O f st p st r.
  Proof. intros H. apply H. Qed.

  Lemma try_new_loop_evals V E St (init : St -> K -> St * res (result V E)) n (m : list V) it st :
    evals O init st (OrdinalTotalMap_try_new_loop_p n m it)
      (fst (OrdinalTotalMap_try_new_loop O init n m it st)) (snd (OrdinalTotalMap_try_new_loop O init n m it st)).
  Proof.
    revert m it st. induction n as [|n IH]; intros m it st; cbn [OrdinalTotalMap_try_new_loop_p OrdinalTotalMap_try_new_loop].
    { exists []. reflexivity. }
    unfold evals. rewrite run_bind. destruct (is_values O init Front it st) as (l1 & E1). rewrite E1.
    cbn [values_step]. destruct (values_next O it) as [[[k|] it']| | | |]; cbn [fst snd run]; try (eexists; reflexivity).
    cbn [pbind ask run mixed]. destruct (init st k) as [st' r]. destruct r as [[v|e]| | | |]; cbn [pbind run fst snd]; try (eexists; reflexivity).
    destruct (IH (m ++ [v]) it' st') as (l2 & E2). rewrite E2. eexists. reflexivity.
  Qed.
  Lemma try_new_evals V E St (init : St -> K -> St * res (result V E)) st :
    evals O init st (OrdinalTotalMap_try_new_p size)
      (fst (OrdinalTotalMap_try_new O init st)) (snd (OrdinalTotalMap_try_new O init st)).
  Proof.
    unfold OrdinalTotalMap_try_new_p, OrdinalTotalMap_try_new, values_new_p, values_new.
    destruct (ORDINAL_SIZE O) as [n| | | |]; cbn [bind pbind]; try (eexists; reflexivity). apply try_new_loop_evals.
  Qed.

  Lemma fill_evals It A X T E St S (next : It -> prog K A (fun _ => X) (option A * It)) next' (conv : X -> result T E)
    (f : St -> A -> St * res X) init n b it st :
    (forall it, is O f (next it) (next' it)) ->
    (forall st a, init st a = let '(st', r) := f st a in (st', x <- r ;; Val (conv x))) ->
    evals O f st (fill_p S next conv n b it)
      (fst (fill S next' init n b it st)) (Val (snd (fill S next' init n b it st))).
  Proof.
    intros Hn Hi. revert b it st. induction n as [|n IH]; intros b it st; cbn [fill_p fill]; [eexists; reflexivity|].
    unfold evals. rewrite run_catch. destruct (Hn it st) as (l1 & E1). rewrite E1.
    destruct (next' it) as [[[a|] it']| | | |]; cbn [fst snd run]; try (eexists; reflexivity).
    cbn [mixed]. rewrite Hi. destruct (f st a) as [st' r]. destruct r as [x| | | |]; cbn [bind run fst snd]; try (eexists; reflexivity).
    destruct (conv x) as [v|e]; cbn [run fst snd]; try (eexists; reflexivity).
    destruct (builder_push S b v) as [b'| | | |]; cbn [run fst snd]; try (eexists; reflexivity).
    destruct (IH b' it' st') as (l2 & E2). rewrite E2. eexists. reflexivity.
  Qed.
  Lemma array_try_new_evals V E S St (init : St -> K -> St * res (result V E)) st :
    evals O init st (OrdinalTotalArrayMap_try_new_p size S)
      (fst (OrdinalTotalArrayMap_try_new O S init st)) (Val (snd (OrdinalTotalArrayMap_try_new O S init st))).
  Proof.
    unfold OrdinalTotalArrayMap_try_new_p, OrdinalTotalArrayMap_try_new, ASSERT_p, ASSERT, values_new_p, values_new.
    destruct (ORDINAL_SIZE O) as [n| | | |]; cbn [bind]; try (eexists; reflexivity).
    destruct (assert_const (n =? N.of_nat S)) as [[]| | | |]; cbn [bind]; try (eexists; reflexivity).
    apply (@fill_evals _ _ _ _ _ _ _ _ (values_next O)).
    - intros it. apply (is_values O init Front it).
    - intros st0 a. destruct (init st0 a) as [st' []]; reflexivity.
  Qed.

  Lemma map_evals V W S St (f : St -> K -> V -> St * res W) (m : OrdinalTotalArrayMap S V) st :
    exists o, evals O (fun st (c : K * V) => f st (fst c) (snd c)) st (OrdinalTotalArrayMap_map_p m)
      (fst (OrdinalTotalArrayMap_map O f m st)) (Val o) /\
      returned (snd (OrdinalTotalArrayMap_map O f m st)) = (a <- returned o ;; Val (into_ok a)) /\
      dropped (snd (OrdinalTotalArrayMap_map O f m st)) = dropped o.
  Proof.
    unfold OrdinalTotalArrayMap_map_p, OrdinalTotalArrayMap_map, array_from_iter.
    pose proof (@fill_evals _ _ _ W Empty_set St S (enumerate_step_p Front) (TIntoIterArray_step O Front)
      (fun w => ResOk w) (fun st (c : K * V) => f st (fst c) (snd c))
      (infallible_init (fun st '(k, v) => f st k v)) (S + 2) (builder_new S) (OrdinalTotalArrayMap_into_iter m) st) as E.
    destruct (fill S _ (infallible_init _) _ _ _ st) as [st' o]. cbn [fst snd returned dropped] in *.
    exists o. split; [|split; reflexivity]. apply E.
    - intros it. apply (is_enumerate O _ Front it).
    - intros st0 [k v]. reflexivity.
  Qed.

  (** A [retain] closure as one that returns the value it left behind. *)
  Definition retain_closure {V St} (f : St -> K -> V -> St * V * res bool) (st : St) (c : K * V) : St * res (V * res bool) :=
    let '(st', v, r) := f st (fst c) (snd c) in (st', Val (v, r)).
  Lemma retain_evals V St (f : St -> K -> V -> St * V * res bool) n (m : list (option V)) it st :
    let '(st', m', r) := OrdinalArrayMap_retain_loop O f n m it st in
    evals O (retain_closure f) st (OrdinalArrayMap_retain_loop_p n m it) st' (Val (m', r)).
  Proof.
    revert m it st. induction n as [|n IH]; intros m it st; cbn [OrdinalArrayMap_retain_loop_p OrdinalArrayMap_retain_loop]; [eexists; reflexivity|].
    unfold evals. rewrite run_catch. destruct (is_enumerate O (retain_closure f) Front it st) as (l1 & E1). rewrite E1.
    unfold TIterMut_step. destruct (enumerate_step O Front it) as [[[[k i]|] it']| | | |]; cbn [run]; try (eexists; reflexivity).
    destruct (deref m i) as [[v|]| | | |] eqn:D; cbn [run]; try (eexists; reflexivity).
    - cbn [mixed]. unfold retain_closure at 1. cbn [fst snd]. destruct (f st k v) as [[st' v'] r].
      destruct r as [[|]| | | |]; cbn [run]; try (eexists; reflexivity).
      + specialize (IH (store_at m i (Some v')) it' st').
        destruct (OrdinalArrayMap_retain_loop O f n (store_at m i (Some v')) it' st') as [[st2 m2] r2].
        destruct IH as (l2 & E2). rewrite E2. eexists. reflexivity.
      + specialize (IH (store_at (store_at m i (Some v')) i None) it' st').
        destruct (OrdinalArrayMap_retain_loop O f n (store_at (store_at m i (Some v')) i None) it' st') as [[st2 m2] r2].
        destruct IH as (l2 & E2). rewrite E2. eexists. reflexivity.
    - specialize (IH m it' st). destruct (OrdinalArrayMap_retain_loop O f n m it' st) as [[st2 m2] r2].
      destruct IH as (l2 & E2). rewrite E2. eexists. reflexivity.
  Qed.
End Closures.

(** ** Replaying *)
Section Replay.
  Context {K C X : Type}.
  Local Notation R := (fun _ : C => X).

  (** The impl gives the answers of the dialogue. *)
  Definition agrees (O : Ordinal K) (l : list (exchange K C R)) : Prop :=
    Forall (fun e : exchange K C R => match e with
              | Ev q r => match q return res (answer (R := R) q) -> Prop with
                          | QOrdinal k => fun r => ordinal O k = r
                          | QFrom i => fun r => from_ordinal O i = r
                          | QUser _ => fun _ => True
                          end r
              end) l.
  (** What the closure returned, call by call. *)
  Definition returns (l : list (exchange K C R)) : list (res X) :=
    flat_map (fun e : exchange K C R => match e with
                | Ev q r => match q return res (answer (R := R) q) -> list (res X) with
                            | QUser _ => fun r => [r]
                            | _ => fun _ => []
                            end r
                end) l.
  Definition replay_closure (st : list (res X)) (c : C) : list (res X) * res X :=
    match st with [] => ([], Panic PUser) | r :: st' => (st', r) end.

  Lemma replay U A (w : world K C R U) (O : Ordinal K) (p : prog K C R A) u u' l r :
    run w u p = (u', l, r) -> agrees O l -> forall rest, run (mixed O replay_closure) (returns l ++ rest) p = (rest, l, r).
  Proof.
    revert u l. induction p as [x|q c IH]; intros u l; cbn [run].
    - intros [= -> <- ->] _ rest. reflexivity.
    - destruct (w u q) as [u1 a]. destruct (run w u1 (c a)) as [[u2 l2] y] eqn:E. intros [= -> <- ->] H rest.
      inversion H as [|e l' He Hl]; subst. specialize (IH a u1 l2 E Hl rest).
      destruct q as [k|i|cl]; cbn [returns flat_map app mixed replay_closure] in *.
      + rewrite He. fold (returns l2). rewrite IH. reflexivity.
      + rewrite He. fold (returns l2). rewrite IH. reflexivity.
      + fold (returns l2). rewrite IH. reflexivity.
  Qed.

  (** An impl for a dialogue that asks [ordinal] at most once and no [from_ordinal] twice. *)
  Definition ordinal_answer (l : list (exchange K C R)) : res N :=
    fold_right (fun (e : exchange K C R) d => match e with
                  | Ev q r => match q return res (answer (R := R) q) -> res N with QOrdinal _ => fun r => r | _ => fun _ => d end r
                  end) (Panic PUser) l.
  Definition from_answer (i : N) (l : list (exchange K C R)) : res (option K) :=
    fold_right (fun (e : exchange K C R) d => match e with
                  | Ev q r => match q return res (answer (R := R) q) -> res (option K) with
                              | QFrom j => fun r => if i =? j then r else d
                              | _ => fun _ => d
                              end r
                  end) (Panic PUser) l.
  Definition impl_of_dialogue (size : res N) (l : list (exchange K C R)) : Ordinal K :=
    {| ORDINAL_SIZE := size; ordinal := fun _ => ordinal_answer l; from_ordinal := fun i => from_answer i l |}.

  Definition is_ordinal_question (q : query K C) : bool := match q with QOrdinal _ => true | _ => false end.
  Definition is_user_question (q : query K C) : bool := match q with QUser _ => true | _ => false end.

  (** One question [ordinal] at most, no other question of the impl twice. *)
  Definition once (qs : list (query K C)) : Prop :=
    (length (filter is_ordinal_question qs) <= 1)%nat /\ NoDup (filter (fun q => negb (is_user_question q)) qs).

  Lemma once_agrees size l : once (questions l) -> agrees (impl_of_dialogue size l) l.
  Proof.
    intros [H1 H2]. apply Forall_forall. intros e Hin. apply in_split in Hin. destruct Hin as (l1 & l2 & ->).
    unfold questions in *. rewrite map_app, filter_app in H1, H2. rewrite app_length in H1. cbn [map] in *.
    destruct e as [q r]. destruct q as [k|i|c]; cbn [question filter is_ordinal_question is_user_question negb] in *; [| |exact I].
    - cbn [length] in H1. cbn [ordinal impl_of_dialogue]. unfold ordinal_answer. rewrite fold_right_app. cbn [fold_right].
      assert (N : filter is_ordinal_question (map question l1) = []).
      { destruct (filter is_ordinal_question (map question l1)); [reflexivity|cbn in H1; lia]. }
      clear H1 H2. induction l1 as [|[q' r'] l1 IH]; [reflexivity|]. cbn [map question filter] in N. cbn [fold_right].
      destruct q'; cbn [is_ordinal_question] in N; [discriminate| |]; apply IH, N.
    - apply NoDup_remove_2 in H2. rewrite in_app_iff in H2. cbn [from_ordinal impl_of_dialogue]. unfold from_answer.
      rewrite fold_right_app. cbn [fold_right]. rewrite N.eqb_refl.
      assert (N : ~ In (QFrom i) (filter (fun q => negb (is_user_question q)) (map question l1))) by tauto.
      clear H1 H2. induction l1 as [|[q' r'] l1 IH]; [reflexivity|]. cbn [map question filter] in N. cbn [fold_right].
      destruct q' as [k'|j|c']; cbn [is_user_question negb] in N; try (apply IH; intros X1; apply N; try exact X1; right; exact X1).
      destruct (N.eqb_spec i j) as [->|_]; [exfalso; apply N; left; reflexivity|].
      apply IH. intros X1. apply N. right. exact X1.
  Qed.

  (** The answers of safe user code are outcomes that finish. *)
  Lemma run_safe U A (w : world K C R U) (p : prog K C R A) u u' l r :
    safe_world w -> run w u p = (u', l, r) -> Forall (fun e : exchange K C R => match e with Ev q a => no_ub a end) l.
  Proof.
    intros S. revert u l. induction p as [x|q c IH]; intros u l; cbn [run].
    - intros [= -> <- ->]. constructor.
    - pose proof (S u q) as Sq. destruct (w u q) as [u1 a]. cbn [snd] in Sq.
      destruct (run w u1 (c a)) as [[u2 l2] y] eqn:E. intros [= -> <- ->]. constructor; [exact Sq|]. eapply IH, E.
  Qed.
  Lemma impl_any size l : no_ub size -> Forall (fun e : exchange K C R => match e with Ev q a => no_ub a end) l ->
    any_impl (impl_of_dialogue size l).
  Proof.
    intros Hs Hl. split; [exact Hs|]. split; intros x; cbn [ordinal from_ordinal impl_of_dialogue].
    - induction Hl as [|[q r] l He Hl IH]; [exact I|]. cbn [ordinal_answer fold_right]. destruct q; auto.
    - induction Hl as [|[q r] l He Hl IH]; [exact I|]. cbn [from_answer fold_right]. destruct q; auto. destruct (x =? i); auto.
  Qed.
End Replay.
