(** * CallsProofs6: the questions of atomics, of the array impl and of functions with a closure. *)
From Verif Require Import Base Spec SpecMap SpecTotal SpecSet SpecAtomic SpecSafety SpecCalls ModelOrdinal ModelValues ModelArrayBuilder
  ModelIter ModelTotal ModelMap ModelSet ModelAtomic MapMachine TotalMachine SetMachine ModelCalls BaseProofs ArrayProofs IterLib
  CallsProofs1 CallsProofs3 CallsProofs4 CallsProofs5.
From Coq Require Import List Lia Permutation. Import ListNotations.
Set Implicit Arguments. Unset Strict Implicit.

(** ** Atomics *)
Section Atomic.
  Context {K C : Type} {R : C -> Type}.

  Lemma call_run U (w : world K C R U) u c cell : call_asked c cell (run w u (call_alone_p c cell)).
  Proof.
    destruct c as [o|t o|old new s f|]; cbn [call_alone_p call_questions call_asked].
    - unfold load_p, sc_apply. destruct (illegal_request (RLoad o)); cbn [perform after run].
      + apply prefix_nil.
      + unfold decode_p. cbn [run]. destruct (w u (QFrom cell)) as [u1 r]. cbn [call_asked questions map question].
        destruct r as [[t|]| | | |]; cbn [bind unwrap]; try apply prefix_refl; reflexivity.
    - unfold encode_p. cbn [run]. destruct (w u (QOrdinal t)) as [u1 r].
      destruct r as [v| | | |]; cbn [run call_asked questions map question]; try apply prefix_refl.
      unfold sc_apply. destruct (illegal_request (RStore v o)); cbn [perform after run call_asked questions map question]; [apply prefix_refl|reflexivity].
    - unfold encode_p. cbn [run]. destruct (w u (QOrdinal old)) as [u1 r].
      destruct r as [v| | | |]; cbn [run call_asked questions map question]; try (eexists; reflexivity).
      destruct (w u1 (QOrdinal new)) as [u2 r2].
      destruct r2 as [v2| | | |]; cbn [run call_asked questions map question]; try (eexists; reflexivity).
      unfold sc_apply. destruct (illegal_request (RCas v v2 s f)); cbn [perform after run call_asked questions map question]; [eexists; reflexivity|].
      destruct (cell =? v); cbn [after decode_p run]; destruct (w u2 (QFrom cell)) as [u3 r3]; cbn [call_asked questions map question];
        destruct r3 as [[t|]| | | |]; cbn [bind unwrap]; try apply prefix_refl; reflexivity.
    - unfold load_p, sc_apply. cbn [illegal_request perform after run]. unfold decode_p. cbn [run]. destruct (w u (QFrom cell)) as [u1 r].
      cbn [call_asked questions map question]. destruct r as [[t|]| | | |]; cbn [bind unwrap]; try apply prefix_refl; reflexivity.
  Qed.
End Atomic.

(** ** The array impl *)
Section Arrays.
  Context {cfg : Config} {K C : Type} {R : C -> Type}.

  Lemma array_ordinal_asks size len (a : arr K len) :
    asks (array_ordinal_p (R := R) size a) (map QOrdinal (arr_list a)) (fun _ => True).
  Proof.
    unfold array_ordinal_p. apply asks_then. intros n _. generalize 0. destruct a as [l ok]. cbn [arr_list]. clear ok.
    induction l as [|t l IH]; intros r; cbn [array_ordinal_loop_p map]; [apply asks_end|].
    apply asks_then. intros r1 _. apply asks_ordinal_then. intros i. apply asks_then. intros r2 _. apply IH.
  Qed.

  (** The dialogue always ends with a value; what counts is what was returned. *)
  Lemma array_from_run size len i U (w : world K C R U) u :
    let '(_, l, r) := run w u (array_from_ordinal_p (Val size) len i) in
    match r with
    | Val {| returned := Val (Some _) |} => questions l = froms (digits size i len)
    | _ => prefix (questions l) (froms (digits size i len))
    end.
  Proof.
    unfold array_from_ordinal_p. unfold digits.
    assert (H : forall turns n b u0, exists l r, run w u0 (array_from_loop_p (R := R) len size turns n b) = (fst (fst (run w u0 (array_from_loop_p (R := R) len size turns n b))), l, Val r) /\
      match r with
      | {| returned := Val (Some _) |} => questions l = froms (map (fun j => (n / size ^ N.of_nat j) mod size) (seq 0 turns))
      | _ => prefix (questions l) (froms (map (fun j => (n / size ^ N.of_nat j) mod size) (seq 0 turns)))
      end).
    { induction turns as [|turns IH]; intros n b u0; cbn [array_from_loop_p].
      - cbn [run]. exists []. eexists. split; [reflexivity|].
        match goal with |- match ?o with _ => _ end => destruct o as [[[]| | | |] ?] end; try apply prefix_nil. reflexivity.
      - destruct (checked_rem n size) as [d|] eqn:D; [|cbn [run]; exists []; eexists; split; [reflexivity|]].
        2:{ unfold leave. destruct (builder_drop b); apply prefix_nil. }
        assert (Ed : d = n mod size /\ size <> 0).
        { unfold checked_rem in D. destruct (N.eqb_spec size 0); [discriminate|]. now injection D as <-. }
        destruct Ed as [-> Hz].
        assert (Ds : map (fun j => (n / size ^ N.of_nat j) mod size) (seq 0 (Datatypes.S turns)) =
                     n mod size :: map (fun j => ((n / size) / size ^ N.of_nat j) mod size) (seq 0 turns)).
        { cbn [seq map]. rewrite N.pow_0_r, N.div_1_r. f_equal. rewrite <- seq_shift, map_map. apply map_ext. intros j.
          rewrite N.div_div by (auto; apply N.pow_nonzero; auto). do 2 f_equal. rewrite Nat2N.inj_succ, N.pow_succ_r'. reflexivity. }
        cbn [run]. destruct (w u0 (QFrom (n mod size))) as [u1 a].
        assert (One : forall (o : owned (option (arr K len)) K), (match returned o with Val (Some _) => False | _ => True end) ->
          match o with
          | {| returned := Val (Some _) |} => questions [Ev (QFrom (n mod size)) a] = froms (map (fun j => (n / size ^ N.of_nat j) mod size) (seq 0 (Datatypes.S turns)))
          | _ => prefix (questions [Ev (QFrom (n mod size)) a]) (froms (map (fun j => (n / size ^ N.of_nat j) mod size) (seq 0 (Datatypes.S turns))))
          end).
        { rewrite Ds. intros [[[]| | | |] ?]; cbn [returned]; try contradiction; intros _; cbn; eexists; reflexivity. }
        assert (Lv : forall (b0 : builder K) w0 also, match returned (leave (R := option (arr K len)) (Panic w0) b0 also) with Val (Some _) => False | _ => True end).
        { intros b0 w0 also. unfold leave. destruct (builder_drop b0); exact I. }
        destruct a as [[t|]| | | |]; cbn [bind unwrap]; try (cbn [run fst]; eexists; eexists; split; [reflexivity|]; apply One; try exact I; apply Lv).
        destruct (builder_push len b t) as [b'| | | |]; try (cbn [run fst]; eexists; eexists; split; [reflexivity|]; apply One; try exact I; apply Lv).
        assert (Eu : udiv n size = Val (n / size)) by (unfold udiv; destruct (N.eqb_spec size 0); [contradiction|reflexivity]).
        rewrite Eu. destruct (IH (n / size) b' u1) as (l2 & r2 & E2 & H2). rewrite E2. cbn [fst]. eexists. exists r2. split; [reflexivity|].
        rewrite Ds. cbn [questions map question froms]. fold (questions l2).
        destruct r2 as [[[x|]| | | |] dr]; [unfold froms in H2; now rewrite H2| | | | |]; destruct H2 as (rest & H2); exists rest; unfold froms in H2; now rewrite H2. }
    destruct (H len i (builder_new len) u) as (l & r & E & Hr). rewrite E. exact Hr.
  Qed.
End Arrays.

(** ** Functions with a closure *)
Section Source.
  Context {cfg : Config} {K C X : Type}.
  Local Notation R := (fun _ : C => X).

  (** An iterator that decodes the ordinals from [i] on and makes an argument of each key. *)
  Inductive source {It} (next : It -> prog K C R (option C * It)) : It -> N -> list (K -> C) -> Prop :=
  | SourceEnd it i : next it = Done (Val (None, it)) -> source next it i []
  | SourceMore it it' i call calls :
      next it = (r <~ ask_from i ;; k <~ Done (unwrap r) ;; Done (Val (Some (call k), it'))) ->
      source next it' (i + 1) calls -> source next it i (call :: calls).

  Lemma source_end It (next : It -> prog K C R (option C * It)) it i : source next it i [] -> next it = Done (Val (None, it)).
  Proof. now inversion 1. Qed.
  Lemma source_more It (next : It -> prog K C R (option C * It)) it i call calls : source next it i (call :: calls) ->
    exists it', next it = (r <~ ask_from i ;; k <~ Done (unwrap r) ;; Done (Val (Some (call k), it'))) /\ source next it' (i + 1) calls.
  Proof. inversion 1; subst. eauto. Qed.

  (** [built] from ordinal [i] on. *)
  Definition built_from {T E Z} (i : N) (calls : list (K -> C)) (ok : T -> X) (err : E -> X) (l : list (exchange K C R)) (made : list T)
      (r : res (result Z E)) : Prop :=
    exists ks last, length ks = length made /\ l = turns i calls (combine ks (map ok made)) ++ last /\
    match r with
    | Val (ResOk _) => length made = length calls /\ last = []
    | Val (ResErr e) => exists call k, nth_error calls (length made) = Some call /\ last = turn (i + llen made) k (call k) (err e)
    | _ => exists call, nth_error calls (length made) = Some call /\
        ((exists a, last = [Ev (QFrom (i + llen made)) a] /\ not_decoded a r) \/
         exists k a, last = [Ev (QFrom (i + llen made)) (Val (Some k)); Ev (QUser (call k)) a] /\ stopped a r)
    end.
  Lemma built_zero T E Z calls (ok : T -> X) (err : E -> X) l made (r : res (result Z E)) :
    built_from 0 calls ok err l made r -> built calls ok err l made r.
  Proof. intros H. exact H. Qed.
  Lemma built_cons T E Z i call calls (ok : T -> X) (err : E -> X) l made (r : res (result Z E)) k v :
    built_from (i + 1) calls ok err l made r ->
    built_from i (call :: calls) ok err (Ev (QFrom i) (Val (Some k)) :: Ev (QUser (call k)) (Val (ok v)) :: l) (v :: made) r.
  Proof.
    intros (ks & last & H1 & -> & H2). exists (k :: ks), last. split; [cbn; lia|]. split; [reflexivity|].
    assert (E1 : i + llen (v :: made) = i + 1 + llen made) by (unfold llen; cbn; lia). cbn [length nth_error]. rewrite E1.
    destruct r as [[z|e]| | | |]; auto. destruct H2. split; [lia|auto].
  Qed.
  (** Stopping with the answer to the first question or to the second one. *)
  Lemma stopped_not A Z (a : res A) (r : res Z) : stopped a r -> ended r = false.
  Proof. destruct a, r; cbn; auto; contradiction. Qed.
  Lemma built_decode T E Z i call calls (ok : T -> X) (err : E -> X) a (r : res (result Z E)) : not_decoded a r ->
    built_from i (call :: calls) ok err [Ev (QFrom i) a] [] r.
  Proof.
    intros H. assert (Hr : ended r = false) by (destruct H as [H|[_ ->]]; [eapply stopped_not, H|reflexivity]).
    exists [], [Ev (QFrom i) a]. split; [reflexivity|]. split; [reflexivity|].
    destruct r; try discriminate Hr; exists call; (split; [reflexivity|]); left; revert a H; change (llen []) with 0; rewrite N.add_0_r; intros a H; exists a; auto.
  Qed.
  Lemma built_call T E Z i call calls (ok : T -> X) (err : E -> X) k a (r : res (result Z E)) : stopped a r ->
    built_from i (call :: calls) ok err [Ev (QFrom i) (Val (Some k)); Ev (QUser (call k)) a] [] r.
  Proof.
    intros H. pose proof (stopped_not H) as Hr. exists [], [Ev (QFrom i) (Val (Some k)); Ev (QUser (call k)) a]. split; [reflexivity|]. split; [reflexivity|].
    destruct r; try discriminate Hr; exists call; (split; [reflexivity|]); right; exists k, a; change (llen []) with 0; rewrite N.add_0_r; auto.
  Qed.

  Section Fill.
    Context {It T E : Type} (S : nat) (next : It -> prog K C R (option C * It)) (conv : X -> result T E) (ok : T -> X) (err : E -> X)
      (Hconv : forall x, match conv x with ResOk v => x = ok v | ResErr e => x = err e end).

    Lemma fill_run U (w : world K C R U) calls made n it i u :
      source next it i calls -> (length made + length calls = S)%nat -> (length calls < n)%nat ->
      exists u' l o, run w u (fill_p S next conv n (builder_of S made) it) = (u', l, Val o) /\
        exists more, built_from i calls ok err l more (returned o) /\
          match returned o with
          | Val (ResOk a) => arr_list a = made ++ more /\ dropped o = []
          | Val (ResErr _) | Panic _ => dropped o = made ++ more
          | _ => True
          end.
    Proof.
      revert made n it i u. induction calls as [|call calls IH]; intros made n it i u Hs Hl Hn; (destruct n as [|n]; [cbn in Hn; lia|]).
      - pose proof (source_end Hs) as En. cbn [fill_p]. rewrite En. cbn [pcatch run]. cbn [length] in Hl.
        destruct (@finish_ok T S made) as (a & Ea & Ha); [lia|]. rewrite Ea. cbn [returned dropped bind].
        do 3 eexists. split; [reflexivity|]. exists []. cbn [returned dropped]. rewrite app_nil_r. split; [|auto].
        exists [], []. repeat split.
      - destruct (source_more Hs) as (it' & En & Hs'). cbn [fill_p]. rewrite En. clear En.
        unfold ask_from, ask. cbn [pbind pcatch run]. destruct (w u (QFrom i)) as [u1 a]. cbn [length] in Hl, Hn.
        destruct a as [[k|]| | | |]; cbn [pbind unwrap pcatch run];
          try (do 3 eexists; split; [reflexivity|]; exists []; rewrite ?leave_ok; cbn [returned dropped app]; rewrite ?app_nil_r;
               split; [apply built_decode; try (left; exact eq_refl); try (left; exact I); right; auto|auto]).
        destruct (w u1 (QUser (call k))) as [u2 x].
        destruct x as [x| | | |]; cbn [run];
          try (do 3 eexists; split; [reflexivity|]; exists []; rewrite ?leave_ok; cbn [returned dropped app]; rewrite ?app_nil_r;
               split; [apply built_call; first [exact eq_refl|exact I]|auto]).
        pose proof (Hconv x) as Hx. destruct (conv x) as [v|e]; subst x.
        + rewrite push_ok by lia. destruct (IH (made ++ [v]) n it' (i + 1) u2 Hs') as (u' & l & o & Er & more & Hb & Ho).
          { rewrite app_length. cbn. lia. } { lia. }
          rewrite Er. do 3 eexists. split; [reflexivity|]. exists (v :: more). split; [now apply built_cons|].
          rewrite <- app_assoc in Ho. exact Ho.
        + cbn [run]. do 3 eexists. split; [reflexivity|]. exists []. rewrite leave_ok. cbn [returned dropped app]. rewrite app_nil_r.
          split; [|reflexivity]. exists []. eexists. split; [reflexivity|]. split; [reflexivity|]. exists call, k. split; [reflexivity|].
          change (llen []) with 0. rewrite N.add_0_r. reflexivity.
    Qed.
  End Fill.
End Source.

Section Closures.
  Context {cfg : Config} {K : Type}.

  Lemma values_source X a n :
    source (C := K) (X := X) (values_step_p Front) {| r_start := a; r_end := a + N.of_nat n |} a (repeat (fun k : K => k) n).
  Proof.
    revert a. induction n as [|n IH]; intros a; cbn [repeat].
    - apply SourceEnd. unfold values_step_p, range_next. cbn [r_start r_end]. destruct (N.ltb_spec a (a + N.of_nat 0)); [lia|reflexivity].
    - apply SourceMore with (it' := {| r_start := a + 1; r_end := a + N.of_nat (Datatypes.S n) |}).
      + unfold values_step_p, range_next. cbn [r_start r_end]. destruct (N.ltb_spec a (a + N.of_nat (Datatypes.S n))); [reflexivity|lia].
      + specialize (IH (a + 1)). replace (a + 1 + N.of_nat n) with (a + N.of_nat (Datatypes.S n)) in IH by lia. exact IH.
  Qed.
  Lemma enumerate_source V W i (vs : list V) : i + llen vs <= usize_max ->
    source (C := K * V) (X := W) (enumerate_step_p Front) {| e_next := i; e_items := vs |} i (map (fun v k => (k, v)) vs).
  Proof.
    revert i. induction vs as [|v vs IH]; intros i H; cbn [map].
    - apply SourceEnd. reflexivity.
    - unfold llen in H. cbn [length] in H. apply SourceMore with (it' := {| e_next := i + 1; e_items := vs |}).
      + cbn [enumerate_step_p]. unfold enumerate_next_p. cbn [e_items e_next pop_front]. rewrite uadd_small by lia. reflexivity.
      + apply IH. unfold llen. lia.
  Qed.

  Definition arg_key (n : nat) : list (K -> K) := repeat (fun k => k) n.

  Lemma try_new_loop_run V E U (w : world K K (fun _ => result V E) U) calls (made : list V) n it i u :
    source (C := K) (X := result V E) (values_step_p Front) it i calls -> (length calls < n)%nat ->
    exists u' l r, run w u (OrdinalTotalMap_try_new_loop_p n made it) = (u', l, r) /\
      exists more, built_from i calls (fun v => ResOk v) (fun e => ResErr e) l more r /\ (forall m, r = Val (ResOk m) -> m = made ++ more) /\
      (Forall (fun e : exchange K K (fun _ => result V E) => match e with Ev q a => no_ub a end) l -> no_ub r).
  Proof.
    revert made n it i u. induction calls as [|call calls IH]; intros made n it i u Hs Hn; (destruct n as [|n]; [cbn in Hn; lia|]).
    - pose proof (source_end Hs) as En. cbn [OrdinalTotalMap_try_new_loop_p]. rewrite En. cbn [pbind run].
      do 3 eexists. split; [reflexivity|]. exists []. split; [exists [], []; repeat split|]. split; [|intros; exact I].
      intros m [= <-]. now rewrite app_nil_r.
    - destruct (source_more Hs) as (it' & En & Hs'). cbn [OrdinalTotalMap_try_new_loop_p]. rewrite En.
      unfold ask_from, ask. cbn [pbind run]. destruct (w u (QFrom i)) as [u1 a]. cbn [length] in Hn.
      destruct a as [[k|]| | | |]; cbn [pbind unwrap run];
        try (do 3 eexists; split; [reflexivity|]; exists []; split; [apply built_decode; try (left; exact eq_refl); try (left; exact I); right; auto|]; split; [discriminate|];
             intros F; inversion F; subst; auto; exact I).
      destruct (w u1 (QUser (call k))) as [u2 x].
      destruct x as [[v|e]| | | |]; cbn [pbind run];
        try (do 3 eexists; split; [reflexivity|]; exists []; split; [apply built_call; first [exact eq_refl|exact I]|]; split; [discriminate|];
             intros F; inversion F as [|? ? F1 F2]; subst; inversion F2; subst; auto; exact I).
      + destruct (IH (made ++ [v]) n it' (i + 1) u2 Hs') as (u' & l & r & Er & more & Hb & Hm & Hu); [lia|].
        rewrite Er. do 3 eexists. split; [reflexivity|]. exists (v :: more).
        split; [apply (@built_cons K K (result V E) V E _ i call calls (fun v => ResOk v) (fun e => ResErr e)), Hb|].
        split; [intros m Em; rewrite (Hm m Em), <- app_assoc; reflexivity|].
        intros F. inversion F as [|? ? F1 F2]; subst. inversion F2; subst. auto.
      + do 3 eexists. split; [reflexivity|]. exists []. split; [|split; [discriminate|intros; exact I]].
        exists []. eexists. split; [reflexivity|]. split; [reflexivity|]. exists call, k. split; [reflexivity|].
        change (llen []) with 0. rewrite N.add_0_r. reflexivity.
  Qed.
End Closures.
