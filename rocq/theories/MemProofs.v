(** * MemProofs: ownership and initialisation of array construction (C49). *)
From Verif Require Import Base Spec SpecMem BaseProofs ModelOrdinal ModelValues ModelArrayBuilder ModelIter ModelTotal ArrayProofs.
From Coq Require Import Permutation.

Section Fill.
  Context {T It A E St : Type} (S : nat).
  Variable next : It -> res (option A * It).
  Variable init : St -> A -> St * res (result T E).

  (** Recording does not change the behaviour. *)
  Lemma fill_logged fuel : forall b it st log,
    let r := fill S next (logged init) fuel b it (st, log) in
    fill S next init fuel b it st = (fst (fst r), snd r).
  Proof.
    induction fuel as [|fuel IH]; intros b it st log; cbn; [reflexivity|].
    destruct (next it) as [[[a|] it']|w| | |]; try reflexivity.
    unfold logged. cbn [fst snd].
    destruct (init st a) as [st' r].
    destruct r as [[v|e]|w| | |]; try reflexivity.
    destruct (builder_push S b v) as [b'|w| | |]; try reflexivity.
    apply IH.
  Qed.

  Hypothesis next_safe : forall it, safe (next it).
  Hypothesis init_safe : forall st a, safe (snd (init st a)).

  Lemma fill_conserves fuel : forall l it st,
    (length l <= S)%nat -> (S - length l + 1 < fuel)%nat ->
    let '((_, log), o) := fill S next (logged init) fuel (builder_of S l) it (st, l) in
    safe (returned o) /\ Permutation log (kept (returned o) ++ dropped o).
  Proof.
    induction fuel as [|fuel IH]; intros l it st Hl Hf; [lia|].
    cbn [fill]. pose proof (next_safe it) as Hn.
    destruct (next it) as [[[a|] it']|w| | |]; try contradiction Hn.
    - unfold logged at 1. cbn [fst snd].
      pose proof (init_safe st a) as Hi.
      destruct (init st a) as [st' r]. cbn [snd] in Hi.
      destruct r as [[v|e]|w| | |]; try contradiction Hi.
      + destruct (Nat.lt_ge_cases (length l) S) as [Hlt|Hge].
        * rewrite push_ok by exact Hlt. apply IH.
          -- rewrite app_length. cbn. lia.
          -- rewrite app_length. cbn. lia.
        * rewrite push_full by exact Hge. rewrite leave_ok. cbn [returned dropped kept].
          split; [exact I|]. cbn [app]. apply Permutation_sym, Permutation_cons_append.
      + rewrite leave_ok. cbn [returned dropped kept app]. split; [exact I|reflexivity].
      + rewrite leave_ok. cbn [returned dropped kept app]. split; [exact I|reflexivity].
    - destruct (Nat.eq_dec (length l) S) as [E1|E1].
      + destruct (finish_ok l E1) as (arr & -> & Ha). cbn [returned dropped bind kept].
        split; [exact I|]. rewrite Ha, app_nil_r. reflexivity.
      + rewrite finish_short by lia. cbn [returned dropped bind kept app].
        split; [exact I|reflexivity].
    - rewrite leave_ok. cbn [returned dropped kept app]. split; [exact I|reflexivity].
  Qed.

  Lemma fill_new_conserves it st :
    let '((_, log), o) := fill S next (logged init) (S + 2) (builder_new S) it (st, []) in
    safe (returned o) /\ Permutation log (kept (returned o) ++ dropped o).
  Proof. rewrite builder_new_of. apply fill_conserves; cbn; lia. Qed.

  (** More fuel never changes a finished run. *)
  Lemma fill_fuel fuel : forall k l it st,
    (length l <= S)%nat -> (S - length l + 1 < fuel)%nat ->
    fill S next init (fuel + k) (builder_of S l) it st =
    fill S next init fuel (builder_of S l) it st.
  Proof.
    induction fuel as [|fuel IH]; intros k l it st Hl Hf; [lia|].
    cbn [fill plus]. destruct (next it) as [[[a|] it']|w| | |]; try reflexivity.
    destruct (init st a) as [st' r]. destruct r as [[v|e]|w| | |]; try reflexivity.
    destruct (Nat.lt_ge_cases (length l) S) as [Hlt|Hge].
    - rewrite push_ok by exact Hlt. apply IH; rewrite app_length; cbn; lia.
    - rewrite push_full by exact Hge. reflexivity.
  Qed.
End Fill.

(** ** [[T; N]::from_ordinal] *)
Section ArrayFrom.
  Context {T : Type} (O : Ordinal T) (len : nat).

  Hypothesis from_safe : forall i, safe (from_ordinal O i).

  Lemma array_from_loop_conserves size turns : forall m l,
    (length l + turns = len)%nat ->
    let o := array_from_loop O len size turns m (builder_of len l) in
    safe (returned o) /\ Permutation (l ++ decoded O size turns m) (kept_opt (returned o) ++ dropped o).
  Proof.
    induction turns as [|turns IH]; intros m l Hl; cbn [array_from_loop decoded].
    - destruct (N.eqb_spec m 0); cbn [negb].
      + destruct (@finish_ok T len l) as (a & -> & Ha); [lia|].
        cbn [returned dropped bind]. rewrite Ha.
        destruct (@try_arr_ok T len (rev l)) as (a' & -> & Ha'); [rewrite rev_length; lia|].
        cbn [kept_opt]. rewrite Ha', !app_nil_r. split; [exact I|apply Permutation_rev].
      + rewrite leave_ok. cbn [returned dropped kept_opt app]. rewrite app_nil_r.
        split; [exact I|reflexivity].
    - unfold checked_rem. destruct (N.eqb_spec size 0) as [->|Hs].
      + rewrite leave_ok. cbn [returned dropped kept_opt app].
        split; [exact I|]. destruct (from_ordinal O (m mod 0)) as [[v|]|w| | |];
          rewrite app_nil_r; reflexivity.
      + pose proof (from_safe (m mod size)) as Hf.
        destruct (from_ordinal O (m mod size)) as [[v|]|w| | |]; try contradiction Hf;
          cbn [bind unwrap].
        * rewrite push_ok by lia. rewrite udiv_ok by exact Hs.
          specialize (IH (m / size) (l ++ [v])). rewrite <- app_assoc in IH. apply IH.
          rewrite app_length. cbn. lia.
        * rewrite leave_ok. cbn [returned dropped kept_opt app]. rewrite app_nil_r.
          split; [exact I|reflexivity].
        * rewrite leave_ok. cbn [returned dropped kept_opt app]. rewrite app_nil_r.
          split; [exact I|reflexivity].
  Qed.

  Lemma array_from_ordinal_conserves size m :
    ORDINAL_SIZE O = Val size ->
    let o := array_from_ordinal O len m in
    safe (returned o) /\ Permutation (decoded O size len m) (kept_opt (returned o) ++ dropped o).
  Proof.
    intros Hs. unfold array_from_ordinal. rewrite Hs, builder_new_of.
    apply (array_from_loop_conserves size len m []). reflexivity.
  Qed.
End ArrayFrom.

(** ** The builder *)
Lemma builder_law {T} (S : nat) (vs : list T) :
  if Nat.leb (length vs) S then
    exists b, pushes S vs (builder_new S) = Val b /\ builder_drop b = Val vs /\
      (length vs <> S -> builder_try_finish S b = Val (None, vs)) /\
      (length vs = S -> exists a, builder_try_finish S b = Val (Some a, []) /\ arr_list a = vs)
  else pushes S vs (builder_new S) = Panic PAssert.
Proof.
  assert (G : forall (l done : list T), (length done <= S)%nat ->
    pushes S l (builder_of S done) = if Nat.leb (length done + length l) S then Val (builder_of S (done ++ l)) else Panic PAssert).
  { induction l as [|v l IH]; intros done Hd; cbn [pushes].
    - rewrite app_nil_r, Nat.add_0_r. destruct (Nat.leb_spec (length done) S); [reflexivity|lia].
    - destruct (Nat.lt_ge_cases (length done) S) as [Hlt|Hge].
      + rewrite push_ok by exact Hlt. cbn [bind]. rewrite IH by (rewrite app_length; cbn; lia).
        rewrite app_length. cbn [length]. rewrite <- app_assoc. cbn [app].
        replace (length done + 1 + length l)%nat with (length done + Datatypes.S (length l))%nat by lia. reflexivity.
      + rewrite push_full by exact Hge. cbn [bind length].
        destruct (Nat.leb_spec (length done + Datatypes.S (length l)) S); [lia|reflexivity]. }
  rewrite builder_new_of, (G vs []) by (cbn; lia). cbn [length plus app].
  destruct (Nat.leb_spec (length vs) S) as [Hl|Hl]; [|reflexivity].
  exists (builder_of S vs). split; [reflexivity|]. split; [apply drop_ok|].
  assert (E : builder_try_finish S (builder_of S vs) = (if Nat.eqb (length vs) S
                                then match try_arr S vs with Some a => Val (Some a, []) | None => UB end
                                else Val (None, vs))).
  { unfold builder_try_finish. replace (b_filled (builder_of S vs)) with (length vs) by reflexivity.
    destruct (Nat.eqb_spec (length vs) S) as [E|E]; cbn [negb].
    - replace (b_cells (builder_of S vs)) with (map Some vs).
      + now rewrite all_init_map.
      + unfold builder_of. cbn [b_cells]. rewrite E, Nat.sub_diag. cbn. now rewrite app_nil_r.
    - destruct (Nat.leb_spec (length vs) S); [|lia]. now rewrite drop_ok. }
  split; [intros Hne; rewrite E; destruct (Nat.eqb_spec (length vs) S); [contradiction|reflexivity]|]. intros El. rewrite E, El, Nat.eqb_refl.
  destruct (@try_arr_ok T S vs El) as (a & -> & Ea). eauto.
Qed.

(** ** The public constructors *)
Section Public.
  Context {cfg : Config} {K : Type} (O : Ordinal K) (S : nat).
  Hypothesis from_safe : forall i, safe (from_ordinal O i).

  Lemma values_next_safe it : safe (values_next O it).
  Proof.
    unfold values_next. destruct (range_next it) as [[i it']|]; [|exact I].
    pose proof (from_safe i) as H. destruct (from_ordinal O i) as [[k|]| | | |]; cbn in *; auto.
  Qed.
  Lemma uadd_safe a b : safe (uadd a b).
  Proof.
    unfold uadd, usize_rt. repeat match goal with |- context [if ?b then _ else _] => destruct b end; exact I.
  Qed.
  Lemma enumerate_next_safe {A} (it : enumerate A) : safe (enumerate_step O Front it).
  Proof.
    cbn [enumerate_step]. unfold enumerate_next. destruct (pop_front (e_items it)) as [[a r]|]; [|exact I].
    pose proof (from_safe (e_next it)) as H. destruct (from_ordinal O (e_next it)) as [[k|]| | | |]; cbn in *; auto.
    pose proof (uadd_safe (e_next it) 1) as H2. destruct (uadd (e_next it) 1); cbn in *; auto.
  Qed.

  Lemma try_new_conserves {V E St} (init : St -> K -> St * res (result V E)) st n :
    ORDINAL_SIZE O = Val n -> (forall st k, safe (snd (init st k))) ->
    let '((st', log), o) := OrdinalTotalArrayMap_try_new O S (logged init) (st, []) in
    OrdinalTotalArrayMap_try_new O S init st = (st', o) /\
    (if n =? N.of_nat S then safe (returned o) else returned o = NoCompile) /\
    Permutation log (kept (returned o) ++ dropped o).
  Proof.
    intros Hs Hi. unfold OrdinalTotalArrayMap_try_new, ASSERT, values_new. rewrite Hs. cbn [bind].
    destruct (n =? N.of_nat S); cbn [assert_const].
    - pose proof (@fill_new_conserves V _ K E St S (values_next O) init values_next_safe Hi {| r_start := 0; r_end := n |} st) as G.
      pose proof (@fill_logged V _ K E St S (values_next O) init (S + 2) (builder_new S) {| r_start := 0; r_end := n |} st []) as L.
      destruct (fill S (values_next O) (logged init) (S + 2) (builder_new S) {| r_start := 0; r_end := n |} (st, [])) as [[st' log] o].
      split; [exact L|exact G].
    - split; [reflexivity|]. split; [reflexivity|]. constructor.
  Qed.

  Lemma infallible_safe {V St A} (init : St -> A -> St * res V) :
    (forall st k, safe (snd (init st k))) -> forall st k, safe (snd (infallible_init init st k)).
  Proof.
    intros Hi st k. unfold infallible_init. specialize (Hi st k). destruct (init st k) as [st' r]. cbn in *.
    destruct r; cbn in *; auto.
  Qed.

  Lemma logged_infallible {V St A} (init : St -> A -> St * res V) s a :
    infallible_init (logged_ok init) s a = logged (infallible_init init) s a.
  Proof.
    destruct s as [st log]. unfold logged, infallible_init, logged_ok. cbn [fst snd].
    destruct (init st a) as [st' r]. destruct r; reflexivity.
  Qed.

  Lemma fill_ext {T It A E St} (next : It -> res (option A * It)) (i1 i2 : St -> A -> St * res (result T E)) :
    (forall s a, i1 s a = i2 s a) -> forall fuel b it st, fill S next i1 fuel b it st = fill S next i2 fuel b it st.
  Proof.
    intros Hi. induction fuel as [|fuel IH]; intros b it st; [reflexivity|]. cbn [fill].
    destruct (next it) as [[[a|] it']| | | |]; try reflexivity. rewrite Hi. destruct (i2 st a) as [st' r].
    destruct r as [[v|e]| | | |]; try reflexivity. destruct (builder_push S b v); try reflexivity. apply IH.
  Qed.

  Lemma from_iter_conserves {T It A St} (next : It -> res (option A * It)) (f : St -> A -> St * res T) it st :
    (forall it, safe (next it)) -> (forall st a, safe (snd (f st a))) ->
    let '((st', log), o) := array_from_iter S next (logged_ok f) it (st, []) in
    array_from_iter S next f it st = (st', o) /\ safe (returned o) /\
    Permutation log (kept_ok (returned o) ++ dropped o).
  Proof.
    intros Hn Hf. unfold array_from_iter. rewrite (fill_ext next _ _ (logged_infallible f)).
    pose proof (@fill_new_conserves T It A Empty_set St S next (infallible_init f) Hn (infallible_safe f Hf) it st) as G.
    pose proof (@fill_logged T It A Empty_set St S next (infallible_init f) (S + 2) (builder_new S) it st []) as L.
    destruct (fill S next (logged (infallible_init f)) (S + 2) (builder_new S) it (st, [])) as [[st' log] o].
    cbn [fst snd] in *. rewrite L. split; [reflexivity|]. destruct G as [G1 G2].
    destruct o as [r d]. cbn [returned dropped] in *. destruct r as [[a|[]]| | | |]; cbn in *; auto.
  Qed.

  Lemma new_conserves {V St} (init : St -> K -> St * res V) st n :
    ORDINAL_SIZE O = Val n -> (forall st k, safe (snd (init st k))) ->
    let '((st', log), o) := OrdinalTotalArrayMap_new O S (logged_ok init) (st, []) in
    OrdinalTotalArrayMap_new O S init st = (st', o) /\
    (if n =? N.of_nat S then safe (returned o) else returned o = NoCompile) /\
    Permutation log (kept_ok (returned o) ++ dropped o).
  Proof.
    intros Hs Hi. pose proof (try_new_conserves (infallible_init init) st Hs (infallible_safe init Hi)) as G.
    unfold OrdinalTotalArrayMap_new, OrdinalTotalArrayMap_try_new in *. unfold ASSERT, values_new in *. rewrite Hs in *. cbn [bind] in *.
    destruct (n =? N.of_nat S); cbn [assert_const] in *.
    - rewrite (fill_ext (values_next O) _ _ (logged_infallible init)).
      destruct (fill S (values_next O) (logged (infallible_init init)) (S + 2) (builder_new S)
        {| r_start := 0; r_end := n |} (st, [])) as [[st' log] o].
      destruct G as (G0 & G1 & G2). rewrite G0. split; [reflexivity|].
      destruct o as [r d]. cbn [returned dropped] in *. destruct r as [[a|[]]| | | |]; cbn in *; auto.
    - split; [reflexivity|]. split; [reflexivity|]. constructor.
  Qed.

  Lemma map_conserves {V W St} (f : St -> K -> V -> St * res W) (m : OrdinalTotalArrayMap S V) st :
    (forall st k v, safe (snd (f st k v))) ->
    let '((st', log), o) := OrdinalTotalArrayMap_map O (logged_kv f) m (st, []) in
    OrdinalTotalArrayMap_map O f m st = (st', o) /\ safe (returned o) /\
    Permutation log (kept_ok (returned o) ++ dropped o).
  Proof.
    intros Hf. unfold OrdinalTotalArrayMap_map.
    pose proof (@from_iter_conserves W _ (K * V) St (TIntoIterArray_step O Front) (fun st '(k, v) => f st k v)
      (OrdinalTotalArrayMap_into_iter m) st) as G.
    assert (Hn : forall it, safe (TIntoIterArray_step O Front it)) by (intros it; apply (@enumerate_next_safe V)).
    assert (Hf' : forall (st : St) (a : K * V), safe (snd ((fun st '(k, v) => f st k v) st a))) by (intros s [k v]; apply Hf).
    specialize (G Hn Hf').
    unfold array_from_iter in *.
    rewrite (@fill_ext W _ (K * V) Empty_set (St * list W) (TIntoIterArray_step O Front) (infallible_init (fun st '(k, v) => logged_kv f st k v))
       (infallible_init (logged_ok (fun st '(k, v) => f st k v)))).
    - exact G.
    - intros s [k v]. reflexivity.
  Qed.

  Lemma zip_conserves {V W} (m : OrdinalTotalArrayMap S V) (m' : OrdinalTotalArrayMap S W) :
    let o := OrdinalTotalArrayMap_zip m m' in
    safe (returned o) /\ exists log, log = combine (arr_list m) (arr_list m') /\
    Permutation log (kept_ok (returned o) ++ dropped o).
  Proof.
    cbv zeta. unfold OrdinalTotalArrayMap_zip.
    match goal with |- context [array_from_iter S ?nx ?c ?i0 tt] =>
      pose proof (@from_iter_conserves (V * W) _ _ unit nx c i0 tt) as G end.
    match type of G with ?A -> ?B -> _ => assert (H1 : A); [|assert (H2 : B); [|specialize (G H1 H2)]] end.
    - intros [[|v vs] [|w ws]]; exact I.
    - intros; exact I.
    - unfold array_from_iter in *.
      match type of G with context [fill S ?nx ?c (S + 2) (builder_new S) ?i0 (tt, [])] =>
        assert (L : forall fuel (l : list V) (l' : list W) done, length l = length l' -> (length done + length l = S)%nat -> (length l < fuel)%nat ->
          snd (fst (fill S nx c fuel (builder_of S done) (l, l') (tt, done))) = done ++ combine l l') end.
      { induction fuel as [|fuel IH]; intros l l' done El Ed Hf; [lia|]. cbn [fill].
        destruct l as [|v l], l' as [|w l']; try discriminate El.
        - cbn. now rewrite app_nil_r.
        - cbn [infallible_init logged_ok fst snd bind]. rewrite push_ok by (cbn in Ed; lia).
          rewrite IH; [cbn [combine]; now rewrite <- app_assoc|cbn in El; lia|rewrite app_length; cbn in *; lia|cbn in Hf; lia]. }
      specialize (L (S + 2)%nat (arr_list m) (arr_list m') []). rewrite !arr_length in L.
      specialize (L eq_refl ltac:(cbn; lia) ltac:(lia)). rewrite <- builder_new_of in L.
      match type of L with context [fill ?a ?b ?c ?d ?e ?f ?g] => destruct (fill a b c d e f g) as [[u log] o] end.
      cbn [fst snd app] in *. destruct G as (G0 & G1 & G2).
      rewrite G0. cbn [snd]. split; [exact G1|]. exists log. split; [exact L|exact G2].
  Qed.
End Public.
