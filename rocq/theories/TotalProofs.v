(** * TotalProofs: construction of the total maps; the total maps refine total functions. *)
From Verif Require Import Base Spec SpecMap SpecTotal ModelOrdinal ModelValues ModelArrayBuilder ModelIter
  ModelTotal TotalMachine BaseProofs IterLib ValuesProofs IterProofs MapLib MapIterProofs MapMutProofs
  MapProofs ArrayProofs.
From Coq Require Import List. Import ListNotations.
Unset Strict Implicit.

(** ** Sequential calls *)
Section Fill.
  Context {It A T E St : Type} (S : nat) (next : It -> res (option A * It)).

  (** The iterator in state [it] yields [l] and then ends. *)
  Inductive yields : It -> list A -> Prop :=
  | yields_nil it it' : next it = Val (None, it') -> yields it []
  | yields_cons it it' a l : next it = Val (Some a, it') -> yields it' l -> yields it (a :: l).

  Definition list_of (r : res (result (arr T S) E)) : res (result (list T) E) :=
    x <- r ;; Val (match x with ResOk a => ResOk (arr_list a) | ResErr e => ResErr e end).
  Definition prefixed (acc : list T) (r : res (result (list T) E)) : res (result (list T) E) :=
    x <- r ;; Val (match x with ResOk bs => ResOk (acc ++ bs) | ResErr e => ResErr e end).

  Lemma prefixed_nil r : prefixed [] r = r.
  Proof. destruct r as [[a|e]| | | |]; reflexivity. Qed.

  Lemma fill_calls (init : St -> A -> St * res (result T E)) l : forall fuel acc it st,
    yields it l -> (length acc + length l = S)%nat -> (length l < fuel)%nat ->
    fst (fill S next init fuel (builder_of S acc) it st) = fst (calls init l st) /\
    list_of (returned (snd (fill S next init fuel (builder_of S acc) it st))) =
    prefixed acc (snd (calls init l st)).
  Proof.
    induction l as [|a l IH]; intros fuel acc it st Hy; inversion Hy as [? it' E1|? it' ? ? E1 Hy']; subst;
      intros Hl Hf; (destruct fuel as [|fuel]; [cbn in Hf; lia|]); cbn [fill]; rewrite E1.
    - cbn [fst snd calls returned]. destruct (@finish_ok T S acc) as (b & E2 & E3); [cbn in Hl; lia|].
      rewrite E2. cbn [returned bind list_of prefixed]. rewrite E3, app_nil_r. split; reflexivity.
    - cbn [calls]. destruct (init st a) as [st' r]. destruct r as [[v|e]|w| | |].
      + cbn [length] in *. rewrite push_ok by (cbn [length]; lia).
        destruct (IH fuel (acc ++ [v]) it' st') as [G1 G2];
          [exact Hy'|rewrite app_length; cbn; lia|lia|].
        destruct (calls init l st') as [st2 r2]. cbn [fst snd] in *. split; [exact G1|].
        rewrite G2. destruct r2 as [[bs|e]| | | |]; cbn; try reflexivity. now rewrite <- app_assoc.
      + rewrite leave_ok. split; reflexivity.
      + rewrite leave_ok. split; reflexivity.
      + split; reflexivity.
      + split; reflexivity.
      + split; reflexivity.
  Qed.

  Lemma refines_yields (step : dir -> It -> res (option A * It)) (R : It -> list A -> Prop) :
    (forall it, next it = step Front it) -> refines step R -> forall l it, R it l -> yields it l.
  Proof.
    intros En HR l. induction l as [|a l IH]; intros it H; destruct (HR Front it _ H) as (it' & E1 & H').
    - eapply yields_nil. rewrite En. exact E1.
    - eapply yields_cons; [rewrite En; exact E1|]. apply IH, H'.
  Qed.
End Fill.

Lemma calls_infallible {St A B} (f : St -> A -> St * res B) l : forall st,
  calls (infallible_init f) l st =
  (fst (calls_ok f l st), x <- snd (calls_ok f l st) ;; Val (ResOk x)).
Proof.
  induction l as [|a l IH]; intros st; [reflexivity|]. cbn [calls calls_ok]. unfold infallible_init at 1.
  destruct (f st a) as [st' r]. destruct r as [b| | | |]; try reflexivity. cbn [bind].
  rewrite IH. destruct (calls_ok f l st') as [st2 r2]. cbn [fst snd].
  destruct r2; reflexivity.
Qed.

Lemma calls_length {St A B E} (f : St -> A -> St * res (result B E)) l : forall st st' bs,
  calls f l st = (st', Val (ResOk bs)) -> length bs = length l.
Proof.
  induction l as [|a l IH]; intros st st' bs H; cbn [calls] in H.
  - now injection H as _ <-.
  - destruct (f st a) as [st1 r]. destruct r as [[b|e]| | | |]; try discriminate H.
    destruct (calls f l st1) as [st2 r2] eqn:Ec. destruct r2 as [[bs'|e]| | | |]; try discriminate H.
    cbn in H. injection H as _ <-. cbn. f_equal. eapply IH, Ec.
Qed.

(** Pure callbacks. *)
Lemma calls_ok_pure {St A B} (f : A -> B) l (st : St) :
  calls_ok (fun st a => (st, Val (f a))) l st = (st, Val (map f l)).
Proof. induction l as [|a l IH]; [reflexivity|]. cbn [calls_ok map]. now rewrite IH. Qed.

(** A list aligned with the keys is a function. *)
Section AsFun.
  Context {K V : Type} (eqd : forall a b : K, {a = b} + {a <> b}).

  Fixpoint assoc (ks : list K) (vs : list V) (k : K) : option V :=
    match ks, vs with
    | x :: ks', v :: vs' => if eqd x k then Some v else assoc ks' vs' k
    | _, _ => None
    end.

  Lemma assoc_In ks : forall vs k, length vs = length ks -> In k ks -> assoc ks vs k <> None.
  Proof.
    induction ks as [|x ks IH]; intros [|v vs] k Hl Hk; try discriminate Hl; [destruct Hk|].
    cbn. destruct (eqd x k) as [E|E]; [discriminate|]. destruct Hk as [Hk|Hk]; [contradiction|].
    apply IH; [now injection Hl|exact Hk].
  Qed.

  Lemma assoc_map ks : forall vs, NoDup ks -> length vs = length ks -> map (assoc ks vs) ks = map Some vs.
  Proof.
    induction ks as [|x ks IH]; intros [|v vs] Hn Hl; try discriminate Hl; [reflexivity|].
    inversion Hn as [|? ? Hx Hn']; subst. cbn [map assoc]. destruct (eqd x x) as [_|E]; [|congruence].
    f_equal. rewrite <- IH; [|exact Hn'|now injection Hl]. apply map_ext_in. intros k Hk.
    destruct (eqd x k) as [->|_]; [contradiction|reflexivity].
  Qed.

  Definition get_some (o : option V) : o <> None -> V :=
    match o with Some v => fun _ => v | None => fun H => False_rect V (H eq_refl) end.

  Lemma get_some_ok o H : o = Some (@get_some o H).
  Proof. destruct o; [reflexivity|congruence]. Qed.

  Lemma map_Some_inj {A} : forall l l' : list A, map Some l = map Some l' -> l = l'.
  Proof.
    induction l as [|v vs IH]; intros [|x l] G; try discriminate G; [reflexivity|].
    injection G as -> G. f_equal. now apply IH.
  Qed.

  Lemma list_fun ks (vs : list V) : (forall k, In k ks) -> NoDup ks -> length vs = length ks ->
    exists f : K -> V, vs = map f ks.
  Proof.
    intros Hall Hn Hl.
    exists (fun k => get_some (assoc_In Hl (Hall k))).
    assert (G : map Some vs = map Some (map (fun k => get_some (assoc_In Hl (Hall k))) ks)).
    { rewrite map_map, <- (assoc_map Hn Hl). apply map_ext. intros k. apply get_some_ok. }
    exact (map_Some_inj G).
  Qed.
End AsFun.

(** [slice::Iter] and friends. *)
Lemma slice_step_deque {A} d (l : list A) : slice_step d l = Val (deque_step d l).
Proof.
  destruct d; cbn [slice_step deque_step].
  - destruct l; reflexivity.
  - destruct l as [|x l _] using rev_ind; [reflexivity|]. unfold slice_step.
    rewrite pop_back_rev, rev_unit, rev_involutive. reflexivity.
Qed.
Lemma slice_drive {A} sched : forall (l : list A), drive slice_step sched l = Val (deque_run sched l).
Proof.
  induction sched as [|d s IH]; intros l; [reflexivity|]. cbn [drive deque_run].
  rewrite slice_step_deque. destruct (deque_step d l) as [o l']. cbn [bind]. rewrite IH.
  destruct (deque_run s l'). reflexivity.
Qed.

Section TotalRefine.
  Context {cfg : Config} {K : Type} (O : Ordinal K) (n : N) (HO : ordinal_bijection O n).
  Context (ks : list K) (He : enumeration O ks).

  Lemma ks_NoDup : NoDup ks.
  Proof. destruct (enumeration_numbered HO He) as [H _]. exact (numbered_NoDup H). Qed.
  Lemma ks_len : llen ks = n.
  Proof. apply (enumeration_numbered HO He). Qed.

  Lemma values_start : exists it, values_new O = Val it /\ remaining O n it ks /\ range_len it = llen ks.
  Proof.
    destruct (values_init HO) as (l & s & H1 & H2 & H3 & H4 & H5).
    assert (l = ks) by (eapply enumeration_unique; eassumption). subst l.
    exists s. split; [exact H1|]. split; [exact H2|]. exact (remaining_len H2).
  Qed.

  Lemma values_yield it l : remaining O n it l -> yields (values_next O) it l.
  Proof. apply (@refines_yields _ _ _ (values_step O) (remaining O n)); [reflexivity|]. apply (@values_refines _ O n). Qed.

  (** *** OrdinalTotalMap::try_new, new *)
  Lemma try_new_loop_ok {V E St} (init : St -> K -> St * res (result V E)) l : forall fuel acc it st,
    yields (values_next O) it l -> (length l < fuel)%nat ->
    OrdinalTotalMap_try_new_loop O init fuel acc it st =
    (fst (calls init l st), prefixed acc (snd (calls init l st))).
  Proof.
    induction l as [|a l IH]; intros fuel acc it st Hy Hf; inversion Hy as [? it' E1|? it' ? ? E1 Hy']; subst;
      (destruct fuel as [|fuel]; [cbn in Hf; lia|]); cbn [OrdinalTotalMap_try_new_loop]; rewrite E1.
    - cbn. now rewrite app_nil_r.
    - cbn [calls]. destruct (init st a) as [st' r]. destruct r as [[v|e]|w| | |]; try reflexivity.
      rewrite (IH fuel (acc ++ [v]) it' st' Hy') by (cbn in Hf; lia).
      destruct (calls init l st') as [st2 r2]. cbn [fst snd].
      destruct r2 as [[bs|e]| | | |]; cbn; try reflexivity. now rewrite <- app_assoc.
  Qed.

  Lemma try_new_calls {V E St} (init : St -> K -> St * res (result V E)) st :
    OrdinalTotalMap_try_new O init st = calls init ks st.
  Proof.
    unfold OrdinalTotalMap_try_new. destruct values_start as (it & -> & Hr & Hl).
    rewrite (@try_new_loop_ok V E St init ks); [|now apply values_yield|].
    - rewrite prefixed_nil. symmetry. apply surjective_pairing.
    - rewrite Hl. unfold llen. lia.
  Qed.

  Lemma new_calls {V St} (init : St -> K -> St * res V) st :
    OrdinalTotalMap_new O init st = calls_ok init ks st.
  Proof.
    unfold OrdinalTotalMap_new. rewrite try_new_calls, calls_infallible.
    destruct (calls_ok init ks st) as [st' r]. cbn [fst snd]. destruct r; reflexivity.
  Qed.

  (** *** OrdinalTotalArrayMap::try_new, new *)
  Context (S : nat).

  Lemma assert_ok : N.of_nat S = n -> ASSERT O S = Val tt.
  Proof. intros E. unfold ASSERT. rewrite (bij_size HO). cbn [bind]. rewrite E, N.eqb_refl. reflexivity. Qed.
  Lemma assert_no : N.of_nat S <> n -> ASSERT O S = NoCompile.
  Proof.
    intros E. unfold ASSERT. rewrite (bij_size HO). cbn [bind].
    destruct (N.eqb_spec n (N.of_nat S)); [congruence|reflexivity].
  Qed.

  Lemma array_try_new_calls {V E St} (init : St -> K -> St * res (result V E)) st :
    N.of_nat S = n ->
    fst (OrdinalTotalArrayMap_try_new O S init st) = fst (calls init ks st) /\
    list_of (returned (snd (OrdinalTotalArrayMap_try_new O S init st))) = snd (calls init ks st).
  Proof.
    intros E1. unfold OrdinalTotalArrayMap_try_new. rewrite (assert_ok E1).
    destruct values_start as (it & -> & Hr & Hl). rewrite builder_new_of.
    rewrite <- (prefixed_nil (snd (calls init ks st))). pose proof ks_len as Hk. unfold llen in Hk.
    apply fill_calls; [now apply values_yield| |]; cbn [length]; lia.
  Qed.

  Lemma array_new_calls {V St} (init : St -> K -> St * res V) st : N.of_nat S = n ->
    fst (OrdinalTotalArrayMap_new O S init st) = fst (calls_ok init ks st) /\
    (a <- returned (snd (OrdinalTotalArrayMap_new O S init st)) ;; Val (arr_list a)) = snd (calls_ok init ks st).
  Proof.
    intros E1. unfold OrdinalTotalArrayMap_new. rewrite (assert_ok E1).
    destruct (array_try_new_calls (infallible_init init) st E1) as [G1 G2].
    destruct (OrdinalTotalArrayMap_try_new O S (infallible_init init) st) as [st' r]. cbn [fst snd] in *.
    rewrite calls_infallible in *. cbn [fst snd returned] in *. split; [exact G1|].
    destruct (snd (calls_ok init ks st)) as [vs| | | |]; cbn [bind] in G2;
      destruct (returned r) as [[a|[]]| | | |]; cbn in *; congruence.
  Qed.

  Lemma array_new_nocompile {V St} (init : St -> K -> St * res V) st : N.of_nat S <> n ->
    returned (snd (OrdinalTotalArrayMap_new O S init st)) = NoCompile.
  Proof. intros E. unfold OrdinalTotalArrayMap_new. now rewrite (assert_no E). Qed.
  Lemma array_try_new_nocompile {V E St} (init : St -> K -> St * res (result V E)) st : N.of_nat S <> n ->
    returned (snd (OrdinalTotalArrayMap_try_new O S init st)) = NoCompile.
  Proof. intros E1. unfold OrdinalTotalArrayMap_try_new. now rewrite (assert_no E1). Qed.

  Lemma array_new_pure {V} (f : K -> V) : N.of_nat S = n ->
    exists a, returned (snd (OrdinalTotalArrayMap_new O S (fun st k => (st, Val (f k))) tt)) = Val a /\
      arr_list a = map f ks.
  Proof.
    intros E. destruct (array_new_calls (fun st k => (st, Val (f k))) tt E) as [_ G].
    rewrite calls_ok_pure in G. cbn [snd] in G. apply bind_inv in G. destruct G as (a & G1 & G2).
    exists a. split; [exact G1|]. congruence.
  Qed.

  (** Lookup in storage holding [map f ks]. *)
  Lemma lookup_all {V} (m : list V) (vs : list V) :
    m = vs -> length vs = length ks ->
    Forall2 (fun k v => (i <- ordinal O k ;; index m i) = Val v) ks vs.
  Proof.
    intros -> Hl. destruct (enumeration_numbered HO He) as [Hn _].
    assert (G : forall pre l vpre v, ks = pre ++ l -> vs = vpre ++ v -> length pre = length vpre ->
      Forall2 (fun k v => (i <- ordinal O k ;; index vs i) = Val v) l v).
    { intros pre l. revert pre. induction l as [|k l IH]; intros pre vpre v E1 E2 E3.
      - destruct v; [constructor|]. subst. rewrite !app_length in Hl. cbn in Hl. lia.
      - destruct v as [|x v]; [subst; rewrite !app_length in Hl; cbn in Hl; lia|]. constructor.
        + assert (Ek : nth_error ks (length pre) = Some k) by (rewrite E1; apply nth_error_app_at).
          rewrite (numbered_nth Hn Ek). cbn [bind]. unfold index. rewrite E2, N.add_0_l, Nat2N.id, E3.
          now rewrite nth_error_app_at.
        + apply (IH (pre ++ [k]) (vpre ++ [x])); [now rewrite <- app_assoc|now rewrite <- app_assoc|].
          rewrite !app_length. cbn. lia. }
    exact (G [] ks [] vs eq_refl eq_refl eq_refl).
  Qed.

  Lemma try_new_constructed {V E St} (init : St -> K -> St * res (result V E)) st :
    fst (OrdinalTotalMap_try_new O init st) = fst (calls init ks st) /\
    constructed (OrdinalTotalMap_get O) ks (snd (calls init ks st)) (snd (OrdinalTotalMap_try_new O init st)).
  Proof.
    rewrite try_new_calls. split; [reflexivity|]. destruct (calls init ks st) as [st' r] eqn:Ec. cbn [snd].
    destruct r as [[vs|e]| | | |]; try reflexivity. exists vs. split; [reflexivity|].
    apply lookup_all; [reflexivity|]. exact (calls_length Ec).
  Qed.

  Lemma new_constructed {V St} (init : St -> K -> St * res V) st :
    fst (OrdinalTotalMap_new O init st) = fst (calls_ok init ks st) /\
    constructed_ok (OrdinalTotalMap_get O) ks (snd (calls_ok init ks st)) (snd (OrdinalTotalMap_new O init st)).
  Proof.
    rewrite new_calls. split; [reflexivity|]. pose proof (calls_infallible init ks st) as Ei.
    destruct (calls_ok init ks st) as [st' r] eqn:Ec. cbn [fst snd] in *.
    destruct r as [vs| | | |]; try reflexivity. exists vs. split; [reflexivity|].
    apply lookup_all; [reflexivity|]. exact (calls_length Ei).
  Qed.

  Lemma array_try_new_constructed {V E St} (init : St -> K -> St * res (result V E)) st : N.of_nat S = n ->
    fst (OrdinalTotalArrayMap_try_new O S init st) = fst (calls init ks st) /\
    constructed (OrdinalTotalArrayMap_get O (S := S)) ks (snd (calls init ks st))
      (returned (snd (OrdinalTotalArrayMap_try_new O S init st))).
  Proof.
    intros E1. destruct (array_try_new_calls init st E1) as [G1 G2]. split; [exact G1|].
    destruct (calls init ks st) as [st' r] eqn:Ec. cbn [snd] in *.
    destruct (returned (snd (OrdinalTotalArrayMap_try_new O S init st))) as [[a|e]| | | |];
      cbn in G2; subst r; try reflexivity.
    exists a. split; [reflexivity|]. apply lookup_all; [reflexivity|]. exact (calls_length Ec).
  Qed.

  Lemma array_new_constructed {V St} (init : St -> K -> St * res V) st : N.of_nat S = n ->
    fst (OrdinalTotalArrayMap_new O S init st) = fst (calls_ok init ks st) /\
    constructed_ok (OrdinalTotalArrayMap_get O (S := S)) ks (snd (calls_ok init ks st))
      (returned (snd (OrdinalTotalArrayMap_new O S init st))).
  Proof.
    intros E1. destruct (array_new_calls init st E1) as [G1 G2]. split; [exact G1|].
    pose proof (calls_infallible init ks st) as Ei.
    destruct (calls_ok init ks st) as [st' r] eqn:Ec. cbn [fst snd] in *.
    destruct (returned (snd (OrdinalTotalArrayMap_new O S init st))) as [a| | | |];
      cbn in G2; subst r; try reflexivity.
    exists a. split; [reflexivity|]. apply lookup_all; [reflexivity|]. exact (calls_length Ei).
  Qed.

  (** ** Operation sequences *)
  Section Ops.
    Context {V : Type} (eqd : forall a b : K, {a = b} + {a <> b}).
    Implicit Types m : tmap K V.

    Let Hks : key_slots O n ks := ks_slots HO He.

    Lemma tkey k : exists i, ordinal O k = Val i /\ i < llen ks.
    Proof. exact (key_lt HO He k). Qed.

    Lemma kslots_tpoints a (l : list K) : numbered O (N.of_nat a) l ->
      Forall (fun ki => ordinal O (fst ki) = Val (snd ki)) (kslots a l).
    Proof. intros H. apply Forall_forall. intros [k i] Hin. exact (kslots_ordinal H Hin). Qed.

    Lemma titer_mut_drive sched :
      exists s', drive (TIterMut_step O) sched (TIterMut_new (slots (length ks))) =
        Val (fst (deque_run sched (kslots 0 ks)), s').
    Proof.
      destruct (@drive_refines _ _ _ _ (enumerate_refines HO) sched _ _ (pending_slots Hks)) as (s' & E & _).
      exists s'. exact E.
    Qed.

    Definition tpoints m (ki : K * N) (kv : K * V) : Prop :=
      fst ki = fst kv /\ ordinal O (fst ki) = Val (snd ki) /\ m (fst ki) = snd kv.

    Lemma kslots_entries m : Forall2 (tpoints m) (kslots 0 ks) (tm_entries ks m).
    Proof.
      destruct Hks as [Hn _]. assert (G : forall a l, numbered O (N.of_nat a) l ->
        Forall2 (tpoints m) (kslots a l) (tm_entries l m)).
      { intros a l. revert a. induction l as [|k l IH]; intros a H; [constructor|]. rewrite kslots_cons.
        inversion H as [|? ? ? H1 H2 H3]; subst. constructor.
        - split; [reflexivity|]. split; [exact H2|reflexivity].
        - apply IH. now replace (N.of_nat (Datatypes.S a)) with (N.of_nat a + 1) by lia. }
      exact (G 0%nat ks Hn).
    Qed.

    Lemma tgot_NoDup m sched : NoDup (map fst (somes (fst (deque_run sched (tm_entries ks m))))).
    Proof.
      rewrite <- somes_map.
      assert (E : map (opt_map fst) (fst (deque_run sched (tm_entries ks m))) = fst (deque_run sched ks)).
      { assert (E' : map fst (tm_entries ks m) = ks) by (unfold tm_entries; rewrite map_map; apply map_id).
        rewrite <- E' at 2. now rewrite deque_run_map. }
      rewrite E. destruct (deque_run_parts sched ks) as (a & b & _ & _ & G). apply G, ks_NoDup.
    Qed.

    Lemma twrite_entries_ok f got : forall got' m,
      Forall2 (opt_rel (tpoints m)) got got' -> NoDup (map fst (somes got')) ->
      twrite_entries f got (map m ks) = Val (got', map (tm_update eqd m (map fst (somes got')) f) ks).
    Proof.
      induction got as [|g got IH]; intros got' m HF Hnd; inversion HF as [|? g' ? r' Hg HF' E1 E2]; subst.
      - cbn [twrite_entries somes flat_map map]. do 2 f_equal.
      - destruct g as [[k i]|], g' as [[k' v]|]; cbn [opt_rel] in Hg; try contradiction.
        + destruct Hg as (Gk & Go & Gm). cbn [fst snd] in *. subst k'.
          cbn [twrite_entries]. destruct Hks as [Hn _].
          assert (Hi : i < llen ks) by exact (enumeration_lt HO He Go).
          rewrite (slot_deref HO m Hn Go Hi), Gm. cbn [bind].
          rewrite (slot_store HO eqd m (f k v) Hn Go Hi).
          cbn [somes flat_map app map fst] in Hnd. fold (somes r') in Hnd.
          inversion Hnd as [|? ? Hk Hnd']; subst.
          rewrite (IH r' (tm_set eqd m k (f k (m k)))).
          * cbn [bind]. do 2 f_equal. apply map_ext. intros x. cbn [somes flat_map app map fst].
            fold (somes r'). unfold tm_update.
            destruct (in_dec eqd x (map fst (somes r'))) as [Hx|Hx].
            -- destruct (in_dec eqd x (k :: map fst (somes r'))) as [_|Hx']; [|exfalso; apply Hx'; now right].
               unfold tm_set. destruct (eqd k x); [congruence|reflexivity].
            -- unfold tm_set. destruct (in_dec eqd x (k :: map fst (somes r'))) as [[<-|Hx']|Hx'].
               ++ destruct (eqd k k); [reflexivity|congruence].
               ++ contradiction.
               ++ destruct (eqd k x) as [->|_]; [exfalso; apply Hx'; now left|reflexivity].
          * revert HF'. apply Forall2_impl_in. intros a b Ha Hb Hab.
            destruct a as [[ka ia]|], b as [[kb vb]|]; cbn [opt_rel] in *; auto.
            destruct Hab as (A1 & A2 & A3). cbn [fst snd] in *. subst kb. split; [reflexivity|]. split; [exact A2|].
            cbn [fst snd]. unfold tm_set. destruct (eqd k ka) as [->|_]; [|exact A3].
            exfalso. apply Hk. apply in_map_iff. exists (ka, vb). split; [reflexivity|].
            unfold somes. apply in_flat_map. exists (Some (ka, vb)). split; [exact Hb|left; reflexivity].
          * exact Hnd'.
        + cbn [twrite_entries]. cbn [somes flat_map app] in *. fold (somes r') in *.
          rewrite (IH r' m HF' Hnd). reflexivity.
    Qed.

    Lemma twrite_values_entries (f : V -> V) (got : list (option (K * N))) : forall st l st',
      twrite_entries (fun _ : K => f) got st = Val (l, st') ->
      twrite_values f (map (opt_map snd) got) st = Val (map (opt_map snd) l, st').
    Proof.
      induction got as [|g got IH]; intros st l st' E.
      - cbn [twrite_entries] in E. injection E as <- <-. reflexivity.
      - destruct g as [[k i]|]; cbn [twrite_entries twrite_values map opt_map snd] in *.
        + apply bind_inv in E. destruct E as (o & Eo & E). rewrite Eo. cbn [bind].
          apply bind_inv in E. destruct E as ([l2 st2] & E2 & E).
          injection E as <- <-. rewrite (IH _ _ _ E2). reflexivity.
        + apply bind_inv in E. destruct E as ([l2 st2] & E2 & E). injection E as <- <-.
          rewrite (IH _ _ _ E2). reflexivity.
    Qed.

    Lemma titer_mut_write m sched f : exists s' got,
      drive (TIterMut_step O) sched (TIterMut_new (slots (length (map m ks)))) = Val (got, s') /\
      twrite_entries f got (map m ks) =
        Val (fst (deque_run sched (tm_entries ks m)),
             map (tm_update eqd m (map fst (somes (fst (deque_run sched (tm_entries ks m))))) f) ks).
    Proof.
      rewrite map_length. destruct (titer_mut_drive sched) as (s' & E). eexists s', _. split; [exact E|].
      apply twrite_entries_ok; [|apply tgot_NoDup]. apply deque_run_rel. apply kslots_entries.
    Qed.

    Lemma tvalues_mut_write m sched f :
      exists got, drive slice_step sched (slots (length (map m ks))) = Val (got, snd (deque_run sched (slots (length ks)))) /\
      twrite_values f got (map m ks) =
        Val (map (opt_map snd) (fst (deque_run sched (tm_entries ks m))),
             map (tm_update eqd m (map fst (somes (fst (deque_run sched (tm_entries ks m))))) (fun _ => f)) ks).
    Proof.
      rewrite map_length, slice_drive.
      exists (fst (deque_run sched (slots (length ks)))). split; [f_equal; apply surjective_pairing|].
      assert (E : slots (length ks) = map snd (kslots 0 ks)) by now rewrite kslots_snd.
      rewrite E, deque_run_map. cbn [fst]. apply twrite_values_entries.
      apply (twrite_entries_ok (fun _ => f)); [|apply tgot_NoDup]. apply deque_run_rel. apply kslots_entries.
    Qed.

    Lemma titer_drive m sched : exists s', drive (TIter_step O) sched (TIter_new (map m ks) 0) =
        Val (fst (deque_run sched (tm_entries ks m)), s') /\
        pending O n s' (snd (deque_run sched (tm_entries ks m))).
    Proof. exact (@drive_refines _ _ _ _ (enumerate_refines HO) sched _ _ (pending_values m Hks)). Qed.

    Lemma tcollect (it : enumerate V) l : pending O n it l ->
      exists s', collect (TIter_step O Front) (Datatypes.S (length (e_items it))) it = Val (l, s').
    Proof.
      intros H. destruct (@collect_refines _ _ _ _ (enumerate_refines HO)
        (Datatypes.S (length (e_items it))) it l H) as (s' & E & _); [rewrite (pending_len H); lia|].
      exists s'. exact E.
    Qed.

    Lemma tkeys_drive sched : exists it s', values_new O = Val it /\
      drive (values_step O) sched it = Val (fst (deque_run sched ks), s').
    Proof.
      destruct values_start as (it & E & Hr & _).
      destruct (@drive_refines _ _ _ _ (@values_refines _ O n) sched _ _ Hr) as (s' & E' & _). eauto.
    Qed.

    Lemma empty_ks : (n =? 0) = match ks with [] => true | _ => false end.
    Proof. rewrite <- ks_len. destruct ks; reflexivity. Qed.

    Lemma htotal_step_ok op m :
      htotal_step O op (map m ks) =
      Val (fst (total_step eqd ks op m), map (snd (total_step eqd ks op m)) ks).
    Proof.
      destruct Hks as [Hn _].
      destruct op; cbn [htotal_step total_step fst snd].
      - destruct (tkey k) as (i & Hi & Hlt). unfold OrdinalTotalMap_get. rewrite Hi. cbn [bind].
        rewrite (slot_index HO m Hn Hi Hlt). reflexivity.
      - destruct (tkey k) as (i & Hi & Hlt). unfold OrdinalTotalMap_index, OrdinalTotalMap_get. rewrite Hi. cbn [bind].
        rewrite (slot_index HO m Hn Hi Hlt). reflexivity.
      - destruct (tkey k) as (i & Hi & Hlt). unfold OrdinalTotalMap_get_mut, index_slot. rewrite Hi. cbn [bind].
        rewrite (slot_index HO m Hn Hi Hlt). cbn [bind]. rewrite (slot_deref HO m Hn Hi Hlt). cbn [bind].
        now rewrite (slot_store HO eqd m v Hn Hi Hlt).
      - destruct (tkey k) as (i & Hi & Hlt).
        unfold OrdinalTotalMap_index_mut, OrdinalTotalMap_get_mut, index_slot. rewrite Hi. cbn [bind].
        rewrite (slot_index HO m Hn Hi Hlt). cbn [bind]. rewrite (slot_deref HO m Hn Hi Hlt). cbn [bind].
        now rewrite (slot_store HO eqd m v Hn Hi Hlt).
      - destruct (tkey k) as (i & Hi & Hlt). unfold OrdinalTotalMap_insert. rewrite Hi. cbn [bind].
        rewrite (slot_index HO m Hn Hi Hlt). cbn [bind]. now rewrite (slot_store HO eqd m v Hn Hi Hlt).
      - unfold OrdinalTotalMap_len. rewrite (bij_size HO), ks_len. reflexivity.
      - unfold OrdinalTotalMap_is_empty, OrdinalTotalMap_len. rewrite (bij_size HO). cbn [bind].
        now rewrite empty_ks.
      - unfold OrdinalTotalMap_iter. destruct (titer_drive m sched) as (s' & E & _). rewrite E. reflexivity.
      - unfold OrdinalTotalMap_iter_mut. destruct (titer_mut_write m sched f) as (s' & got & E & W).
        rewrite E. cbn [bind]. rewrite W. reflexivity.
      - unfold OrdinalTotalMap_values_mut. destruct (tvalues_mut_write m sched f) as (got & E & W).
        rewrite E. cbn [bind]. rewrite W. reflexivity.
      - unfold OrdinalTotalMap_keys. destruct (tkeys_drive sched) as (it & s' & E1 & E2). rewrite E1. cbn [bind].
        rewrite E2. reflexivity.
      - unfold OrdinalTotalMap_values. rewrite slice_drive. destruct (deque_run sched (map m ks)). reflexivity.
      - unfold OrdinalTotalMap_clone. rewrite map_map. reflexivity.
      - unfold OrdinalTotalMap_debug, OrdinalTotalMap_iter.
        destruct (tcollect (pending_values m Hks)) as (s' & E). unfold TIter_new, enumerate_new.
        cbn [e_items] in E. rewrite E. reflexivity.
    Qed.

    Lemma htotal_run_ok ops : forall m,
      htotal_run O ops (map m ks) =
      Val (fst (total_run eqd ks ops m), map (snd (total_run eqd ks ops m)) ks).
    Proof.
      induction ops as [|op ops IH]; intros m; [reflexivity|]. cbn [htotal_run total_run].
      rewrite htotal_step_ok. destruct (total_step eqd ks op m) as [o m']. cbn [fst snd bind]. rewrite IH.
      destruct (total_run eqd ks ops m'). reflexivity.
    Qed.

    Lemma tback_ok (a : OrdinalTotalArrayMap S V) (o : total_out K V) m m' : arr_list a = map m ks ->
      exists a', tback S (o, map m' ks) = Val (o, a') /\ arr_list a' = map m' ks.
    Proof.
      intros E. unfold tback. cbn [fst snd].
      destruct (@try_arr_ok V S (map m' ks)) as (a' & E1 & E2).
      { rewrite map_length, <- (map_length m ks), <- E. apply arr_length. }
      exists a'. rewrite E1. auto.
    Qed.

    Lemma atotal_step_ok op m (a : OrdinalTotalArrayMap S V) : arr_list a = map m ks ->
      exists a', atotal_step O op a = Val (fst (total_step eqd ks op m), a') /\
        arr_list a' = map (snd (total_step eqd ks op m)) ks.
    Proof.
      intros Ea. destruct Hks as [Hn _].
      assert (Hlen : N.of_nat S = llen ks) by (unfold llen; rewrite <- (map_length m ks), <- Ea, arr_length; reflexivity).
      destruct op; cbn [atotal_step total_step fst snd].
      - destruct (tkey k) as (i & Hi & Hlt). unfold OrdinalTotalArrayMap_get. rewrite Hi. cbn [bind].
        rewrite Ea, (slot_index HO m Hn Hi Hlt). cbn [bind]. eauto.
      - destruct (tkey k) as (i & Hi & Hlt). unfold OrdinalTotalArrayMap_index. rewrite Hi. cbn [bind].
        rewrite Ea, (slot_index HO m Hn Hi Hlt). cbn [bind]. eauto.
      - destruct (tkey k) as (i & Hi & Hlt). unfold OrdinalTotalArrayMap_get_mut, index_slot. rewrite Hi. cbn [bind].
        rewrite Ea, (slot_index HO m Hn Hi Hlt). cbn [bind]. rewrite (slot_deref HO m Hn Hi Hlt). cbn [bind].
        eexists. split; [reflexivity|]. cbn [arr_list arr_store]. rewrite Ea.
        now rewrite (slot_store HO eqd m v Hn Hi Hlt).
      - destruct (tkey k) as (i & Hi & Hlt). unfold OrdinalTotalArrayMap_index_mut, index_slot. rewrite Hi. cbn [bind].
        rewrite Ea, (slot_index HO m Hn Hi Hlt). cbn [bind]. rewrite (slot_deref HO m Hn Hi Hlt). cbn [bind].
        eexists. split; [reflexivity|]. cbn [arr_list arr_store]. rewrite Ea.
        now rewrite (slot_store HO eqd m v Hn Hi Hlt).
      - destruct (tkey k) as (i & Hi & Hlt). unfold OrdinalTotalArrayMap_insert. rewrite Hi. cbn [bind].
        rewrite Ea, (slot_index HO m Hn Hi Hlt). cbn [bind].
        eexists. split; [reflexivity|]. cbn [arr_list arr_store]. rewrite Ea.
        now rewrite (slot_store HO eqd m v Hn Hi Hlt).
      - unfold OrdinalTotalArrayMap_len. rewrite Hlen. eauto.
      - unfold OrdinalTotalArrayMap_is_empty, OrdinalTotalArrayMap_len. rewrite Hlen, ks_len, empty_ks. eauto.
      - unfold OrdinalTotalArrayMap_iter. rewrite Ea.
        destruct (titer_drive m sched) as (s' & E & _). rewrite E. cbn [bind]. eauto.
      - unfold OrdinalTotalArrayMap_iter_mut. rewrite Ea. destruct (titer_mut_write m sched f) as (s' & got & E & W).
        rewrite E. cbn [bind]. rewrite W. cbn [bind]. exact (tback_ok _ _ Ea).
      - unfold OrdinalTotalArrayMap_values_mut. rewrite Ea. destruct (tvalues_mut_write m sched f) as (got & E & W).
        rewrite E. cbn [bind]. rewrite W. cbn [bind]. exact (tback_ok _ _ Ea).
      - unfold OrdinalTotalArrayMap_keys. destruct (tkeys_drive sched) as (it & s' & E1 & E2). rewrite E1. cbn [bind].
        rewrite E2. cbn [bind]. eauto.
      - unfold OrdinalTotalArrayMap_values. rewrite slice_drive, Ea. destruct (deque_run sched (map m ks)).
        cbn [bind]. eauto.
      - eexists. split; [reflexivity|]. cbn [OrdinalTotalArrayMap_clone arr_clone arr_list].
        rewrite Ea, map_map. reflexivity.
      - unfold OrdinalTotalArrayMap_debug, OrdinalTotalArrayMap_iter. rewrite Ea.
        destruct (tcollect (pending_values m Hks)) as (s' & E). unfold TIter_new, enumerate_new.
        cbn [e_items] in E. rewrite E. cbn [bind]. eauto.
    Qed.

    Lemma atotal_run_ok ops : forall m (a : OrdinalTotalArrayMap S V), arr_list a = map m ks ->
      exists a', atotal_run O ops a = Val (fst (total_run eqd ks ops m), a') /\
        arr_list a' = map (snd (total_run eqd ks ops m)) ks.
    Proof.
      induction ops as [|op ops IH]; intros m a Ea; [cbn; eauto|]. cbn [atotal_run total_run].
      destruct (atotal_step_ok op Ea) as (a1 & E1 & H1). rewrite E1. cbn [bind].
      destruct (total_step eqd ks op m) as [o m']. cbn [fst snd] in *.
      destruct (IH m' a1 H1) as (a2 & E2 & H2). rewrite E2. cbn [bind].
      destruct (total_run eqd ks ops m'). cbn [fst snd] in *. eauto.
    Qed.
  End Ops.
End TotalRefine.
