(** * CatchProofs: lemmas for C96, maps. *)
From Verif Require Import Base Spec SpecMap SpecTotal SpecSet SpecCatch ModelOrdinal ModelValues ModelArrayBuilder
  ModelIter ModelTotal ModelMap ModelSet ModelResume ModelUnwind MapMachine TotalMachine SetMachine ModelCatch
  OrdinalProofs ArrayProofs MapProofs MapProofs2 MapProofs5 TotalProofs TotalProofs3 ResumeProofs UnwindProofs2 SpecResume.
From Coq Require Import List. Import ListNotations.
Set Implicit Arguments. Unset Strict Implicit.

(** ** Agreement with the model without catching *)
(** [x] returns exactly when [f] does, with the same result. *)
Definition erases {M A} (x : act M A) (f : M -> res (A * M)) : Prop :=
  forall m a m', f m = Val (a, m') <-> x m = (m', Ended a).
(** [x] panics exactly when [f] does. *)
Definition same_panics {M A} (x : act M A) (f : M -> res (A * M)) : Prop :=
  forall m w, f m = Panic w <-> exists m', x m = (m', Unwinds w).

Lemma replaces_erases M A (f : M -> res (A * M)) : erases (replaces f) f.
Proof.
  intros m a m'. unfold replaces, abind, look. destruct (f m) as [[a1 m1]|w| | |]; cbn; split; intros [=]; subst; reflexivity.
Qed.
Lemma replaces_panics M A (f : M -> res (A * M)) : same_panics (replaces f) f.
Proof.
  intros m w. unfold replaces, abind, look. destruct (f m) as [[a1 m1]|w1| | |]; cbn;
    (split; [intros [=]; subst; eauto|intros (m' & [=]); subst; reflexivity]).
Qed.
Lemma replaces_left M A (f : M -> res (A * M)) m m' w : replaces f m = (m', Unwinds w) -> m' = m.
Proof. unfold replaces, abind, look. destruct (f m) as [[a m1]|w1| | |]; cbn; intros [=]; congruence. Qed.

(** ** Programs *)
Lemma catch_law Op Out M (X : Type) (stepa : Op -> act M Out) (step : Op -> X -> Out * X)
    (returns : Op -> Prop) (panics : Op -> panic -> Prop) (inv : M -> X -> Prop) (ok : Op -> bool) :
  (forall op s m, ok op = true -> inv s m ->
     (exists s', stepa op s = (s', Ended (fst (step op m))) /\ returns op /\ inv s' (snd (step op m))) \/
     (exists s' w, stepa op s = (s', Unwinds w) /\ panics op w /\ inv s' m)) ->
  forall ops s m, forallb ok ops = true -> inv s m ->
    exists outs s' m', catch_run stepa ops s = Some (outs, s') /\
      caught_program step returns panics ops outs m m' /\ inv s' m'.
Proof.
  intros H ops. induction ops as [|op ops IH]; intros s m Hok Hi.
  - exists [], s, m. split; [reflexivity|]. split; [constructor|exact Hi].
  - cbn in Hok. apply andb_prop in Hok as [H1 H2]. destruct (H op s m H1 Hi) as [(s1 & E & Hr & Hi1)|(s1 & w & E & Hp & Hi1)].
    + destruct (IH s1 _ H2 Hi1) as (outs & s2 & m2 & E2 & Hc & Hi2).
      exists (Seen (fst (step op m)) :: outs), s2, m2. cbn. rewrite E, E2. split; [reflexivity|]. split; [|exact Hi2].
      econstructor; [exact Hr| |exact Hc]. apply surjective_pairing.
    + destruct (IH s1 _ H2 Hi1) as (outs & s2 & m2 & E2 & Hc & Hi2).
      exists (Caught w :: outs), s2, m2. cbn. rewrite E, E2. split; [reflexivity|]. split; [|exact Hi2].
      econstructor; [exact Hp|exact Hc].
Qed.

Section Agree.
  Context {cfg : Config} {K V : Type} (O : Ordinal K).

  Lemma drain_calls_agree sched : forall s : @Drain V,
    drive (Drain_step O) sched s =
    (let '(got, (_, s'), r) := drain_calls (pure_from O) sched (tt, s) in r ;;; Val (got, s')).
  Proof.
    induction sched as [|d ds IH]; intros s; [reflexivity|]. cbn [drive drain_calls]. rewrite drain_agree.
    unfold forget. destruct (drain_resume_step (pure_from O) d (tt, s)) as [[[] s1] r]; cbn [fst snd].
    destruct r as [o| | | |]; cbn; try reflexivity. rewrite IH.
    destruct (drain_calls (pure_from O) ds (tt, s1)) as [[got [u s2]] r2]. destruct r2; reflexivity.
  Qed.

  Definition drain_plain (sched : list dir) (leak : bool) (m : list (option V)) : res (map_out K V * list (option V)) :=
    '(got, d) <- drive (Drain_step O) sched (Drain_new m (TIterMut_new (slots (length m)))) ;;
    if leak then Val (OutEntries got, fst d) else '(m, _) <- Drain_drop O d ;; Val (OutEntries got, m).

  Lemma drain_erases sched leak : erases (drain_act O sched leak) (drain_plain sched leak).
  Proof.
    intros m a m'. unfold drain_plain, drain_act. rewrite drain_calls_agree. unfold drain_use.
    destruct (drain_calls (pure_from O) sched (tt, Drain_new m (TIterMut_new (slots (length m))))) as [[got [[] d]] r].
    destruct (drain_drop_resume (pure_from O) (tt, d)) as [[l [[] [st it]]] r'] eqn:E.
    destruct r as [[]|w| | |]; cbn [bind].
    - destruct leak; cbn [fst snd].
      + split; intros [=]; subst; reflexivity.
      + rewrite drain_drop_agree, E. destruct r' as [[]|w| | |]; cbn; split; intros [=]; subst; reflexivity.
    - destruct r'; cbn; split; intros [=].
    - destruct r'; cbn; split; intros [=].
    - destruct r'; cbn; split; intros [=].
    - destruct r'; cbn; split; intros [=].
  Qed.

  Definition clear_plain (m : list (option V)) : res (map_out K V * list (option V)) :=
    '(m, _) <- Drain_drop O (Drain_new m (TIterMut_new (slots (length m)))) ;; Val (OutUnit, m).
  Lemma clear_erases : erases (clear_act O) clear_plain.
  Proof.
    intros m a m'. unfold clear_plain, clear_act, clear_map, drain_map, drain_use. cbn [drain_calls].
    rewrite drain_drop_agree.
    destruct (drain_drop_resume (pure_from O) (tt, Drain_new m (TIterMut_new (slots (length m))))) as [[l [[] [st it]]] r'].
    destruct r' as [[]|w| | |]; cbn; split; intros [=]; subst; reflexivity.
  Qed.

  (** *** Heap maps *)
  Lemma init_act (m : @OrdinalMap V) : OrdinalMap_init_full_map_act O m =
    match OrdinalMap_init_full_map O m with
    | Val m' => (m', Ended tt)
    | Panic w => (m, Unwinds w)
    | NoCompile | UB | OutOfFuel => (m, Stuck)
    end.
  Proof.
    unfold OrdinalMap_init_full_map_act, OrdinalMap_init_full_map, abind, look, put, ret.
    destruct (ORDINAL_SIZE O); cbn; try reflexivity. destruct (llen m =? 0); reflexivity.
  Qed.

  (** What a caught panic leaves behind: the slots that were there, or new empty ones. *)
  Definition left_slots (m m' : list (option V)) : Prop :=
    m' = m \/ m = [] /\ exists n, ORDINAL_SIZE O = Val n /\ m' = repeat None (N.to_nat n).
  Lemma init_left (m m' : @OrdinalMap V) : OrdinalMap_init_full_map O m = Val m' -> left_slots m m'.
  Proof.
    unfold OrdinalMap_init_full_map. destruct (ORDINAL_SIZE O) as [n| | | |] eqn:E; try discriminate. cbn [bind].
    destruct (llen m =? 0) eqn:E0; intros [= <-]; [right|now left]. split; [|eauto].
    apply N.eqb_eq in E0. destruct m; [reflexivity|discriminate E0].
  Qed.

  Ltac split3 := unfold erases, same_panics; repeat apply conj;
    [intros m a m'|intros m w|intros m m' w].
  Ltac close := first
    [ split; intros [=]; subst; reflexivity
    | split; [intros [=]; subst; eauto|intros (? & [=]); subst; reflexivity]
    | intros [=]; subst; eauto using init_left; now left ].

  Definition good_act {M A} (left : M -> M -> Prop) (x : act M A) (f : M -> res (A * M)) : Prop :=
    erases x f /\ same_panics x f /\ (forall m m' w, x m = (m', Unwinds w) -> left m m').

  Lemma good_replaces M A (left : M -> M -> Prop) (f : M -> res (A * M)) : (forall m, left m m) -> good_act left (replaces f) f.
  Proof.
    intros H. split; [apply replaces_erases|]. split; [apply replaces_panics|].
    intros m m' w E. rewrite (replaces_left E). apply H.
  Qed.

  Lemma heap_insert_good k v : good_act left_slots (o <! OrdinalMap_insert_act O k v ;; ret (OutValue o)) (heap_step O (OpInsert k v)).
  Proof.
    unfold heap_step, OrdinalMap_insert, OrdinalMap_insert_act. split3;
      unfold abind at 1 2; rewrite init_act; unfold abind, look, put, ret;
      (destruct (OrdinalMap_init_full_map O m) as [m1| | | |] eqn:E1; cbn; [|close..]);
      (destruct (ordinal O k) as [i| | | |]; cbn; [|close..]);
      (destruct (index m1 i) as [o| | | |]; cbn; close).
  Qed.

  Lemma heap_remove_good k : good_act left_slots (o <! OrdinalMap_remove_act O k ;; ret (OutValue o)) (heap_step (V := V) O (OpRemove k)).
  Proof.
    unfold heap_step, OrdinalMap_remove, OrdinalMap_remove_act. split3; unfold abind, look, put, ret;
      (destruct (ordinal O k) as [i| | | |]; cbn; [|close..]);
      (destruct (slice_get m i) as [o|]; cbn; close).
  Qed.

  Lemma good_bind M A B (left : M -> M -> Prop) (x : act M A) f (y : A -> act M B) (g : A -> M -> res (B * M)) :
    good_act left x f -> (forall m m' a, x m = (m', Ended a) -> left m m') ->
    (forall a, good_act eq (y a) (g a)) -> good_act left (abind x y) (fun m => '(a, m1) <- f m ;; g a m1).
  Proof.
    intros (E & P & L) R G. unfold abind. split; [|split].
    - intros m b m'. specialize (E m). destruct (x m) as [m1 e] eqn:Ex. split.
      + destruct (f m) as [[a m2]|w| | |] eqn:Ef; try discriminate. cbn [bind]. intros H.
        destruct (E a m2) as [Ea _]. specialize (Ea eq_refl). injection Ea as -> ->. now apply (proj1 (G a)).
      + destruct e as [a|w| |]; try discriminate. intros H. destruct (E a m1) as [_ Ea]. rewrite (Ea eq_refl). cbn [bind].
        now apply (proj1 (G a)).
    - intros m w. specialize (E m). specialize (P m). destruct (x m) as [m1 e] eqn:Ex. split.
      + destruct (f m) as [[a m2]|w1| | |] eqn:Ef; try discriminate; cbn [bind].
        * intros H. destruct (E a m2) as [Ea _]. specialize (Ea eq_refl). injection Ea as -> ->.
          now apply (proj1 (proj2 (G a))).
        * intros [= ->]. destruct (P w) as [[m' Pm] _]; [reflexivity|]. injection Pm as -> ->. eauto.
      + intros (m' & H). destruct e as [a|w1| |]; try discriminate H.
        * destruct (E a m1) as [_ Ea]. rewrite (Ea eq_refl). cbn [bind]. apply (proj1 (proj2 (G a))). eauto.
        * injection H as -> ->. destruct (P w) as [_ Pm]. rewrite Pm; [reflexivity|eauto].
    - intros m m' w. destruct (x m) as [m1 e] eqn:Ex. destruct e as [a|w1| |]; try discriminate.
      + intros H. apply (proj2 (proj2 (G a))) in H. subst m'. now apply R in Ex.
      + intros [= -> ->]. now apply L in Ex.
  Qed.

  Lemma heap_entry_good k : good_act left_slots (OrdinalMap_entry_act (V := V) O k) (fun m => OrdinalMap_entry O m k).
  Proof.
    unfold OrdinalMap_entry, OrdinalMap_entry_act. split3;
      unfold abind at 1; rewrite init_act; unfold abind, look, put, ret;
      (destruct (OrdinalMap_init_full_map O m) as [m1| | | |] eqn:E1; cbn; [|close..]);
      (destruct (ordinal O k) as [i| | | |]; cbn; [|close..]);
      (destruct (index_slot m1 i) as [o| | | |]; cbn; [|close..]);
      (destruct (Entry_new m1 k o) as [e| | | |]; cbn; close).
  Qed.
  Lemma heap_entry_left k (m m' : @OrdinalMap V) e : OrdinalMap_entry_act O k m = (m', Ended e) -> left_slots m m'.
  Proof.
    unfold OrdinalMap_entry_act. unfold abind at 1. rewrite init_act. unfold abind, look.
    destruct (OrdinalMap_init_full_map O m) as [m1| | | |] eqn:E1; try discriminate. apply init_left in E1.
    destruct (ordinal O k) as [i| | | |]; try discriminate. cbn. destruct (index_slot m1 i); try discriminate. cbn.
    intros [= <- _]. exact E1.
  Qed.
  Lemma good_ret M A B (f : A -> B) (x : A) : good_act (M := M) eq (ret (f x)) (fun m => Val (f x, m)).
  Proof. unfold ret. split3; close. Qed.

  Lemma heap_erases (op : map_op K V) : erases (heap_act O op) (heap_step O op).
  Proof.
    destruct op; try apply replaces_erases.
    - apply heap_insert_good.
    - apply heap_remove_good.
    - intros m a m'. etransitivity; [|apply clear_erases]. unfold heap_step, clear_plain, OrdinalMap_clear, OrdinalMap_drain.
      destruct (Drain_drop O _) as [[]| | | |]; reflexivity.
    - apply drain_erases.
    - apply (good_bind (heap_entry_good k) (@heap_entry_left k) (g := fun e m => Val (entry_drop e, m))). intros e.
      apply good_ret with (f := entry_drop).
    - apply (good_bind (heap_entry_good k) (@heap_entry_left k) (g := fun e m => entry_match m e v w)). intros e.
      apply good_replaces. reflexivity.
    - apply (good_bind (heap_entry_good k) (@heap_entry_left k) (g := fun e m => entry_or_insert m e v w)). intros e.
      apply good_replaces. reflexivity.
  Qed.
  Lemma heap_good op : bulk op = false -> good_act left_slots (heap_act O op) (heap_step O op).
  Proof.
    assert (R : forall m, left_slots m m) by now left.
    destruct op; try discriminate; intros _; try (apply good_replaces; exact R).
    - apply heap_insert_good.
    - apply heap_remove_good.
    - apply (good_bind (heap_entry_good k) (@heap_entry_left k) (g := fun e m => Val (entry_drop e, m))). intros e.
      apply good_ret with (f := entry_drop).
    - apply (good_bind (heap_entry_good k) (@heap_entry_left k) (g := fun e m => entry_match m e v w)). intros e.
      apply good_replaces. reflexivity.
    - apply (good_bind (heap_entry_good k) (@heap_entry_left k) (g := fun e m => entry_or_insert m e v w)). intros e.
      apply good_replaces. reflexivity.
  Qed.

  (** *** Array maps *)
  Section Arrays.
  Context (S : nat).
  Local Notation amap := (@OrdinalArrayMap V S).

  Lemma try_arr_same (m : amap) : try_arr S (arr_list m) = Some m.
  Proof.
    destruct (@try_arr_ok _ S (arr_list m)) as (a & E & Ea); [apply arr_length|]. rewrite E. f_equal. now apply arr_ext.
  Qed.
  Lemma on_slots_erases A (x : act (list (option V)) A) (f : list (option V) -> res (A * list (option V))) : erases x f ->
    erases (on_slots (S := S) x) (fun m => '(a, l) <- f (arr_list m) ;; m <- arr_back S l ;; Val (a, m)).
  Proof.
    intros E m a m'. unfold on_slots, arr_back. specialize (E (arr_list m)). destruct (x (arr_list m)) as [l e]. split.
    - destruct (f (arr_list m)) as [[b l1]| | | |]; try discriminate. cbn [bind]. destruct (E b l1) as [E1 _].
      specialize (E1 eq_refl). injection E1 as -> ->. destruct (try_arr S l1); intros [=]; subst; reflexivity.
    - destruct (try_arr S l) as [a1|] eqn:E1; [|discriminate]. intros [= -> ->]. destruct (E a l) as [_ E2].
      rewrite (E2 eq_refl). cbn [bind]. rewrite E1. reflexivity.
  Qed.
  Lemma on_slots_good A (f : list (option V) -> res (A * list (option V))) : good_act eq (on_slots (S := S) (replaces f))
    (fun m => '(a, l) <- f (arr_list m) ;; m <- arr_back S l ;; Val (a : A, m)).
  Proof.
    split; [apply on_slots_erases, replaces_erases|]. unfold on_slots, replaces, abind, look, arr_back. split.
    - intros m w. destruct (f (arr_list m)) as [[b l1]|w1| | |]; cbn;
        rewrite ?try_arr_same; try (destruct (try_arr S l1); cbn); close.
    - intros m m' w. destruct (f (arr_list m)) as [[b l1]|w1| | |]; cbn;
        rewrite ?try_arr_same; try (destruct (try_arr S l1); cbn); intros [=]; congruence.
  Qed.

  Lemma good_ext M A (left : M -> M -> Prop) (x : act M A) f g : (forall m, f m = g m) -> good_act left x f -> good_act left x g.
  Proof.
    intros H (E & P & L). split; [|split]; [intros m a m'; rewrite <- H; apply E|intros m w; rewrite <- H; apply P|exact L].
  Qed.
  Lemma erases_ext M A (x : act M A) f g : (forall m, f m = g m) -> erases x f -> erases x g.
  Proof. intros H E m a m'. rewrite <- H. apply E. Qed.

  Lemma array_insert_good k (v : V) : good_act eq (o <! OrdinalArrayMap_insert_act O (S := S) k v ;; ret (OutValue (V := V) o)) (array_step (S := S) O (OpInsert k v)).
  Proof.
    unfold array_step, OrdinalArrayMap_insert, OrdinalArrayMap_insert_act. split3; unfold abind, look, put, ret;
      (destruct (OrdinalTotalArrayMap_get_mut O m k) as [i| | | |]; cbn; [|close..]);
      (destruct (deref (arr_list m) i) as [o| | | |]; cbn; close).
  Qed.
  Lemma array_remove_good k : good_act eq (o <! OrdinalArrayMap_remove_act (V := V) O (S := S) k ;; ret (OutValue (V := V) o)) (array_step (V := V) (S := S) O (OpRemove k)).
  Proof.
    unfold array_step, OrdinalArrayMap_remove, OrdinalArrayMap_remove_act. split3; unfold abind, look, put, ret;
      (destruct (OrdinalTotalArrayMap_get_mut O m k) as [i| | | |]; cbn; [|close..]);
      (destruct (deref (arr_list m) i) as [o| | | |]; cbn; close).
  Qed.
  Lemma array_entry_good k : good_act eq (OrdinalArrayMap_entry_act (V := V) (S := S) O k) (fun m => OrdinalArrayMap_entry O m k).
  Proof.
    unfold OrdinalArrayMap_entry, OrdinalArrayMap_entry_act. split3; unfold abind, look, put, ret;
      (destruct (OrdinalTotalArrayMap_index_mut O m k) as [i| | | |]; cbn; [|close..]);
      (destruct (Entry_new (arr_list m) k i) as [e| | | |]; cbn; close).
  Qed.
  Lemma array_entry_left k (m m' : amap) e : OrdinalArrayMap_entry_act O k m = (m', Ended e) -> m = m'.
  Proof.
    unfold OrdinalArrayMap_entry_act, abind, look. destruct (OrdinalTotalArrayMap_index_mut O m k); cbn; try discriminate.
    intros [=]; auto.
  Qed.

  Lemma array_good (op : map_op K V) : bulk op = false -> good_act eq (array_act O (S := S) op) (array_step O op).
  Proof.
    destruct op; try discriminate; intros _; try (apply good_replaces; reflexivity).
    - apply array_insert_good.
    - apply array_remove_good.
    - apply (good_bind (array_entry_good k) (@array_entry_left k) (g := fun e m => Val (entry_drop e, m))). intros e.
      apply good_ret with (f := entry_drop).
    - eapply good_ext; [|apply (good_bind (array_entry_good k) (@array_entry_left k)
          (g := fun e (m : amap) => '(a, l) <- entry_match (arr_list m) e v w ;; m <- arr_back S l ;; Val (a, m))); intros e;
        apply on_slots_good with (f := fun l => entry_match l e v w)].
      intros m. cbn [array_step]. destruct (OrdinalArrayMap_entry O m k) as [[e m1]| | | |]; try reflexivity. cbn [bind].
      destruct (entry_match (arr_list m1) e v w) as [[]| | | |]; reflexivity.
    - eapply good_ext; [|apply (good_bind (array_entry_good k) (@array_entry_left k)
          (g := fun e (m : amap) => '(a, l) <- entry_or_insert (arr_list m) e v w ;; m <- arr_back S l ;; Val (a, m))); intros e;
        apply on_slots_good with (f := fun l => entry_or_insert l e v w)].
      intros m. cbn [array_step]. destruct (OrdinalArrayMap_entry O m k) as [[e m1]| | | |]; try reflexivity. cbn [bind].
      destruct (entry_or_insert (arr_list m1) e v w) as [[]| | | |]; reflexivity.
  Qed.
  Lemma array_erases (op : map_op K V) : erases (array_act O (S := S) op) (array_step O op).
  Proof.
    destruct (bulk op) eqn:B; [|exact (proj1 (array_good B))]. destruct op; try discriminate B.
    - eapply erases_ext; [|apply on_slots_erases, clear_erases]. intros m. unfold array_step, clear_plain, OrdinalArrayMap_clear,
        OrdinalArrayMap_drain, OrdinalTotalArrayMap_iter_mut. destruct (Drain_drop O _) as [[]| | | |]; reflexivity.
    - eapply erases_ext; [|apply on_slots_erases, drain_erases]. intros m. unfold array_step, drain_plain,
        OrdinalArrayMap_drain, OrdinalTotalArrayMap_iter_mut. destruct (drive _ sched _) as [[got d]| | | |]; try reflexivity. cbn [bind].
      destruct leak; [reflexivity|]. destruct (Drain_drop O _) as [[]| | | |]; reflexivity.
    - intros m a m'. unfold array_act, OrdinalArrayMap_retain_act, array_step.
      destruct (OrdinalArrayMap_retain O (pure_retain f) m tt) as [[[] l] r]. unfold back, arr_back. cbn [fst snd].
      destruct r as [[]| | | |]; cbn; destruct (try_arr S l); cbn; split; intros [=]; subst; reflexivity.
  Qed.

  (** *** Total maps *)
  Lemma htotal_good (op : total_op K V) : good_act eq (htotal_act O op) (htotal_step O op).
  Proof.
    destruct op; try (apply good_replaces; reflexivity).
    unfold htotal_act, htotal_step, OrdinalTotalMap_insert, OrdinalTotalMap_insert_act. split3; unfold abind, look, put, ret;
      (destruct (ordinal O k) as [i| | | |]; cbn; [|close..]); (destruct (index m i) as [o| | | |]; cbn; close).
  Qed.
  Lemma atotal_good (op : total_op K V) : good_act eq (atotal_act O (S := S) op) (atotal_step O op).
  Proof.
    destruct op; try (apply good_replaces; reflexivity).
    unfold atotal_act, atotal_step, OrdinalTotalArrayMap_insert, OrdinalTotalArrayMap_insert_act. split3; unfold abind, look, put, ret;
      (destruct (ordinal O k) as [i| | | |]; cbn; [|close..]); (destruct (index (arr_list m) i) as [o| | | |]; cbn; close).
  Qed.
  End Arrays.
End Agree.
