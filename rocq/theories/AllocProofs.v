(** * AllocProofs: lemmas for C98. *)
From Verif Require Import Base Spec SpecMap SpecTotal SpecSet SpecCatch SpecAlloc ModelOrdinal ModelValues
  ModelArrayBuilder ModelIter ModelTotal ModelMap ModelSet ModelResume ModelUnwind MapMachine TotalMachine SetMachine
  ModelCatch ModelAlloc BaseProofs OrdinalProofs MapLib MapProofs5 CatchProofs CatchProofs2.
From Coq Require Import List Lia. Import ListNotations.
Set Implicit Arguments. Unset Strict Implicit.

Section Heap.
  Context {cfg : Config} (ask : allocator).
  Local Notation out := (fun A => @outcome cfg _ (ending A) Unwinds Aborts ask).

  (** Calls that are [f] behind a request for [b] bytes. *)
  Definition serves {M A} (h : list N) (b : N) (m : M) (x : act (held M) A) (f : act M A) : Prop :=
    x (h, m) = outcome Unwinds Aborts ask h b m (f m).

  Lemma serves_0 M A h (m : M) (f : act M A) : serves h 0 m (inside f) f.
  Proof.
    unfold serves, inside, outcome. cbn [fst snd]. destruct (f m) as [m' e].
    destruct (Z.to_N isize_max <? 0) eqn:E; [apply N.ltb_lt in E; lia|reflexivity].
  Qed.
  Lemma serves_cap M A h (m : M) slot n (f : act M A) :
    serves h (slot * n) m (with_capacity ask slot n ;;! inside f) f.
  Proof.
    unfold serves, with_capacity, abind, inside, outcome, look, ret, request. cbn [fst snd].
    destruct (_ <? _); [reflexivity|]. destruct (_ =? 0); cbn [fst snd].
    - destruct (f m); reflexivity.
    - destruct (ask h (slot * n)); try reflexivity. destruct (f m); reflexivity.
  Qed.
  Lemma serves_bind M A B h b (m : M) (x : act (held M) A) f (k : A -> act (held M) B) (g : A -> act M B) :
    serves h b m x f -> (forall a s, k a s = inside (g a) s) -> serves h b m (abind x k) (abind f g).
  Proof.
    unfold serves. intros E Hk. unfold abind at 1. rewrite E. unfold outcome, abind.
    destruct (_ <? b); [reflexivity|].
    assert (G : forall h', (let '(m', e) := ((h', fst (f m)), snd (f m)) in
              match e with Ended a => k a m' | Unwinds w => (m', Unwinds w) | Aborts => (m', Aborts) | Stuck => (m', Stuck) end) =
            ((h', fst (let '(m', e) := f m in match e with Ended a => g a m' | Unwinds w => (m', Unwinds w) | Aborts => (m', Aborts) | Stuck => (m', Stuck) end)),
             snd (let '(m', e) := f m in match e with Ended a => g a m' | Unwinds w => (m', Unwinds w) | Aborts => (m', Aborts) | Stuck => (m', Stuck) end))).
    { intros h'. destruct (f m) as [m' e]. cbn [fst snd]. destruct e; try reflexivity. rewrite Hk. unfold inside.
      cbn [fst snd]. destruct (g a m'); reflexivity. }
    destruct (b =? 0); [apply G|]. destruct (ask h b); [apply G|reflexivity|reflexivity].
  Qed.
  Lemma inside_ret M A (a : A) (s : held M) : ret a s = inside (ret a) s.
  Proof. destruct s; reflexivity. Qed.
  Lemma serves_look M A B h b (m : M) (r : res A) (k : A -> act (held M) B) (g : A -> act M B) a :
    r = Val a -> serves h b m (k a) (g a) ->
    serves h b m (abind (look (fun _ => r)) k) (abind (look (fun _ => r)) g).
  Proof. intros -> H. exact H. Qed.

  Section Maps.
    Context {K V : Type} (O : Ordinal K) (slot n : N) (Hn : ORDINAL_SIZE O = Val n).

    Lemma init_serves h (m : @OrdinalMap V) :
      serves h (if llen m =? 0 then slot * n else 0) m (OrdinalMap_init_full_map_mem ask O slot) (OrdinalMap_init_full_map_act O).
    Proof.
      unfold OrdinalMap_init_full_map_mem, OrdinalMap_init_full_map_act. apply serves_look with n; [exact Hn|].
      unfold serves, abind at 1, look at 1. cbn [ending_of snd].
      transitivity ((if llen m =? 0 then with_capacity ask slot n ;;! inside (put (repeat None (N.to_nat n))) else ret tt) (h, m));
        [reflexivity|].
      unfold abind at 2, look at 1. cbn [ending_of]. destruct (llen m =? 0).
      - exact (serves_cap h m slot n _).
      - rewrite inside_ret. apply serves_0.
    Qed.
    Lemma insert_serves h (m : @OrdinalMap V) k v :
      serves h (if llen m =? 0 then slot * n else 0) m (OrdinalMap_insert_mem ask O slot k v) (OrdinalMap_insert_act O k v).
    Proof. apply serves_bind; [apply init_serves|reflexivity]. Qed.
    Lemma entry_serves h (m : @OrdinalMap V) k :
      serves h (if llen m =? 0 then slot * n else 0) m (OrdinalMap_entry_mem ask O slot k) (OrdinalMap_entry_act O k).
    Proof. apply serves_bind; [apply init_serves|reflexivity]. Qed.

    Lemma heap_call op h (m : @OrdinalMap V) :
      heap_mem ask O slot op (h, m) = outcome Unwinds Aborts ask h (map_bytes slot n op (llen m)) m (heap_act O op m).
    Proof.
      destruct op; try exact (serves_0 h m _).
      - apply serves_bind; [apply insert_serves|intros; apply inside_ret].
      - apply serves_bind; [apply entry_serves|intros; apply inside_ret].
      - apply serves_bind; [apply entry_serves|reflexivity].
      - apply serves_bind; [apply entry_serves|reflexivity].
      - cbn [heap_mem map_bytes]. refine (serves_bind (f := replaces (fun m => Val (tt, OrdinalMap_clone cl m))) (g := fun _ => ret OutUnit) _ _).
        + exact (serves_cap h m slot (llen m) _).
        + intros; apply inside_ret.
    Qed.

    Lemma htotal_call op h (m : @OrdinalTotalMap V) :
      htotal_mem ask O slot op (h, m) = outcome Unwinds Aborts ask h (total_bytes slot op (llen m)) m (htotal_act O op m).
    Proof.
      clear Hn. destruct op; try exact (serves_0 h m _).
      cbn [htotal_mem total_bytes]. refine (serves_bind (f := replaces (fun m => Val (tt, OrdinalTotalMap_clone cl m))) (g := fun _ => ret TOUnit) _ _).
      - exact (serves_cap h m slot (llen m) _).
      - intros; apply inside_ret.
    Qed.
    Lemma try_new_call E St (init : St -> K -> St * res (result V E)) h st :
      OrdinalTotalMap_try_new_mem ask O slot init (h, st) =
      outcome Unwinds Aborts ask h (slot * n) st
        (fst (OrdinalTotalMap_try_new O init st), ending_of (snd (OrdinalTotalMap_try_new O init st))).
    Proof.
      unfold OrdinalTotalMap_try_new_mem. unfold abind at 1, look at 1. rewrite Hn. cbn [ending_of].
      rewrite (serves_cap h st slot n _). destruct (OrdinalTotalMap_try_new O init st); reflexivity.
    Qed.
    Lemma new_call St (init : St -> K -> St * res V) h st :
      OrdinalTotalMap_new_mem ask O slot init (h, st) =
      outcome Unwinds Aborts ask h (slot * n) st
        (fst (OrdinalTotalMap_new O init st), ending_of (snd (OrdinalTotalMap_new O init st))).
    Proof.
      unfold OrdinalTotalMap_new_mem, abind. rewrite try_new_call. unfold OrdinalTotalMap_new, outcome.
      destruct (OrdinalTotalMap_try_new O (infallible_init init) st) as [st' r]. cbn [fst snd].
      destruct (_ <? slot * n); [reflexivity|]. destruct (slot * n =? 0); [destruct r; reflexivity|].
      destruct (ask h (slot * n)); try reflexivity. destruct r; reflexivity.
    Qed.

    (** Collecting. *)
    Lemma insert_ends k v (m : @OrdinalMap V) :
      match OrdinalMap_insert O m k v with
      | Val (o, m') => OrdinalMap_insert_act O k v m = (m', Ended o) /\ m' <> []
      | r => snd (OrdinalMap_insert_act O k v m) = ending_of (r ;;; Val None)
      end.
    Proof.
      unfold OrdinalMap_insert, OrdinalMap_insert_act. pose proof (init_act O m) as Ea.
      assert (Em : exists m1, OrdinalMap_init_full_map O m = Val m1).
      { unfold OrdinalMap_init_full_map. rewrite Hn. cbn [bind]. destruct (llen m =? 0); eauto. }
      destruct Em as (m1 & Em). rewrite Em in *. unfold abind, look, put, ret. rewrite Ea.
      cbn [bind]. destruct (ordinal O k) as [i| | | |]; cbn [bind ending_of snd]; try reflexivity.
      destruct (index m1 i) as [old| | | |] eqn:Ei; cbn [bind ending_of snd]; try reflexivity.
      split; [reflexivity|]. unfold index, slice_get in Ei. destruct (nth_error m1 (N.to_nat i)) eqn:En; [|discriminate].
      apply nth_error_In in En. intros E. apply (f_equal (@length _)) in E. rewrite store_at_length in E.
      destruct m1; [contradiction|discriminate].
    Qed.
    Lemma loop_free l : forall h (m : @OrdinalMap V), (m <> [] \/ slot * n = 0) ->
      exists m', OrdinalMap_from_iter_loop_mem ask O slot l (h, m) = ((h, m'), ending_of (OrdinalMap_from_iter_loop O l m ;;; Val tt)) /\
        forall m1, OrdinalMap_from_iter_loop O l m = Val m1 -> m' = m1.
    Proof.
      induction l as [|[k v] l IH]; intros h m Hm.
      - exists m. cbn. split; [reflexivity|]. congruence.
      - cbn [OrdinalMap_from_iter_loop_mem OrdinalMap_from_iter_loop]. unfold abind at 1. rewrite (insert_serves h m k v).
        assert (Eb : (if llen m =? 0 then slot * n else 0) = 0).
        { destruct Hm as [Hm| ->]; [|now destruct (_ =? 0)]. destruct m; [contradiction|reflexivity]. }
        rewrite Eb. unfold outcome. destruct (Z.to_N isize_max <? 0) eqn:E0; [apply N.ltb_lt in E0; lia|]. cbn [N.eqb].
        pose proof (insert_ends k v m) as He. destruct (OrdinalMap_insert O m k v) as [[o m1]|w| | |]; cbn [bind ending_of] in *.
        { destruct He as [E Hne]. rewrite E. cbn [fst snd]. exact (IH h m1 (or_introl Hne)). }
        all: rewrite He; eexists; split; [reflexivity|discriminate].
    Qed.
    Lemma from_iter_call M l h (x : M) :
      OrdinalMap_from_iter_mem ask O slot l (h, x) =
      outcome Unwinds Aborts ask h (match l with [] => 0 | _ => slot * n end) x (x, ending_of (OrdinalMap_from_iter (V := V) O l)).
    Proof.
      unfold OrdinalMap_from_iter_mem, OrdinalMap_from_iter. cbn [fst snd].
      destruct l as [|[k v] l].
      { cbn. unfold outcome. destruct (Z.to_N isize_max <? 0) eqn:E0; [apply N.ltb_lt in E0; lia|]. reflexivity. }
      cbn [OrdinalMap_from_iter_loop_mem OrdinalMap_from_iter_loop]. unfold abind at 1. rewrite (insert_serves h OrdinalMap_new k v).
      change (llen (@OrdinalMap_new V) =? 0) with true. cbn iota. unfold outcome.
      destruct (_ <? slot * n); [reflexivity|].
      pose proof (insert_ends k v OrdinalMap_new) as He.
      assert (G : forall h', (let '((h1, m1), e) := (let '(m', e) := ((h', fst (OrdinalMap_insert_act O k v OrdinalMap_new)), snd (OrdinalMap_insert_act O k v OrdinalMap_new)) in
          match e with Ended _ => OrdinalMap_from_iter_loop_mem ask O slot l m' | Unwinds w => (m', Unwinds w) | Aborts => (m', Aborts) | Stuck => (m', Stuck) end) in
          ((h1, x), match e with Ended _ => Ended m1 | Unwinds w => Unwinds w | Aborts => Aborts | Stuck => Stuck end)) =
          ((h', x), ending_of ('(_, m0) <- OrdinalMap_insert O OrdinalMap_new k v ;; OrdinalMap_from_iter_loop O l m0))).
      { intros h'. destruct (OrdinalMap_insert O OrdinalMap_new k v) as [[o m1]|w| | |]; cbn [bind ending_of] in *.
        { destruct He as [E Hne]. rewrite E. cbn [fst snd]. destruct (loop_free l h' (or_introl Hne)) as (m' & E' & Hm').
          rewrite E'. destruct (OrdinalMap_from_iter_loop O l m1); cbn; try reflexivity. now rewrite (Hm' _ eq_refl). }
        all: rewrite He; reflexivity. }
      destruct (slot * n =? 0); [apply G|]. destruct (ask h (slot * n)); [apply G|reflexivity|reflexivity].
    Qed.
  End Maps.
End Heap.
