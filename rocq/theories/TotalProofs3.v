(** * TotalProofs3: the properties of the total maps, as stated in PropTotal. *)
From Verif Require Import Base Spec SpecMap SpecTotal SpecIter SpecApi ModelOrdinal ModelValues ModelArrayBuilder ModelIter
  ModelTotal ModelMap MapMachine TotalMachine BaseProofs IterLib ValuesProofs IterProofs MapLib MapIterProofs MapMutProofs
  MapProofs ArrayProofs TotalProofs MapProofs2 MapProofs3 MapProofs4 MapProofs5 OrdinalProofs TotalProofs2.
From Coq Require Import List. Import ListNotations.
Unset Strict Implicit.

Section Construction.
  Context {cfg : Config} {K V : Type} (O : Ordinal K) (n : N) (HO : ordinal_bijection O n).

  Lemma total_new_law ks : enumeration O ks ->
    (forall E St (init : St -> K -> St * res (result V E)) st,
       fst (OrdinalTotalMap_try_new O init st) = fst (calls init ks st) /\
       constructed (OrdinalTotalMap_get O) ks (snd (calls init ks st)) (snd (OrdinalTotalMap_try_new O init st))) /\
    (forall St (init : St -> K -> St * res V) st,
       fst (OrdinalTotalMap_new O init st) = fst (calls_ok init ks st) /\
       constructed_ok (OrdinalTotalMap_get O) ks (snd (calls_ok init ks st)) (snd (OrdinalTotalMap_new O init st))) /\
    (forall d : V, exists m, OrdinalTotalMap_default O d = Val m /\ forall k, OrdinalTotalMap_get O m k = Val d).
  Proof.
    intros He. split; [|split].
    - intros E St init st. exact (try_new_constructed HO He init st).
    - intros St init st. exact (new_constructed HO He init st).
    - intros d. unfold OrdinalTotalMap_default. rewrite (new_calls HO He).
      rewrite (calls_ok_pure (fun _ => d)). exists (map (fun _ => d) ks). split; [reflexivity|].
      intros k. exact (tget HO He (fun _ => d) k).
  Qed.

  Lemma total_array_new_law ks (S : nat) : enumeration O ks ->
    (N.of_nat S = n ->
     (forall E St (init : St -> K -> St * res (result V E)) st,
        fst (OrdinalTotalArrayMap_try_new O S init st) = fst (calls init ks st) /\
        constructed (OrdinalTotalArrayMap_get O (S := S)) ks (snd (calls init ks st))
          (returned (snd (OrdinalTotalArrayMap_try_new O S init st)))) /\
     (forall St (init : St -> K -> St * res V) st,
        fst (OrdinalTotalArrayMap_new O S init st) = fst (calls_ok init ks st) /\
        constructed_ok (OrdinalTotalArrayMap_get O (S := S)) ks (snd (calls_ok init ks st))
          (returned (snd (OrdinalTotalArrayMap_new O S init st)))) /\
     (forall d : V, exists m : OrdinalTotalArrayMap S V, OrdinalTotalArrayMap_default O S d = Val m /\
        forall k, OrdinalTotalArrayMap_get O m k = Val d)) /\
    (N.of_nat S <> n ->
     (forall E St (init : St -> K -> St * res (result V E)) st,
        returned (snd (OrdinalTotalArrayMap_try_new O S init st)) = NoCompile) /\
     (forall St (init : St -> K -> St * res V) st,
        returned (snd (OrdinalTotalArrayMap_new O S init st)) = NoCompile) /\
     (forall d : V, OrdinalTotalArrayMap_default O S d = NoCompile)).
  Proof.
    intros He. split; intros Hn; (split; [|split]).
    - intros E St init st. exact (array_try_new_constructed HO He init st Hn).
    - intros St init st. exact (array_new_constructed HO He init st Hn).
    - intros d. unfold OrdinalTotalArrayMap_default.
      destruct (array_new_pure HO He (fun _ : K => d) Hn) as (a & -> & Ea). exists a. split; [reflexivity|].
      intros k. unfold OrdinalTotalArrayMap_get. rewrite Ea. exact (tget HO He (fun _ => d) k).
    - intros E St init st. exact (@array_try_new_nocompile _ _ _ _ HO S V E St init st Hn).
    - intros St init st. exact (@array_new_nocompile _ _ _ _ HO S V St init st Hn).
    - intros d. unfold OrdinalTotalArrayMap_default. now apply (array_new_nocompile HO).
  Qed.
End Construction.

Section Maps.
  Context {cfg : Config} {K V : Type} (O : Ordinal K) (n : N) (HO : ordinal_bijection O n).

  Lemma htotal_state (m : @OrdinalTotalMap V) : htotal_reachable O m ->
    exists ks f, enumeration O ks /\ m = map f ks.
  Proof.
    intros H. destruct (keys_exist HO) as (ks & He). destruct (htotal_reach HO He H) as (f & Ef). eauto.
  Qed.
  Lemma atotal_state S (m : OrdinalTotalArrayMap S V) : atotal_reachable O m ->
    N.of_nat S = n /\ exists ks f, enumeration O ks /\ arr_list m = map f ks.
  Proof.
    intros H. destruct (keys_exist HO) as (ks & He). destruct (atotal_reach HO He H) as (Hn & f & Ef). eauto 6.
  Qed.

  Lemma hget ks f : enumeration O ks -> forall k, OrdinalTotalMap_get O (map f ks : list V) k = Val (f k).
  Proof. intros He k. exact (tget HO He f k). Qed.
  Lemma aget ks f S (m : OrdinalTotalArrayMap S V) : enumeration O ks -> arr_list m = map f ks ->
    forall k, OrdinalTotalArrayMap_get O m k = Val (f k).
  Proof. intros He Em k. unfold OrdinalTotalArrayMap_get. rewrite Em. exact (tget HO He f k). Qed.

  Lemma htotal_entries (m : @OrdinalTotalMap V) l : htotal_reachable O m -> lists_total O (OrdinalTotalMap_get O m) l ->
    exists ks f, enumeration O ks /\ m = map f ks /\ l = tm_entries ks f /\
      (forall k, OrdinalTotalMap_get O m k = Val (f k)).
  Proof.
    intros H Hl. destruct (htotal_state H) as (ks & f & He & ->). exists ks, f.
    split; [exact He|]. split; [reflexivity|]. split; [|exact (hget f He)].
    exact (tlists_unique Hl (tlists He (hget f He))).
  Qed.
  Lemma atotal_entries S (m : OrdinalTotalArrayMap S V) l : atotal_reachable O m ->
    lists_total O (OrdinalTotalArrayMap_get O m) l ->
    N.of_nat S = n /\ exists ks f, enumeration O ks /\ arr_list m = map f ks /\ l = tm_entries ks f /\
      (forall k, OrdinalTotalArrayMap_get O m k = Val (f k)).
  Proof.
    intros H Hl. destruct (atotal_state H) as (Hn & ks & f & He & Em). split; [exact Hn|]. exists ks, f.
    split; [exact He|]. split; [exact Em|]. split; [|exact (aget He Em)].
    exact (tlists_unique Hl (tlists He (aget He Em))).
  Qed.

  (** Every reachable map has exactly one list of entries. *)
  Lemma htotal_listed (m : @OrdinalTotalMap V) : htotal_reachable O m -> exists l, lists_total O (OrdinalTotalMap_get O m) l.
  Proof. intros H. destruct (htotal_state H) as (ks & f & He & ->). exists (tm_entries ks f). exact (tlists He (hget f He)). Qed.
  Lemma atotal_listed S (m : OrdinalTotalArrayMap S V) : atotal_reachable O m ->
    exists l, lists_total O (OrdinalTotalArrayMap_get O m) l.
  Proof. intros H. destruct (atotal_state H) as (Hn & ks & f & He & Em). exists (tm_entries ks f). exact (tlists He (aget He Em)). Qed.

  (** C42 *)
  Lemma htotal_law eqd ks (m : @OrdinalTotalMap V) : enumeration O ks -> htotal_reachable O m ->
    exists f, (forall k, OrdinalTotalMap_get O m k = Val (f k)) /\
    forall ops, exists m', htotal_run O ops m = Val (fst (total_run eqd ks ops f), m') /\
      forall k, OrdinalTotalMap_get O m' k = Val (snd (total_run eqd ks ops f) k).
  Proof.
    intros He H. destruct (htotal_reach HO He H) as (f & ->). exists f. split; [exact (hget f He)|].
    intros ops. rewrite (htotal_run_ok HO He eqd). eexists. split; [reflexivity|]. apply (hget _ He).
  Qed.
  Lemma atotal_law eqd ks S (m : OrdinalTotalArrayMap S V) : enumeration O ks -> atotal_reachable O m ->
    exists f, (forall k, OrdinalTotalArrayMap_get O m k = Val (f k)) /\
    forall ops, exists m', atotal_run O ops m = Val (fst (total_run eqd ks ops f), m') /\
      forall k, OrdinalTotalArrayMap_get O m' k = Val (snd (total_run eqd ks ops f) k).
  Proof.
    intros He H. destruct (atotal_reach HO He H) as (Hn & f & Em). exists f. split; [exact (aget He Em)|].
    intros ops. destruct (atotal_run_ok HO He eqd ops Em) as (m' & E & E'). exists m'. split; [exact E|]. exact (aget He E').
  Qed.

  (** C43 *)
  Lemma no_keys ks : enumeration O ks -> (n = 0 <-> forall k : K, False).
  Proof.
    intros He. pose proof (ks_len HO He) as L. split.
    - intros -> k. assert (In k ks) by apply He. destruct ks; [contradiction|discriminate L].
    - intros Hk. destruct ks as [|k ks]; [now rewrite <- L|destruct (Hk k)].
  Qed.

  Lemma htotal_len (m : @OrdinalTotalMap V) : htotal_reachable O m -> forall l, lists_total O (OrdinalTotalMap_get O m) l ->
    ORDINAL_SIZE O = Val n /\ OrdinalTotalMap_len O m = Val n /\ llen l = n /\
    exists b, OrdinalTotalMap_is_empty O m = Val b /\ (b = true <-> forall k : K, False).
  Proof.
    intros H l Hl. destruct (htotal_entries H Hl) as (ks & f & He & -> & -> & Hg).
    split; [exact (bij_size HO)|]. split; [exact (bij_size HO)|]. split; [exact (entries_llen HO He f)|].
    exists (n =? 0). unfold OrdinalTotalMap_is_empty, OrdinalTotalMap_len. rewrite (bij_size HO). split; [reflexivity|].
    rewrite N.eqb_eq. exact (no_keys He).
  Qed.
  Lemma atotal_len S (m : OrdinalTotalArrayMap S V) : atotal_reachable O m ->
    forall l, lists_total O (OrdinalTotalArrayMap_get O m) l ->
    ORDINAL_SIZE O = Val n /\ OrdinalTotalArrayMap_len m = n /\ llen l = n /\
    (OrdinalTotalArrayMap_is_empty m = true <-> forall k : K, False).
  Proof.
    intros H l Hl. destruct (atotal_entries H Hl) as (Hn & ks & f & He & Em & -> & Hg).
    split; [exact (bij_size HO)|]. split; [exact Hn|]. split; [exact (entries_llen HO He f)|].
    unfold OrdinalTotalArrayMap_is_empty, OrdinalTotalArrayMap_len. rewrite Hn, N.eqb_eq. exact (no_keys He).
  Qed.

  (** C44 *)
  Lemma from_array_law S (array : arr V S) : N.of_nat S = n ->
    exists m, OrdinalTotalArrayMap_from_array array = Val m /\ OrdinalTotalArrayMap_len m = n /\
      forall k, exists v i, OrdinalTotalArrayMap_get O m k = Val v /\ ordinal O k = Val i /\
        nth_error (arr_list array) (N.to_nat i) = Some v.
  Proof.
    intros Hn. exists array. split; [reflexivity|]. split; [exact Hn|]. intros k.
    destruct (keys_exist HO) as (ks & He). destruct (tkey HO He k) as (i & Hi & Hlt).
    pose proof (ks_len HO He) as L. rewrite L in Hlt. pose proof (arr_length array) as La.
    destruct (nth_error (arr_list array) (N.to_nat i)) as [v|] eqn:E.
    - exists v, i. unfold OrdinalTotalArrayMap_get. rewrite Hi. cbn [bind]. unfold index. rewrite E. auto.
    - apply nth_error_None in E. lia.
  Qed.

  (** C45 *)
  Lemma htotal_iterators (m : @OrdinalTotalMap V) : htotal_reachable O m ->
    forall l, lists_total O (OrdinalTotalMap_get O m) l ->
    double_ended (TIter_step O) (OrdinalTotalMap_iter m) l (fun s r => TIter_len s = llen r) /\
    double_ended (TIter_step O) (OrdinalTotalMap_ref_into_iter m) l (fun s r => TIter_len s = llen r) /\
    double_ended (TIntoIter_step O) (OrdinalTotalMap_into_iter m) l (fun s r => TIntoIter_len s = llen r) /\
    double_ended_rel (tref_to O m) (TIterMut_step O) (OrdinalTotalMap_iter_mut m) l (fun s r => TIterMut_len s = llen r) /\
    (exists it, OrdinalTotalMap_keys O m = Val it /\ OrdinalTotalMap_into_keys O m = Val it /\
       double_ended (values_step O) it (map fst l) (fun s r => values_len s = llen r)) /\
    double_ended slice_step (OrdinalTotalMap_values m) (map snd l) (fun s r => s = r) /\
    double_ended slice_step (OrdinalTotalMap_into_values m) (map snd l) (fun s r => s = r) /\
    double_ended_rel (tvalue_ref O m) slice_step (OrdinalTotalMap_values_mut m) l (fun s r => llen s = llen r).
  Proof.
    intros H l Hl. destruct (htotal_entries H Hl) as (ks & f & He & -> & -> & Hg).
    split; [|split; [|split; [|split; [|split; [|split; [|split]]]]]].
    - apply (double_ended_weaken (fun s r G => proj1 G) (tde_iter HO He f)).
    - apply (double_ended_weaken (fun s r G => proj1 G) (tde_iter HO He f)).
    - apply (double_ended_weaken (fun s r G => proj1 G) (tde_into HO He f)).
    - apply (double_ended_rel_weaken (fun s r G => proj1 G) (tde_iter_mut HO He f)).
    - destruct (tde_keys HO He f) as (it & E & G). exists it. split; [exact E|]. split; [exact E|].
      exact (double_ended_weaken (fun s r G => proj1 G) G).
    - exact (tde_values ks f).
    - exact (tde_values ks f).
    - exact (tde_values_mut HO He f).
  Qed.
  Lemma atotal_iterators S (m : OrdinalTotalArrayMap S V) : atotal_reachable O m ->
    forall l, lists_total O (OrdinalTotalArrayMap_get O m) l ->
    double_ended (TIter_step O) (OrdinalTotalArrayMap_iter m) l (fun s r => TIter_len s = llen r) /\
    double_ended (TIter_step O) (OrdinalTotalArrayMap_ref_into_iter m) l (fun s r => TIter_len s = llen r) /\
    double_ended (TIntoIterArray_step O) (OrdinalTotalArrayMap_into_iter m) l (fun s r => TIntoIterArray_len s = llen r) /\
    double_ended_rel (tref_to O (arr_list m)) (TIterMut_step O) (OrdinalTotalArrayMap_iter_mut m) l
      (fun s r => TIterMut_len s = llen r) /\
    (exists it, OrdinalTotalArrayMap_keys O m = Val it /\ OrdinalTotalArrayMap_into_keys O m = Val it /\
       double_ended (values_step O) it (map fst l) (fun s r => values_len s = llen r)) /\
    double_ended slice_step (OrdinalTotalArrayMap_values m) (map snd l) (fun s r => s = r) /\
    double_ended_rel (tvalue_ref O (arr_list m)) slice_step (OrdinalTotalArrayMap_values_mut m) l
      (fun s r => llen s = llen r).
  Proof.
    intros H l Hl. destruct (atotal_entries H Hl) as (Hn & ks & f & He & Em & -> & Hg).
    unfold OrdinalTotalArrayMap_iter, OrdinalTotalArrayMap_ref_into_iter, OrdinalTotalArrayMap_iter, OrdinalTotalArrayMap_into_iter,
      OrdinalTotalArrayMap_iter_mut, OrdinalTotalArrayMap_values, OrdinalTotalArrayMap_values_mut. rewrite Em.
    split; [|split; [|split; [|split; [|split; [|split]]]]].
    - apply (double_ended_weaken (fun s r G => proj1 G) (tde_iter HO He f)).
    - apply (double_ended_weaken (fun s r G => proj1 G) (tde_iter HO He f)).
    - apply (double_ended_weaken (fun s r G => proj1 G) (tde_into_array HO He f)).
    - apply (double_ended_rel_weaken (fun s r G => proj1 G) (tde_iter_mut HO He f)).
    - destruct (tde_keys HO He f) as (it & E & G). exists it. split; [exact E|]. split; [exact E|].
      exact (double_ended_weaken (fun s r G => proj1 G) G).
    - exact (tde_values ks f).
    - exact (tde_values_mut HO He f).
  Qed.

  (** C46 *)
  Lemma htotal_hints (m : @OrdinalTotalMap V) : htotal_reachable O m ->
    forall l, lists_total O (OrdinalTotalMap_get O m) l ->
    double_ended (TIter_step O) (OrdinalTotalMap_iter m) l (fun s _ => hint_exact (TIter_size_hint s) (TIter_len s)) /\
    double_ended (TIntoIter_step O) (OrdinalTotalMap_into_iter m) l
      (fun s _ => hint_exact (TIntoIter_size_hint s) (TIntoIter_len s)) /\
    double_ended_rel (tref_to O m) (TIterMut_step O) (OrdinalTotalMap_iter_mut m) l
      (fun s _ => hint_exact (TIterMut_size_hint s) (TIterMut_len s)) /\
    (exists it, OrdinalTotalMap_keys O m = Val it /\
       double_ended (values_step O) it (map fst l) (fun s _ => hint_exact (values_size_hint s) (values_len s))).
  Proof.
    intros H l Hl. destruct (htotal_entries H Hl) as (ks & f & He & -> & -> & Hg).
    split; [|split; [|split]].
    - refine (double_ended_weaken _ (tde_iter HO He f)). intros s r (G1 & G2 & _). now rewrite G1.
    - refine (double_ended_weaken _ (tde_into HO He f)). intros s r (G1 & G2 & _). now rewrite G1.
    - refine (double_ended_rel_weaken _ (tde_iter_mut HO He f)). intros s r (G1 & G2 & _). now rewrite G1.
    - destruct (tde_keys HO He f) as (it & E & G). exists it. split; [exact E|].
      refine (double_ended_weaken _ G). intros s r (G1 & G2). now rewrite G1.
  Qed.
  Lemma atotal_hints S (m : OrdinalTotalArrayMap S V) : atotal_reachable O m ->
    forall l, lists_total O (OrdinalTotalArrayMap_get O m) l ->
    double_ended (TIter_step O) (OrdinalTotalArrayMap_iter m) l (fun s _ => hint_exact (TIter_size_hint s) (TIter_len s)) /\
    double_ended_rel (tref_to O (arr_list m)) (TIterMut_step O) (OrdinalTotalArrayMap_iter_mut m) l
      (fun s _ => hint_exact (TIterMut_size_hint s) (TIterMut_len s)) /\
    (exists it, OrdinalTotalArrayMap_keys O m = Val it /\
       double_ended (values_step O) it (map fst l) (fun s _ => hint_exact (values_size_hint s) (values_len s))) /\
    double_ended (TIntoIterArray_step O) (OrdinalTotalArrayMap_into_iter m) l
      (fun s r => hint_ok (TIntoIterArray_size_hint s) (llen r)).
  Proof.
    intros H l Hl. destruct (atotal_entries H Hl) as (Hn & ks & f & He & Em & -> & Hg).
    unfold OrdinalTotalArrayMap_iter, OrdinalTotalArrayMap_into_iter, OrdinalTotalArrayMap_iter_mut. rewrite Em.
    split; [|split; [|split]].
    - refine (double_ended_weaken _ (tde_iter HO He f)). intros s r (G1 & G2 & _). now rewrite G1.
    - refine (double_ended_rel_weaken _ (tde_iter_mut HO He f)). intros s r (G1 & G2 & _). now rewrite G1.
    - destruct (tde_keys HO He f) as (it & E & G). exists it. split; [exact E|].
      refine (double_ended_weaken _ G). intros s r (G1 & G2). now rewrite G1.
    - refine (double_ended_weaken _ (tde_into_array HO He f)). intros s r (G1 & G2 & _). exact G2.
  Qed.

  (** C38 *)
  Lemma htotal_clones (m : @OrdinalTotalMap V) : htotal_reachable O m ->
    forall (cl : V -> V) l, lists_total O (OrdinalTotalMap_get O m) l ->
    (forall k, OrdinalTotalMap_get O (OrdinalTotalMap_clone cl m) k = (v <- OrdinalTotalMap_get O m k ;; Val (cl v))) /\
    double_ended (TIter_step O) (OrdinalTotalMap_iter m) l
      (fun s r => double_ended (TIter_step O) (TIter_clone s) r anything) /\
    double_ended (TIntoIter_step O) (OrdinalTotalMap_into_iter m) l
      (fun s r => double_ended (TIntoIter_step O) (TIntoIter_clone cl s)
                    (map (fun kv => (fst kv, cl (snd kv))) r) anything).
  Proof.
    intros H cl l Hl. destruct (htotal_entries H Hl) as (ks & f & He & -> & -> & Hg).
    split; [|split].
    - intros k. rewrite Hg. cbn [bind]. unfold OrdinalTotalMap_clone. rewrite map_map. exact (tget HO He (fun k => cl (f k)) k).
    - refine (double_ended_weaken _ (tde_iter HO He f)). intros s r (_ & _ & _ & G). exact G.
    - refine (double_ended_weaken _ (tde_into HO He f)). intros s r (_ & _ & _ & G). exact (G cl).
  Qed.
  Lemma atotal_clones S (m : OrdinalTotalArrayMap S V) : atotal_reachable O m ->
    forall (cl : V -> V) l, lists_total O (OrdinalTotalArrayMap_get O m) l ->
    (forall k, OrdinalTotalArrayMap_get O (OrdinalTotalArrayMap_clone cl m) k =
               (v <- OrdinalTotalArrayMap_get O m k ;; Val (cl v))) /\
    double_ended (TIter_step O) (OrdinalTotalArrayMap_iter m) l
      (fun s r => double_ended (TIter_step O) (TIter_clone s) r anything) /\
    double_ended (TIntoIterArray_step O) (OrdinalTotalArrayMap_into_iter m) l
      (fun s r => double_ended (TIntoIterArray_step O) (TIntoIterArray_clone cl s)
                    (map (fun kv => (fst kv, cl (snd kv))) r) anything).
  Proof.
    intros H cl l Hl. destruct (atotal_entries H Hl) as (Hn & ks & f & He & Em & -> & Hg).
    split; [|split].
    - intros k. rewrite Hg. cbn [bind]. unfold OrdinalTotalArrayMap_get, OrdinalTotalArrayMap_clone, arr_clone. cbn [arr_list].
      rewrite Em, map_map. exact (tget HO He (fun k => cl (f k)) k).
    - unfold OrdinalTotalArrayMap_iter. rewrite Em.
      refine (double_ended_weaken _ (tde_iter HO He f)). intros s r (_ & _ & _ & G). exact G.
    - unfold OrdinalTotalArrayMap_into_iter. rewrite Em.
      refine (double_ended_weaken _ (tde_into_array HO He f)). intros s r (_ & _ & _ & G). exact (G cl).
  Qed.

  (** C62 *)
  Lemma tdebug_all ks f : enumeration O ks ->
    ('(l, _) <- collect (TIter_step O Front) (Datatypes.S (length (map f ks))) (TIter_new (map f ks : list V) 0) ;; Val l) =
    Val (tm_entries ks f).
  Proof.
    intros He. destruct (tcollect HO (pending_values f (ks_slots HO He))) as (s' & E).
    unfold TIter_new, enumerate_new in *. cbn [e_items] in E. rewrite E. reflexivity.
  Qed.

  Lemma htotal_debugs (m : @OrdinalTotalMap V) : htotal_reachable O m ->
    forall l, lists_total O (OrdinalTotalMap_get O m) l ->
    OrdinalTotalMap_debug O m = Val l /\
    double_ended (TIter_step O) (OrdinalTotalMap_iter m) l (fun s r => TIter_debug O s = Val r) /\
    double_ended (TIntoIter_step O) (OrdinalTotalMap_into_iter m) l (fun s r => TIntoIter_debug O s = Val r) /\
    double_ended_rel (tref_to O m) (TIterMut_step O) (OrdinalTotalMap_iter_mut m) l
      (fun s r => TIterMut_debug O m s = Val r).
  Proof.
    intros H l Hl. destruct (htotal_entries H Hl) as (ks & f & He & -> & -> & Hg).
    split; [exact (tdebug_all f He)|]. split; [|split].
    - refine (double_ended_weaken _ (tde_iter HO He f)). intros s r (_ & _ & G & _). exact G.
    - refine (double_ended_weaken _ (tde_into HO He f)). intros s r (_ & _ & G & _). exact G.
    - refine (double_ended_rel_weaken _ (tde_iter_mut HO He f)). intros s r (_ & _ & G). exact G.
  Qed.
  Lemma atotal_debugs S (m : OrdinalTotalArrayMap S V) : atotal_reachable O m ->
    forall l, lists_total O (OrdinalTotalArrayMap_get O m) l ->
    OrdinalTotalArrayMap_debug O m = Val l /\
    double_ended (TIter_step O) (OrdinalTotalArrayMap_iter m) l (fun s r => TIter_debug O s = Val r) /\
    double_ended (TIntoIterArray_step O) (OrdinalTotalArrayMap_into_iter m) l (fun s r => TIntoIterArray_debug O s = Val r) /\
    double_ended_rel (tref_to O (arr_list m)) (TIterMut_step O) (OrdinalTotalArrayMap_iter_mut m) l
      (fun s r => TIterMut_debug O (arr_list m) s = Val r).
  Proof.
    intros H l Hl. destruct (atotal_entries H Hl) as (Hn & ks & f & He & Em & -> & Hg).
    unfold OrdinalTotalArrayMap_debug, OrdinalTotalArrayMap_iter, OrdinalTotalArrayMap_into_iter,
      OrdinalTotalArrayMap_iter_mut. rewrite Em.
    split; [exact (tdebug_all f He)|]. split; [|split].
    - refine (double_ended_weaken _ (tde_iter HO He f)). intros s r (_ & _ & G & _). exact G.
    - refine (double_ended_weaken _ (tde_into_array HO He f)). intros s r (_ & _ & G & _). exact G.
    - refine (double_ended_rel_weaken _ (tde_iter_mut HO He f)). intros s r (_ & _ & G). exact G.
  Qed.

  (** C32 *)
  Lemma tnodup_vals (got : list (option N)) keys :
    Forall2 (opt_rel (fun i k => ordinal O k = Val i)) got keys -> NoDup (somes keys) -> NoDup (somes got).
  Proof.
    induction 1 as [|a b got keys Hab HF IH]; intros Hn; [constructor|].
    destruct a as [i|], b as [k'|]; cbn in Hab; try contradiction.
    - cbn [somes flat_map app] in *. fold (somes got) in *. fold (somes keys) in *.
      inversion Hn as [|? ? Hni Hn']; subst. constructor; [|exact (IH Hn')].
      intros Hin. apply Hni. clear - HO HF Hin Hab.
      induction HF as [|a b got keys Hx HF IH]; [contradiction|].
      destruct a as [j|], b as [k|]; cbn in Hx; try contradiction.
      + cbn [somes flat_map app] in *. destruct Hin as [->|Hin]; [left|right; exact (IH Hin)].
        eapply bij_inj; eassumption.
      + exact (IH Hin).
    - exact (IH Hn).
  Qed.

  Lemma tslots ks : enumeration O ks -> Forall2 (fun i k => ordinal O k = Val i) (slots (length ks)) ks.
  Proof.
    intros He. pose proof (proj1 (ks_slots HO He)) as Hn.
    assert (E : slots (length ks) = map snd (kslots 0 ks)) by now rewrite kslots_snd. rewrite E. clear E.
    assert (G : forall a l, numbered O (N.of_nat a) l -> Forall2 (fun i k => ordinal O k = Val i) (map snd (kslots a l)) l).
    { intros a l. revert a. induction l as [|k l IH]; intros a Hl; [constructor|]. rewrite kslots_cons.
      inversion Hl as [|? ? ? H1 H2 H3]; subst. cbn [map snd]. constructor; [exact H2|].
      apply IH. now replace (N.of_nat (S a)) with (N.of_nat a + 1) by lia. }
    exact (G 0%nat ks Hn).
  Qed.

  Lemma tmut_all eqd ks f evs : enumeration O ks ->
    let keys := fst (mut_spec eqd (fun v : V => v) evs (map fst (tm_entries ks f)) [] f) in
    let f' := snd (mut_spec eqd (fun v : V => v) evs (map fst (tm_entries ks f)) [] f) in
    (exists got f2,
       mut_run (fun _ => TIterMut_step O) snd write_slot evs (map f ks) (TIterMut_new (slots (length (map f ks)))) [] =
         Val (got, map f2 ks) /\
       Forall2 (opt_rel (fun ki k => fst ki = k /\ ordinal O k = Val (snd ki))) got keys /\
       NoDup (map snd (somes got)) /\ forall k, f2 k = f' k) /\
    (exists got f2,
       mut_run (fun _ => slice_step) (fun i : N => i) write_slot evs (map f ks) (slots (length (map f ks))) [] =
         Val (got, map f2 ks) /\
       Forall2 (opt_rel (fun i k => ordinal O k = Val i)) got keys /\
       NoDup (somes got) /\ forall k, f2 k = f' k).
  Proof.
    intros He. cbv zeta. rewrite entries_fst, map_length.
    assert (Hd : NoDup (somes (fst (mut_spec eqd (fun v : V => v) evs ks [] f)))).
    { apply mut_spec_NoDup. exact (ks_NoDup HO He). }
    split.
    - destruct (@tmut_run_ok _ _ _ O n HO ks He eqd evs f (TIterMut_new (slots (length ks))) ks [] [])
        as (got & f2 & E & G1 & G2); [exact (at_slots_init (ks_slots HO He))|constructor|].
      exists got, f2. split; [exact E|]. split; [exact G1|]. split; [|exact G2]. exact (refs_NoDup HO G1 Hd).
    - destruct (@tvals_run_ok _ _ _ O n HO ks He eqd evs f (slots (length ks)) ks [] [])
        as (got & f2 & E & G1 & G2); [exact (tslots He)|constructor|].
      exists got, f2. split; [exact E|]. split; [exact G1|]. split; [|exact G2]. exact (tnodup_vals G1 Hd).
  Qed.

  Lemma htotal_mut_law eqd (m : @OrdinalTotalMap V) : htotal_reachable O m ->
    exists f l, (forall k, OrdinalTotalMap_get O m k = Val (f k)) /\ lists_total O (OrdinalTotalMap_get O m) l /\
    forall evs,
      let keys := fst (mut_spec eqd (fun v => v) evs (map fst l) [] f) in
      let f' := snd (mut_spec eqd (fun v => v) evs (map fst l) [] f) in
      (exists got m',
         mut_run (fun _ => TIterMut_step O) snd write_slot evs m (OrdinalTotalMap_iter_mut m) [] = Val (got, m') /\
         Forall2 (opt_rel (fun ki k => fst ki = k /\ ordinal O k = Val (snd ki))) got keys /\
         NoDup (map snd (somes got)) /\ forall k, OrdinalTotalMap_get O m' k = Val (f' k)) /\
      (exists got m',
         mut_run (fun _ => slice_step) (fun i : N => i) write_slot evs m (OrdinalTotalMap_values_mut m) [] = Val (got, m') /\
         Forall2 (opt_rel (fun i k => ordinal O k = Val i)) got keys /\
         NoDup (somes got) /\ forall k, OrdinalTotalMap_get O m' k = Val (f' k)).
  Proof.
    intros H. destruct (htotal_state H) as (ks & f & He & ->). exists f, (tm_entries ks f).
    split; [exact (hget f He)|]. split; [exact (tlists He (hget f He))|]. intros evs. cbv zeta.
    destruct (tmut_all eqd f evs He) as [(got & f2 & E & G1 & G2 & G3) (got' & f3 & E' & G1' & G2' & G3')].
    split.
    - exists got, (map f2 ks). split; [exact E|]. split; [exact G1|]. split; [exact G2|].
      intros k. rewrite (hget f2 He), G3. reflexivity.
    - exists got', (map f3 ks). split; [exact E'|]. split; [exact G1'|]. split; [exact G2'|].
      intros k. rewrite (hget f3 He), G3'. reflexivity.
  Qed.

  Lemma tstorage ks f S k : enumeration O ks -> N.of_nat S = n -> total_storage_get O S (map f ks : list V) k = Val (f k).
  Proof.
    intros He Hn. unfold total_storage_get. pose proof (ks_len HO He) as L. unfold llen in L.
    destruct (@try_arr_ok V S (map f ks)) as (a & -> & Ea); [rewrite map_length; lia|].
    exact (aget He Ea k).
  Qed.

  Lemma atotal_mut_law eqd S (m : OrdinalTotalArrayMap S V) : atotal_reachable O m ->
    exists f l, (forall k, OrdinalTotalArrayMap_get O m k = Val (f k)) /\ lists_total O (OrdinalTotalArrayMap_get O m) l /\
    forall evs,
      let keys := fst (mut_spec eqd (fun v => v) evs (map fst l) [] f) in
      let f' := snd (mut_spec eqd (fun v => v) evs (map fst l) [] f) in
      (exists got st',
         mut_run (fun _ => TIterMut_step O) snd write_slot evs (arr_list m) (OrdinalTotalArrayMap_iter_mut m) [] = Val (got, st') /\
         Forall2 (opt_rel (fun ki k => fst ki = k /\ ordinal O k = Val (snd ki))) got keys /\
         NoDup (map snd (somes got)) /\ forall k, total_storage_get O S st' k = Val (f' k)) /\
      (exists got st',
         mut_run (fun _ => slice_step) (fun i : N => i) write_slot evs (arr_list m) (OrdinalTotalArrayMap_values_mut m) [] = Val (got, st') /\
         Forall2 (opt_rel (fun i k => ordinal O k = Val i)) got keys /\
         NoDup (somes got) /\ forall k, total_storage_get O S st' k = Val (f' k)).
  Proof.
    intros H. destruct (atotal_state H) as (Hn & ks & f & He & Em). exists f, (tm_entries ks f).
    split; [exact (aget He Em)|]. split; [exact (tlists He (aget He Em))|]. intros evs. cbv zeta.
    unfold OrdinalTotalArrayMap_iter_mut, OrdinalTotalArrayMap_values_mut. rewrite Em.
    destruct (tmut_all eqd f evs He) as [(got & f2 & E & G1 & G2 & G3) (got' & f3 & E' & G1' & G2' & G3')].
    split.
    - exists got, (map f2 ks). split; [exact E|]. split; [exact G1|]. split; [exact G2|].
      intros k. rewrite (tstorage f2 k He Hn), G3. reflexivity.
    - exists got', (map f3 ks). split; [exact E'|]. split; [exact G1'|]. split; [exact G2'|].
      intros k. rewrite (tstorage f3 k He Hn), G3'. reflexivity.
  Qed.

  (** C48 *)
  Lemma as_ref_law S (m : OrdinalTotalArrayMap S V) : atotal_reachable O m ->
    exists r, OrdinalTotalArrayMap_as_ref O m = Val r /\
      forall k, (i <- OrdinalTotalArrayMap_get O r k ;; deref (arr_list m) i) = OrdinalTotalArrayMap_get O m k.
  Proof.
    intros H. destruct (atotal_state H) as (Hn & ks & f & He & Em).
    destruct (@list_fun K N (key_eq_dec HO) ks (slots (length ks)) (proj1 He) (ks_NoDup HO He)) as (g & Eg).
    { unfold slots. now rewrite map_length, seq_length. }
    assert (Hg : forall k, ordinal O k = Val (g k)).
    { intros k. pose proof (tslots He) as HF. rewrite Eg in HF.
      assert (Hk : In k ks) by apply He. clear - HF Hk.
      induction ks as [|x ks IH]; [contradiction|]. cbn [map] in HF. inversion HF; subst.
      destruct Hk as [->|Hk]; [assumption|]. apply IH; assumption. }
    assert (Hlt : forall k, g k < llen ks).
    { intros k. exact (enumeration_lt HO He (Hg k)). }
    unfold OrdinalTotalArrayMap_as_ref.
    destruct (array_new_calls HO He (fun st k => (st, i <- ordinal O k ;; index_slot (arr_list m) i)) tt Hn) as [_ G].
    assert (Ec : forall l, calls_ok (fun (st : unit) k => (st, i <- ordinal O k ;; index_slot (arr_list m) i)) l tt
                 = (tt, Val (map g l))).
    { induction l as [|k l IH]; [reflexivity|]. cbn [calls_ok map]. rewrite Hg. cbn [bind]. unfold index_slot.
      rewrite Em, (slot_index HO f (proj1 (ks_slots HO He)) (Hg k) (Hlt k)). cbn [bind].
      unfold index_slot in IH. rewrite Em in IH. now rewrite IH. }
    rewrite Ec in G. cbn [snd] in G. apply bind_inv in G. destruct G as (r & G1 & G2). exists r. split; [exact G1|].
    intros k. rewrite (aget He Em). unfold OrdinalTotalArrayMap_get. replace (arr_list r) with (map g ks) by congruence.
    rewrite (tget HO He g k). cbn [bind]. rewrite Em. exact (slot_deref HO f (proj1 (ks_slots HO He)) (Hg k) (Hlt k)).
  Qed.

  Lemma as_mut_loop_ok S rest : forall done, (length done + length rest = S)%nat ->
    exists a, returned (array_as_mut_loop S rest (builder_of S done)) = Val a /\ arr_list a = done ++ rest.
  Proof.
    induction rest as [|x rest IH]; intros done Hl; cbn [array_as_mut_loop].
    - destruct (@finish_ok N S done) as (a & E & Ea); [cbn in Hl; lia|]. rewrite E. exists a.
      split; [reflexivity|]. now rewrite app_nil_r.
    - cbn [length] in Hl. rewrite push_ok by lia. destruct (IH (done ++ [x])) as (a & E & Ea).
      { rewrite app_length. cbn. lia. }
      exists a. split; [exact E|]. now rewrite Ea, <- app_assoc.
  Qed.

  Lemma as_mut_law (eqd : forall a b : K, {a = b} + {a <> b}) S (m : OrdinalTotalArrayMap S V) : atotal_reachable O m ->
    exists r, OrdinalTotalArrayMap_as_mut m = Val r /\ NoDup (arr_list r) /\
      forall k, exists i v, OrdinalTotalArrayMap_get O r k = Val i /\ ordinal O k = Val i /\
        OrdinalTotalArrayMap_get O m k = Val v /\ deref (arr_list m) i = Val v /\
        forall w, exists st', write_slot (arr_list m) i w = Val st' /\
          forall k', total_storage_get O S st' k' = if eqd k k' then Val w else OrdinalTotalArrayMap_get O m k'.
  Proof.
    intros H. destruct (atotal_state H) as (Hn & ks & f & He & Em).
    unfold OrdinalTotalArrayMap_as_mut, array_as_mut. rewrite builder_new_of.
    pose proof (ks_len HO He) as L. unfold llen in L.
    destruct (@as_mut_loop_ok S (slots (length (arr_list m))) []) as (r & Er & El).
    { unfold slots. rewrite map_length, seq_length, arr_length. reflexivity. }
    rewrite Er. cbn [bind]. unfold OrdinalTotalArrayMap_from_array. exists r. split; [reflexivity|].
    cbn [app] in El. rewrite Em, map_length in El. split.
    { rewrite El. unfold slots. apply FinFun.Injective_map_NoDup; [intros a b; lia|apply seq_NoDup]. }
    intros k. destruct (tkey HO He k) as (i & Hi & Hlt). exists i, (f k).
    split; [|split; [exact Hi|split; [exact (aget He Em k)|split]]].
    - unfold OrdinalTotalArrayMap_get. rewrite Hi. cbn [bind]. unfold index. rewrite El.
      unfold slots. rewrite nth_error_map. unfold llen in Hlt.
      rewrite (@nth_error_nth' _ (seq 0 (length ks)) (N.to_nat i) 0%nat) by (rewrite seq_length; lia).
      rewrite seq_nth by lia. cbn. f_equal. lia.
    - rewrite Em. exact (slot_deref HO f (proj1 (ks_slots HO He)) Hi Hlt).
    - intros w. unfold write_slot. rewrite Em, (slot_deref HO f (proj1 (ks_slots HO He)) Hi Hlt). cbn [bind].
      rewrite (slot_store HO eqd f w (proj1 (ks_slots HO He)) Hi Hlt).
      eexists. split; [reflexivity|]. intros k'. rewrite (tstorage _ k' He Hn), (aget He Em).
      unfold tm_set. destruct (eqd k k'); reflexivity.
  Qed.

  (** Values in key order. *)
  Lemma htotal_values (m : @OrdinalTotalMap V) : htotal_reachable O m ->
    forall l, lists_total O (OrdinalTotalMap_get O m) l ->
    OrdinalTotalMap_values m = map snd l /\ OrdinalTotalMap_into_values m = map snd l.
  Proof.
    intros H l Hl. destruct (htotal_entries H Hl) as (ks & f & He & -> & -> & Hg). rewrite entries_snd. split; reflexivity.
  Qed.
  Lemma atotal_values S (m : OrdinalTotalArrayMap S V) : atotal_reachable O m ->
    forall l, lists_total O (OrdinalTotalArrayMap_get O m) l ->
    OrdinalTotalArrayMap_values m = map snd l /\ arr_list (OrdinalTotalArrayMap_into_values m) = map snd l /\
    arr_list (OrdinalTotalArrayMap_values_array m) = map snd l /\
    Forall2 (tvalue_ref O (arr_list m)) (OrdinalTotalArrayMap_values_array_mut m) l.
  Proof.
    intros H l Hl. destruct (atotal_entries H Hl) as (Hn & ks & f & He & Em & -> & Hg). rewrite entries_snd.
    split; [exact Em|]. split; [exact Em|]. split; [exact Em|].
    unfold OrdinalTotalArrayMap_values_array_mut. rewrite Em, map_length.
    pose proof (kslots_entries HO He (key_eq_dec HO) f) as HF.
    assert (E : slots (length ks) = map snd (kslots 0 ks)) by now rewrite kslots_snd.
    rewrite E. clear E Hl. induction HF as [|[k i] [k' v] l l' (H1 & H2 & H3) HF IH]; [constructor|].
    cbn [map snd]. constructor; [|exact IH]. cbn [fst snd] in *. subst k'. split; [exact H2|]. cbn [snd].
    rewrite (slot_deref HO f (proj1 (ks_slots HO He)) H2 (enumeration_lt HO He H2)). now rewrite H3.
  Qed.
End Maps.

Section Pointwise.
  Context {cfg : Config} {K V W : Type} (O : Ordinal K) (n : N) (HO : ordinal_bijection O n).

  Lemma from_iter_calls {It A St} S (next : It -> res (option A * It)) (f : St -> A -> St * res W) it l st :
    yields next it l -> length l = S ->
    fst (array_from_iter S next f it st) = fst (calls_ok f l st) /\
    (a <- returned (snd (array_from_iter S next f it st)) ;; Val (arr_list a)) = snd (calls_ok f l st).
  Proof.
    intros Hy Hl. unfold array_from_iter. rewrite builder_new_of.
    destruct (@fill_calls It A W Empty_set St S next (infallible_init f) l (S + 2) [] it st Hy) as [G1 G2];
      [cbn; lia|lia|].
    destruct (fill S next (infallible_init f) (S + 2) (builder_of S []) it st) as [st' r]. cbn [fst snd] in *.
    rewrite calls_infallible in *. cbn [fst snd] in *. split; [exact G1|].
    destruct (snd (calls_ok f l st)) as [vs| | | |]; cbn [bind prefixed app] in G2; cbn [returned];
      destruct (returned r) as [[a|[]]| | | |]; cbn in *; congruence.
  Qed.

  Lemma constructed_calls S ks (o : res (OrdinalTotalArrayMap S W)) r : enumeration O ks ->
    (a <- o ;; Val (arr_list a)) = r -> (forall vs, r = Val vs -> length vs = length ks) ->
    constructed_ok (OrdinalTotalArrayMap_get O (S := S)) ks r o.
  Proof.
    intros He <- Hl. destruct o as [a| | | |]; try reflexivity. exists a. split; [reflexivity|].
    apply (lookup_all HO He); [reflexivity|]. exact (Hl _ eq_refl).
  Qed.

  Lemma map_law S (m : OrdinalTotalArrayMap S V) : atotal_reachable O m ->
    forall l, lists_total O (OrdinalTotalArrayMap_get O m) l ->
    (forall St (f : St -> K -> V -> St * res W) st,
       let r := OrdinalTotalArrayMap_map O f m st in
       let c := calls_ok (fun st kv => f st (fst kv) (snd kv)) l st in
       fst r = fst c /\ constructed_ok (OrdinalTotalArrayMap_get O (S := S)) (map fst l) (snd c) (returned (snd r))) /\
    (forall St (f : St -> V -> St * res W) st,
       let r := OrdinalTotalArrayMap_map_values O f m st in
       let c := calls_ok f (map snd l) st in
       fst r = fst c /\ constructed_ok (OrdinalTotalArrayMap_get O (S := S)) (map fst l) (snd c) (returned (snd r))).
  Proof.
    intros H l Hl. destruct (atotal_entries HO H Hl) as (Hn & ks & f0 & He & Em & -> & Hg).
    assert (G : forall St (f : St -> K -> V -> St * res W) st,
       let r := OrdinalTotalArrayMap_map O f m st in
       let c := calls_ok (fun st kv => f st (fst kv) (snd kv)) (tm_entries ks f0) st in
       fst r = fst c /\ constructed_ok (OrdinalTotalArrayMap_get O (S := S)) (map fst (tm_entries ks f0)) (snd c) (returned (snd r))).
    { intros St f st. cbv zeta. unfold OrdinalTotalArrayMap_map, OrdinalTotalArrayMap_into_iter. rewrite Em.
      destruct (@from_iter_calls _ _ _ S (TIntoIterArray_step O Front) (fun st '(k, v) => f st k v)
        (TIntoIterArray_new (map f0 ks)) (tm_entries ks f0) st) as [G1 G2].
      { apply (@refines_yields _ _ (TIntoIterArray_step O Front) (enumerate_step O) (pending O n)); [reflexivity| |].
        - exact (enumerate_refines HO).
        - exact (pending_values f0 (ks_slots HO He)). }
      { unfold tm_entries. rewrite map_length. pose proof (ks_len HO He) as L. unfold llen in L. lia. }
      assert (Ef : forall l st, calls_ok (fun st '(k, v) => f st k v) l st = calls_ok (fun st kv => f st (fst kv) (snd kv)) l st).
      { induction l as [|[k v] l IH]; intros st0; [reflexivity|]. cbn [calls_ok fst snd].
        destruct (f st0 k v) as [st1 [b| | | |]]; try reflexivity. now rewrite IH. }
      rewrite Ef in *. split; [exact G1|].
      pose proof (calls_infallible (fun st kv => f st (fst kv) (snd kv)) (tm_entries ks f0) st) as Ei.
      destruct (calls_ok (fun st kv => f st (fst kv) (snd kv)) (tm_entries ks f0) st) as [st' r]. cbn [fst snd] in *.
      rewrite entries_fst. refine (constructed_calls He G2 _). intros vs ->. rewrite (calls_length Ei).
      unfold tm_entries. apply map_length. }
    split; [exact G|]. intros St f st. cbv zeta. unfold OrdinalTotalArrayMap_map_values.
    pose proof (G St (fun st _ v => f st v) st) as G1. cbv zeta in G1.
    assert (Ef : forall l st, calls_ok (fun st (kv : K * V) => f st (snd kv)) l st = calls_ok f (map snd l) st).
    { induction l as [|[k v] l IH]; intros st0; [reflexivity|]. cbn [calls_ok map snd].
      destruct (f st0 v) as [st1 [b| | | |]]; try reflexivity. now rewrite IH. }
    rewrite Ef in G1. exact G1.
  Qed.
End Pointwise.

Section Zip.
  Context {cfg : Config} {K V W : Type} (O : Ordinal K) (n : N) (HO : ordinal_bijection O n).

  Lemma zip_law S (m : OrdinalTotalArrayMap S V) (m' : OrdinalTotalArrayMap S W) :
    atotal_reachable O m -> atotal_reachable O m' ->
    exists z, returned (OrdinalTotalArrayMap_zip m m') = Val z /\
      forall k, OrdinalTotalArrayMap_get O z k =
        (v <- OrdinalTotalArrayMap_get O m k ;; w <- OrdinalTotalArrayMap_get O m' k ;; Val (v, w)).
  Proof.
    intros H H'. destruct (keys_exist HO) as (ks & He).
    destruct (atotal_reach HO He H) as (Hn & f & Em). destruct (atotal_reach HO He H') as (_ & g & Em').
    unfold OrdinalTotalArrayMap_zip. rewrite Em, Em'.
    match goal with |- context [array_from_iter S ?nx ?c ?i0 tt] =>
      destruct (@from_iter_calls (V * W) _ _ _ S nx c i0 (map (fun k => (f k, g k)) ks) tt) as [_ G] end.
    - clear. induction ks as [|k ks IH]; [eapply yields_nil; reflexivity|]. cbn [map]. eapply yields_cons; [reflexivity|exact IH].
    - rewrite map_length. pose proof (ks_len HO He) as L. unfold llen in L. lia.
    - rewrite (calls_ok_pure (fun p => p)) in G. cbn [snd] in G. rewrite map_id in G. apply bind_inv in G. destruct G as (z & G1 & G2).
      exists z. split; [exact G1|]. intros k.
      assert (Ez : arr_list z = map (fun k => (f k, g k)) ks) by congruence.
      rewrite (aget HO He Em), (aget HO He Em'), (aget HO He Ez). reflexivity.
  Qed.
End Zip.

Lemma from_array_refuted :
  exists (K : Type) (O : Ordinal K) (S : nat) (array m : arr N S) (k : K),
    (forall cfg : Config, lawful O 2) /\ OrdinalTotalArrayMap_from_array array = Val m /\
    OrdinalTotalArrayMap_len m <> 2 /\ OrdinalTotalArrayMap_get O m k = Panic PIndex.
Proof.
  exists bool, Ordinal_bool, 1%nat, (@mk_arr N 1 [4] eq_refl), (@mk_arr N 1 [4] eq_refl), true.
  split; [intros cfg; apply bool_lawful|]. split; [reflexivity|]. split; [discriminate|reflexivity].
Qed.

Lemma into_iter_array_refuted :
  exists (K : Type) (O : Ordinal K) (S : nat) (m : OrdinalTotalArrayMap S N),
    (forall cfg : Config, lawful O 3 /\ atotal_reachable O m) /\
    ~ hint_exact (TIntoIterArray_size_hint (OrdinalTotalArrayMap_into_iter m))
                 (TIntoIterArray_len (OrdinalTotalArrayMap_into_iter m)).
Proof.
  exists comparison, Ordinal_Ordering, 3%nat, (@mk_arr N 3 [3; 5; 7] eq_refl). split.
  - intros cfg. split; [apply Ordering_lawful|]. eexists. exists []. eexists. split; [|reflexivity]. right. eexists. split; reflexivity.
  - discriminate.
Qed.
