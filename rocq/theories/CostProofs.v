(** * CostProofs: the counted functions (ModelCost.v) compute what the model computes, and bounds for
    their steps. *)
From Verif Require Import Base Spec SpecMap SpecTotal SpecIter SpecApi ModelOrdinal ModelValues ModelArrayBuilder ModelIter ModelTotal
  ModelMap ModelSet MapMachine TotalMachine SetMachine ModelCost BaseProofs MapProofs5.
From Coq Require Import List. Import ListNotations.
Set Implicit Arguments. Unset Strict Implicit.

(** ** Counting *)
Lemma outcome_bind A B (x : counted A) (f : A -> counted B) : outcome (cbind x f) = (a <- outcome x ;; outcome (f a)).
Proof. unfold cbind. now destruct (outcome x). Qed.
Lemma outcome_bind_pair A B C (x : counted (A * B)) (f : A -> B -> counted C) :
  outcome ('(a, b) <~ x ;; f a b) = ('(a, b) <- outcome x ;; outcome (f a b)).
Proof. rewrite outcome_bind. destruct (outcome x) as [[a b]| | | |]; reflexivity. Qed.
Lemma outcome_free A (r : res A) : outcome (free r) = r. Proof. reflexivity. Qed.
Lemma outcome_one A (r : res A) : outcome (one r) = r. Proof. reflexivity. Qed.
Lemma bind_congr A B (x : res A) (f g : A -> res B) : (forall a, f a = g a) -> bind x f = bind x g.
Proof. intros H. destruct x; cbn; auto. Qed.
Lemma bind_bind A B C (x : res A) (f : A -> res B) (g : B -> res C) :
  (b <- (a <- x ;; f a) ;; g b) = (a <- x ;; b <- f a ;; g b).
Proof. now destruct x. Qed.
Lemma steps_val A B (x : counted A) (f : A -> counted B) a : outcome x = Val a -> steps (cbind x f) = steps x + steps (f a).
Proof. unfold cbind. intros ->. reflexivity. Qed.
Lemma steps_le A B (x : counted A) (f : A -> counted B) c k :
  steps x <= c -> (forall a, outcome x = Val a -> steps (f a) <= k) -> steps (cbind x f) <= c + k.
Proof. unfold cbind. intros H1 H2. destruct (outcome x) as [a| | | |] eqn:E; cbn [steps fst]; [specialize (H2 a eq_refl)|..]; unfold steps in *; lia. Qed.
Lemma steps_fst_le A B (x : counted A) (f : A -> counted B) : steps x <= steps (cbind x f).
Proof. unfold cbind. destruct (outcome x); cbn [steps fst]; unfold steps; lia. Qed.

(** A call of a primitive. *)
Ltac prim := unfold c_get, c_index, c_deref, c_put, c_fill, c_ordinal, c_from_ordinal, c_arr_store in *.

Section Erase.
  Context {cfg : Config} {K : Type} (O : Ordinal K).

  Ltac er := repeat (first
    [ rewrite outcome_bind_pair | rewrite outcome_bind | rewrite outcome_free | rewrite outcome_one | rewrite bind_bind ]);
    cbn [bind outcome snd].
  Ltac step1 := first [reflexivity | apply bind_congr; intros ?; er].

  Lemma e_enumerate A d (s : enumerate A) : outcome (c_enumerate_step O d s) = enumerate_step O d s.
  Proof.
    destruct d; cbn [enumerate_step c_enumerate_step]; prim; er; unfold enumerate_next, enumerate_next_back.
    - destruct (pop_front (e_items s)) as [[v rest]|]; [|reflexivity]. er. reflexivity.
    - destruct (pop_back (e_items s)) as [[v rest]|]; [|reflexivity]. er. repeat step1.
  Qed.
  Lemma e_sparse A B (sel : A -> res (option B)) d fuel : forall s : enumerate A,
    outcome (c_sparse_loop O sel d fuel s) = sparse_loop (enumerate_step O d) sel fuel s.
  Proof.
    induction fuel as [|fuel IH]; intros s; [reflexivity|]. cbn [c_sparse_loop sparse_loop].
    rewrite outcome_bind_pair, e_enumerate. apply bind_congr. intros [o s']. destruct o as [[k a]|]; [|reflexivity].
    rewrite outcome_bind, outcome_one. apply bind_congr; intros b. destruct b; [reflexivity|apply IH].
  Qed.
  Lemma e_Iter_step V d (s : @Iter V) : outcome (c_Iter_step O d s) = Iter_step O d s.
  Proof. apply e_sparse. Qed.
  Lemma e_IterMut_step V (st : list (option V)) d s : outcome (c_IterMut_step O st d s) = IterMut_step O st d s.
  Proof. apply e_sparse. Qed.
  Lemma e_Keys_step V d (s : @Keys V) : outcome (c_Keys_step O d s) = Keys_step O d s.
  Proof. unfold c_Keys_step, Keys_step. rewrite outcome_bind_pair, e_Iter_step. reflexivity. Qed.
  Lemma e_Values_step V d (s : @Values V) : outcome (c_Values_step O d s) = Values_step O d s.
  Proof. unfold c_Values_step, Values_step. rewrite outcome_bind_pair, e_Iter_step. reflexivity. Qed.
  Lemma e_ValuesMut_step V (st : list (option V)) d s : outcome (c_ValuesMut_step O st d s) = ValuesMut_step O st d s.
  Proof. unfold c_ValuesMut_step, ValuesMut_step. rewrite outcome_bind_pair, e_IterMut_step. reflexivity. Qed.
  Lemma e_count_loop V fuel : forall (s : @Iter V) c, outcome (c_Iter_count_loop O fuel s c) = Iter_count_loop O fuel s c.
  Proof.
    induction fuel as [|fuel IH]; intros s c; [reflexivity|]. cbn [c_Iter_count_loop Iter_count_loop].
    rewrite outcome_bind_pair, e_Iter_step. apply bind_congr. intros [o s']. destruct o; [|reflexivity]. er.
    apply bind_congr. intros c'. apply IH.
  Qed.
  Lemma e_Drain_loop V d fuel : forall s : @Drain V, outcome (c_Drain_loop O d fuel s) = Drain_loop O d fuel s.
  Proof.
    induction fuel as [|fuel IH]; intros [st it]; [reflexivity|]. cbn [c_Drain_loop Drain_loop fst snd].
    rewrite outcome_bind_pair, e_enumerate. apply bind_congr. intros [o s']. destruct o as [[k a]|]; [|reflexivity].
    prim. er. apply bind_congr. intros v. er. destruct v; [reflexivity|apply IH].
  Qed.
  Lemma e_drive St A (cstep : dir -> St -> counted (option A * St)) step :
    (forall d s, outcome (cstep d s) = step d s) -> forall sched s, outcome (c_drive cstep sched s) = drive step sched s.
  Proof.
    intros H. induction sched as [|d sched IH]; intros s; [reflexivity|]. cbn [c_drive drive].
    rewrite outcome_bind_pair, H. apply bind_congr. intros [o s']. rewrite outcome_bind_pair, IH. reflexivity.
  Qed.
  Lemma e_collect St A (cstep : St -> counted (option A * St)) step :
    (forall s, outcome (cstep s) = step s) -> forall fuel s, outcome (c_collect cstep fuel s) = collect step fuel s.
  Proof.
    intros H. induction fuel as [|fuel IH]; intros s; [reflexivity|]. cbn [c_collect collect].
    rewrite outcome_bind_pair, H. apply bind_congr. intros [o s']. destruct o; [|reflexivity].
    rewrite outcome_bind_pair, IH. reflexivity.
  Qed.
  Lemma e_Drain_drop V (s : @Drain V) : outcome (c_Drain_drop O s) = Drain_drop O s.
  Proof. unfold c_Drain_drop, Drain_drop. rewrite outcome_bind_pair. rewrite (@e_collect _ _ _ (Drain_step O Front)); [reflexivity|]. intros s0. apply e_Drain_loop. Qed.
  Ltac go := repeat first
    [ reflexivity
    | rewrite outcome_bind_pair | rewrite outcome_bind | rewrite outcome_free | rewrite outcome_one | rewrite bind_bind
    | progress cbn [bind outcome snd fst]
    | apply bind_congr; intros ?
    | match goal with |- context [match ?x with _ => _ end] => destruct x end ].

  Lemma e_OccupiedEntry_get V (st : list (option V)) (e : OccupiedEntry K) : outcome (c_OccupiedEntry_get st e) = OccupiedEntry_get st e.
  Proof. unfold c_OccupiedEntry_get, OccupiedEntry_get. prim. go. Qed.
  Lemma e_OccupiedEntry_get_mut V (st : list (option V)) (e : OccupiedEntry K) : outcome (c_OccupiedEntry_get_mut st e) = OccupiedEntry_get_mut st e.
  Proof. unfold c_OccupiedEntry_get_mut, OccupiedEntry_get_mut. prim. go. Qed.
  Lemma e_VacantEntry_insert V (st : list (option V)) (e : VacantEntry K) v : outcome (c_VacantEntry_insert st e v) = VacantEntry_insert st e v.
  Proof. unfold c_VacantEntry_insert, VacantEntry_insert. prim. go. Qed.
  Lemma e_Entry_new V (st : list (option V)) (k : K) i : outcome (c_Entry_new st k i) = Entry_new st k i.
  Proof. unfold c_Entry_new, Entry_new. prim. go. Qed.
  Lemma e_Entry_or_insert V (st : list (option V)) (e : Entry K) v : outcome (c_Entry_or_insert st e v) = Entry_or_insert st e v.
  Proof. unfold c_Entry_or_insert, Entry_or_insert. prim. go. Qed.
  Lemma e_OrdinalMap_get V (m : @OrdinalMap V) k : outcome (c_OrdinalMap_get O m k) = OrdinalMap_get O m k.
  Proof. unfold c_OrdinalMap_get, OrdinalMap_get. prim. go. Qed.
  Lemma e_OrdinalMap_get_mut V (m : @OrdinalMap V) k : outcome (c_OrdinalMap_get_mut O m k) = OrdinalMap_get_mut O m k.
  Proof. unfold c_OrdinalMap_get_mut, OrdinalMap_get_mut. prim. go. Qed.
  Lemma e_OrdinalMap_contains_key V (m : @OrdinalMap V) k : outcome (c_OrdinalMap_contains_key O m k) = OrdinalMap_contains_key O m k.
  Proof. unfold c_OrdinalMap_contains_key, OrdinalMap_contains_key. prim. go. Qed.
  Lemma e_OrdinalMap_remove V (m : @OrdinalMap V) k : outcome (c_OrdinalMap_remove O m k) = OrdinalMap_remove O m k.
  Proof. unfold c_OrdinalMap_remove, OrdinalMap_remove. prim. go. Qed.
  Lemma e_Iter_count V (s : @Iter V) : outcome (c_Iter_count O s) = Iter_count O s.
  Proof. apply e_count_loop. Qed.
  Lemma e_OrdinalMap_len V (m : @OrdinalMap V)  : outcome (c_OrdinalMap_len O m) = OrdinalMap_len O m.
  Proof. apply e_Iter_count. Qed.
  Lemma e_OrdinalMap_is_empty V (m : @OrdinalMap V)  : outcome (c_OrdinalMap_is_empty O m) = OrdinalMap_is_empty O m.
  Proof. unfold c_OrdinalMap_is_empty, OrdinalMap_is_empty. rewrite outcome_bind_pair, e_Iter_step. go. Qed.
  Lemma e_OrdinalMap_clear V (m : @OrdinalMap V)  : outcome (c_OrdinalMap_clear O m) = OrdinalMap_clear O m.
  Proof. unfold c_OrdinalMap_clear, OrdinalMap_clear. rewrite outcome_bind_pair, e_Drain_drop. go. Qed.
  Lemma e_OrdinalMap_init_full_map V (m : @OrdinalMap V)  : outcome (c_OrdinalMap_init_full_map O m) = OrdinalMap_init_full_map O m.
  Proof. unfold c_OrdinalMap_init_full_map, OrdinalMap_init_full_map. prim. go. Qed.
  Lemma e_OrdinalMap_insert V (m : @OrdinalMap V) k v : outcome (c_OrdinalMap_insert O m k v) = OrdinalMap_insert O m k v.
  Proof. unfold c_OrdinalMap_insert, OrdinalMap_insert. rewrite outcome_bind, e_OrdinalMap_init_full_map. prim. go. Qed.
  Lemma e_OrdinalMap_entry V (m : @OrdinalMap V) k : outcome (c_OrdinalMap_entry O m k) = OrdinalMap_entry O m k.
  Proof. unfold c_OrdinalMap_entry, OrdinalMap_entry. rewrite outcome_bind, e_OrdinalMap_init_full_map. apply bind_congr; intros m'. unfold c_ordinal. rewrite outcome_bind. apply bind_congr; intros i.
    rewrite outcome_bind. apply bind_congr; intros entry. rewrite outcome_bind, e_Entry_new. go. Qed.
  Lemma e_entry_match V (st : list (option V)) (e : Entry K) v w : outcome (c_entry_match st e v w) = entry_match st e v w.
  Proof. unfold c_entry_match, entry_match. destruct e as [e|e].
    - rewrite outcome_bind, e_OccupiedEntry_get. apply bind_congr; intros old. rewrite outcome_bind, e_OccupiedEntry_get_mut. go.
    - rewrite outcome_bind, e_VacantEntry_insert. go. Qed.
  Lemma e_entry_or_insert V (st : list (option V)) (e : Entry K) v w : outcome (c_entry_or_insert st e v w) = entry_or_insert st e v w.
  Proof. unfold c_entry_or_insert, entry_or_insert. rewrite outcome_bind_pair, e_Entry_or_insert. prim. go. Qed.
  Lemma e_heap_step V (op : map_op K V) m : outcome (c_heap_step O op m) = heap_step O op m.
  Proof. destruct op; try reflexivity; cbn [c_heap_step heap_step].
    - rewrite outcome_bind_pair, e_OrdinalMap_insert. go.
    - rewrite outcome_bind, e_OrdinalMap_get. go.
    - rewrite outcome_bind, e_OrdinalMap_get_mut. apply bind_congr; intros r. destruct r; prim; go.
    - rewrite outcome_bind, e_OrdinalMap_contains_key. go.
    - rewrite outcome_bind_pair, e_OrdinalMap_remove. go.
    - rewrite outcome_bind, e_OrdinalMap_len. go.
    - rewrite outcome_bind, e_OrdinalMap_is_empty. go.
    - rewrite outcome_bind, e_OrdinalMap_clear. go.
    - rewrite outcome_bind_pair, e_OrdinalMap_entry. go.
    - rewrite outcome_bind_pair, e_OrdinalMap_entry. apply bind_congr; intros [e m']. apply e_entry_match.
    - rewrite outcome_bind_pair, e_OrdinalMap_entry. apply bind_congr; intros [e m']. apply e_entry_or_insert. Qed.
  Lemma e_heap_run V (ops : list (map_op K V)) : forall m, outcome (c_heap_run O ops m) = heap_run O ops m.
  Proof.
    induction ops as [|op ops IH]; intros m; [reflexivity|]. cbn [c_heap_run heap_run]. rewrite outcome_bind_pair, e_heap_step.
    apply bind_congr; intros [o m']. rewrite outcome_bind_pair, IH. reflexivity.
  Qed.
  Lemma e_OrdinalTotalMap_get V (m : @OrdinalTotalMap V) k : outcome (c_OrdinalTotalMap_get O m k) = OrdinalTotalMap_get O m k.
  Proof. unfold c_OrdinalTotalMap_get, OrdinalTotalMap_get. prim. go. Qed.
  Lemma e_OrdinalTotalMap_get_mut V (m : @OrdinalTotalMap V) k : outcome (c_OrdinalTotalMap_get_mut O m k) = OrdinalTotalMap_get_mut O m k.
  Proof. unfold c_OrdinalTotalMap_get_mut, OrdinalTotalMap_get_mut. prim. go. Qed.
  Lemma e_OrdinalTotalMap_insert V (m : @OrdinalTotalMap V) k v : outcome (c_OrdinalTotalMap_insert O m k v) = OrdinalTotalMap_insert O m k v.
  Proof. unfold c_OrdinalTotalMap_insert, OrdinalTotalMap_insert. prim. go. Qed.
  Lemma e_OrdinalTotalArrayMap_get V S (m : OrdinalTotalArrayMap S V) k : outcome (c_OrdinalTotalArrayMap_get O m k) = OrdinalTotalArrayMap_get O m k.
  Proof. unfold c_OrdinalTotalArrayMap_get, OrdinalTotalArrayMap_get. prim. go. Qed.
  Lemma e_OrdinalTotalArrayMap_get_mut V S (m : OrdinalTotalArrayMap S V) k : outcome (c_OrdinalTotalArrayMap_get_mut O m k) = OrdinalTotalArrayMap_get_mut O m k.
  Proof. unfold c_OrdinalTotalArrayMap_get_mut, OrdinalTotalArrayMap_get_mut. prim. go. Qed.
  Lemma e_OrdinalTotalArrayMap_insert V S (m : OrdinalTotalArrayMap S V) k v : outcome (c_OrdinalTotalArrayMap_insert O m k v) = OrdinalTotalArrayMap_insert O m k v.
  Proof. unfold c_OrdinalTotalArrayMap_insert, OrdinalTotalArrayMap_insert. prim. go. Qed.
  Lemma e_OrdinalArrayMap_len V S (m : @OrdinalArrayMap V S)  : outcome (c_OrdinalArrayMap_len O m) = OrdinalArrayMap_len O m.
  Proof. apply e_Iter_count. Qed.
  Lemma e_OrdinalArrayMap_is_empty V S (m : @OrdinalArrayMap V S)  : outcome (c_OrdinalArrayMap_is_empty O m) = OrdinalArrayMap_is_empty O m.
  Proof. unfold c_OrdinalArrayMap_is_empty, OrdinalArrayMap_is_empty. rewrite outcome_bind_pair, e_Iter_step. go. Qed.
  Lemma e_OrdinalArrayMap_get V S (m : @OrdinalArrayMap V S) k : outcome (c_OrdinalArrayMap_get O m k) = OrdinalArrayMap_get O m k.
  Proof. apply e_OrdinalTotalArrayMap_get. Qed.
  Lemma e_OrdinalArrayMap_get_mut V S (m : @OrdinalArrayMap V S) k : outcome (c_OrdinalArrayMap_get_mut O m k) = OrdinalArrayMap_get_mut O m k.
  Proof. unfold c_OrdinalArrayMap_get_mut, OrdinalArrayMap_get_mut. rewrite outcome_bind, e_OrdinalTotalArrayMap_get_mut. prim. go. Qed.
  Lemma e_OrdinalArrayMap_contains_key V S (m : @OrdinalArrayMap V S) k : outcome (c_OrdinalArrayMap_contains_key O m k) = OrdinalArrayMap_contains_key O m k.
  Proof. unfold c_OrdinalArrayMap_contains_key, OrdinalArrayMap_contains_key. rewrite outcome_bind, e_OrdinalArrayMap_get. prim. go. Qed.
  Lemma e_OrdinalArrayMap_insert V S (m : @OrdinalArrayMap V S) k v : outcome (c_OrdinalArrayMap_insert O m k v) = OrdinalArrayMap_insert O m k v.
  Proof. unfold c_OrdinalArrayMap_insert, OrdinalArrayMap_insert. rewrite outcome_bind, e_OrdinalTotalArrayMap_get_mut. prim. go. Qed.
  Lemma e_OrdinalArrayMap_entry V S (m : @OrdinalArrayMap V S) k : outcome (c_OrdinalArrayMap_entry O m k) = OrdinalArrayMap_entry O m k.
  Proof. unfold c_OrdinalArrayMap_entry, OrdinalArrayMap_entry. rewrite outcome_bind, e_OrdinalTotalArrayMap_get_mut. apply bind_congr; intros i. rewrite outcome_bind, e_Entry_new. prim. go. Qed.
  Lemma e_OrdinalArrayMap_remove V S (m : @OrdinalArrayMap V S) k : outcome (c_OrdinalArrayMap_remove O m k) = OrdinalArrayMap_remove O m k.
  Proof. unfold c_OrdinalArrayMap_remove, OrdinalArrayMap_remove. rewrite outcome_bind, e_OrdinalTotalArrayMap_get_mut. prim. go. Qed.
  Lemma e_OrdinalSetRef_contains r t : outcome (c_OrdinalSetRef_contains O r t) = OrdinalSetRef_contains O r t.
  Proof. unfold c_OrdinalSetRef_contains, OrdinalSetRef_contains. prim. go. Qed.
  Lemma e_OrdinalSetMut_insert ws t : outcome (c_OrdinalSetMut_insert O ws t) = OrdinalSetMut_insert O ws t.
  Proof.
    unfold c_OrdinalSetMut_insert, OrdinalSetMut_insert. rewrite outcome_bind, outcome_free. apply bind_congr; intros r.
    rewrite outcome_bind, e_OrdinalSetRef_contains. apply bind_congr; intros prev. prim. go.
  Qed.
  Lemma e_OrdinalSet_contains s t : outcome (c_OrdinalSet_contains O s t) = OrdinalSet_contains O s t.
  Proof. unfold c_OrdinalSet_contains, OrdinalSet_contains. rewrite outcome_bind, outcome_free. apply bind_congr; intros r. apply e_OrdinalSetRef_contains. Qed.
  Lemma e_OrdinalSet_insert s t : outcome (c_OrdinalSet_insert O s t) = OrdinalSet_insert O s t.
  Proof.
    unfold c_OrdinalSet_insert, OrdinalSet_insert. rewrite outcome_bind, outcome_free. apply bind_congr; intros small.
    destruct small, s as [w|ws]; try reflexivity.
    - rewrite outcome_bind, outcome_free. apply bind_congr; intros ws. rewrite outcome_bind_pair, e_OrdinalSetMut_insert. go.
    - assert (X : forall ws', outcome (ws0 <~ free (OrdinalSetMut_new O ws') ;; '(r, ws1) <~ c_OrdinalSetMut_insert O ws0 t ;; free (Val (r, Large ws1)))
          = (ws0 <- OrdinalSetMut_new O ws' ;; '(r, ws1) <- OrdinalSetMut_insert O ws0 t ;; Val (r, Large ws1))).
      { intros ws'. rewrite outcome_bind, outcome_free. apply bind_congr; intros ws0. rewrite outcome_bind_pair, e_OrdinalSetMut_insert. reflexivity. }
      rewrite outcome_bind. destruct (llen ws =? 0).
      + rewrite outcome_bind, outcome_free. cbn [outcome c_fill snd]. rewrite !bind_bind. apply bind_congr; intros size.
        rewrite !bind_bind. apply bind_congr; intros a. rewrite !bind_bind. apply bind_congr; intros b. rewrite !bind_bind. apply bind_congr; intros len.
        apply X.
      + rewrite outcome_free. apply X.
  Qed.
  Lemma e_OrdinalSet_insert_all l : forall s, outcome (c_OrdinalSet_insert_all O l s) = OrdinalSet_insert_all O l s.
  Proof.
    induction l as [|t l IH]; intros s; [reflexivity|]. cbn [c_OrdinalSet_insert_all OrdinalSet_insert_all].
    rewrite outcome_bind_pair, e_OrdinalSet_insert. apply bind_congr; intros [b s']. apply IH.
  Qed.
  Lemma e_OrdinalSet_from_iter l : outcome (c_OrdinalSet_from_iter O l) = OrdinalSet_from_iter O l.
  Proof. unfold c_OrdinalSet_from_iter, OrdinalSet_from_iter. rewrite outcome_bind, outcome_free. apply bind_congr; intros s. apply e_OrdinalSet_insert_all. Qed.
  Lemma e_OrdinalArraySet_contains S (s : OrdinalArraySet S) t : outcome (c_OrdinalArraySet_contains O s t) = OrdinalArraySet_contains O s t.
  Proof. unfold c_OrdinalArraySet_contains, OrdinalArraySet_contains. rewrite outcome_bind, outcome_free. apply bind_congr; intros r. apply e_OrdinalSetRef_contains. Qed.
  Lemma e_OrdinalArraySet_insert S (s : OrdinalArraySet S) t : outcome (c_OrdinalArraySet_insert O s t) = OrdinalArraySet_insert O s t.
  Proof.
    unfold c_OrdinalArraySet_insert, OrdinalArraySet_insert. rewrite outcome_bind, outcome_free, bind_bind. apply bind_congr; intros u. apply bind_congr; intros ws.
    rewrite outcome_bind_pair, e_OrdinalSetMut_insert. go.
  Qed.
  Lemma e_values_step d s : outcome (c_values_step O d s) = values_step O d s.
  Proof. unfold c_values_step, values_step, values_next, values_next_back. prim. destruct d; go. Qed.
  Lemma e_set_loop d set fuel : forall it, outcome (c_set_loop O d set fuel it) = set_loop O (values_step O d) set fuel it.
  Proof.
    induction fuel as [|fuel IH]; intros it; [reflexivity|]. cbn [c_set_loop set_loop]. rewrite outcome_bind_pair, e_values_step.
    apply bind_congr; intros [o it']. destruct o as [t|]; [|reflexivity]. rewrite outcome_bind, e_OrdinalSetRef_contains.
    apply bind_congr; intros b. destruct b; [reflexivity|apply IH].
  Qed.
  Lemma e_SetIter_step d s : outcome (c_SetIter_step O d s) = SetIter_step O d s.
  Proof. unfold c_SetIter_step, SetIter_step. rewrite outcome_bind_pair, e_set_loop. go. Qed.
  Lemma e_OrdinalSet64_contains s t : outcome (c_OrdinalSet64_contains O s t) = OrdinalSet64_contains O s t.
  Proof. unfold c_OrdinalSet64_contains, OrdinalSet64_contains. prim. go. Qed.
  Lemma e_OrdinalSet64_insert s t : outcome (c_OrdinalSet64_insert O s t) = OrdinalSet64_insert O s t.
  Proof.
    unfold c_OrdinalSet64_insert, OrdinalSet64_insert. rewrite outcome_bind, outcome_free. apply bind_congr; intros u.
    rewrite outcome_bind, e_OrdinalSet64_contains. prim. go.
  Qed.
  Lemma e_Iter64_step d s : outcome (c_Iter64_step O d s) = Iter64_step O d s.
  Proof. unfold c_Iter64_step, Iter64_step, Iter64_next, Iter64_next_back. prim. rewrite outcome_bind, outcome_one. cbn [bind]. destruct d.
    - destruct (trailing_zeros s =? 64); go.
    - destruct (checked_sub (64 - 1) (leading_zeros s)); go. Qed.
End Erase.
