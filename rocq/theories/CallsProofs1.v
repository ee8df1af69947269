(** * CallsProofs1: with user code that is a pair of functions the dialogues of ModelCalls are the
    functions of the other model files. *)
From Verif Require Import Base Spec SpecMap SpecTotal SpecSet SpecAtomic ModelOrdinal ModelValues ModelArrayBuilder
  ModelIter ModelTotal ModelMap ModelSet ModelAtomic MapMachine TotalMachine SetMachine ModelCalls.
From Coq Require Import List Lia. Import ListNotations.
Set Implicit Arguments. Unset Strict Implicit.

Section Run.
  Context {K C : Type} {R : C -> Type} {U : Type} (w : world K C R U).

  Lemma run_bind A B (p : prog K C R A) (k : A -> prog K C R B) u :
    run w u (pbind p k) =
    let '(u1, l1, r) := run w u p in
    match r with
    | Val a => let '(u2, l2, x) := run w u1 (k a) in (u2, l1 ++ l2, x)
    | Panic e => (u1, l1, Panic e)
    | NoCompile => (u1, l1, NoCompile)
    | UB => (u1, l1, UB)
    | OutOfFuel => (u1, l1, OutOfFuel)
    end.
  Proof.
    revert u. induction p as [r|q c IH]; intros u; cbn [pbind run].
    - destruct r; cbn [run]; auto. destruct (run w u (k a)) as [[u2 l2] x]. reflexivity.
    - destruct (w u q) as [u1 r]. rewrite IH. destruct (run w u1 (c r)) as [[u2 l2] x].
      destruct x; auto. destruct (run w u2 (k a)) as [[u3 l3] x]. reflexivity.
  Qed.

  Lemma run_catch A B (p : prog K C R A) (k : res A -> prog K C R B) u :
    run w u (pcatch p k) =
    let '(u1, l1, r) := run w u p in
    let '(u2, l2, x) := run w u1 (k r) in (u2, l1 ++ l2, x).
  Proof.
    revert u. induction p as [r|q c IH]; intros u; cbn [pcatch run].
    - destruct (run w u (k r)) as [[u2 l2] x]. reflexivity.
    - destruct (w u q) as [u1 r]. rewrite IH. destruct (run w u1 (c r)) as [[u2 l2] x].
      destruct (run w u2 (k x)) as [[u3 l3] y]. reflexivity.
  Qed.
End Run.

Section Pure.
  Context {K C : Type} {R : C -> Type} {St : Type} (O : Ordinal K) (f : St -> forall c, St * res (R c)).

  (** Running [p] with the impl [O] takes the closure from [st] to [st'] and gives [r]. *)
  Definition evals {A} (st : St) (p : prog K C R A) (st' : St) (r : res A) : Prop :=
    exists l, run (mixed O f) st p = (st', l, r).

  (** The closure is not called. *)
  Definition is {A} (p : prog K C R A) (r : res A) : Prop := forall st, evals st p st r.

  Lemma is_done A (r : res A) : is (Done r) r.
  Proof. intros st. exists []. reflexivity. Qed.
  Lemma is_ordinal k : is (ask_ordinal k) (ordinal O k).
  Proof. intros st. eexists. reflexivity. Qed.
  Lemma is_from i : is (ask_from i) (from_ordinal O i).
  Proof. intros st. eexists. reflexivity. Qed.
  Lemma evals_bind A B (p : prog K C R A) (k : A -> prog K C R B) st st1 st2 r x :
    evals st p st1 (Val r) -> evals st1 (k r) st2 x -> evals st (pbind p k) st2 x.
  Proof.
    intros (l1 & E1) (l2 & E2). unfold evals. rewrite run_bind, E1. rewrite E2. eexists. reflexivity.
  Qed.
  Lemma is_bind A B (p : prog K C R A) (k : A -> prog K C R B) r g :
    is p r -> (forall a, is (k a) (g a)) -> is (pbind p k) (bind r g).
  Proof.
    intros Hp Hk st. destruct (Hp st) as (l1 & E1). unfold evals. rewrite run_bind, E1.
    destruct r; cbn [bind]; try (eexists; reflexivity).
    destruct (Hk a st) as (l2 & E2). rewrite E2. eexists. reflexivity.
  Qed.
  Lemma is_done_bind A B (r : res A) (k : A -> prog K C R B) g :
    (forall a, is (k a) (g a)) -> is (pbind (Done r) k) (bind r g).
  Proof. intros H. apply is_bind; [apply is_done|exact H]. Qed.
End Pure.

Ltac pure :=
  repeat match goal with
  | |- is _ _ (pbind _ _) (bind _ _) => apply is_bind; [|intros ?]
  | |- is _ _ (Done _) _ => apply is_done
  | |- is _ _ (ask_ordinal _) _ => apply is_ordinal
  | |- is _ _ (ask_from _) _ => apply is_from
  | |- is _ _ (let '(_, _) := ?p in _) _ => destruct p; cbv beta iota
  | |- is _ _ (match ?p with _ => _ end) _ => destruct p; cbv beta iota
  | |- forall _, _ => intros
  end.

Section Faithful.
  Context {cfg : Config} {K C : Type} {R : C -> Type} {St : Type} (O : Ordinal K) (f : St -> forall c, St * res (R c)).
  Local Notation size := (ORDINAL_SIZE O).
  Local Notation is p r := (is O f p r).

  Lemma is_drive S A (step : dir -> S -> prog K C R (option A * S)) step' sched s :
    (forall d s, is (step d s) (step' d s)) -> is (drive_p step sched s) (drive step' sched s).
  Proof.
    intros H. revert s. induction sched as [|d sched IH]; intros s; cbn [drive_p drive]; pure; auto.
  Qed.
  Lemma is_collect S A (next : S -> prog K C R (option A * S)) next' fuel s :
    (forall s, is (next s) (next' s)) -> is (collect_p next fuel s) (collect next' fuel s).
  Proof.
    intros H. revert s. induction fuel as [|n IH]; intros s; cbn [collect_p collect]; pure; auto.
  Qed.

  Lemma is_values d s : is (values_step_p d s) (values_step O d s).
  Proof. destruct d; unfold values_step_p, values_step, values_next, values_next_back; pure. Qed.
  Lemma is_enumerate A d (s : enumerate A) : is (enumerate_step_p d s) (enumerate_step O d s).
  Proof.
    destruct d; unfold enumerate_step_p, enumerate_step, enumerate_next_p, enumerate_next, enumerate_next_back_p, enumerate_next_back; pure.
  Qed.
  Lemma is_sparse A B d (sel : A -> res (option B)) n s :
    is (sparse_loop_p d sel n s) (sparse_loop (enumerate_step O d) sel n s).
  Proof.
    revert s. induction n as [|n IH]; intros s; cbn [sparse_loop_p sparse_loop]; pure; auto. apply is_enumerate.
  Qed.
  Lemma is_iter V d (s : @Iter V) : is (Iter_step_p d s) (Iter_step O d s).
  Proof. apply is_sparse. Qed.
  Lemma is_iter_mut V (m : list (option V)) d s : is (IterMut_step_p m d s) (IterMut_step O m d s).
  Proof. apply is_sparse. Qed.
  Lemma is_count_loop V n (s : @Iter V) c : is (Iter_count_loop_p n s c) (Iter_count_loop O n s c).
  Proof.
    revert s c. induction n as [|n IH]; intros s c; cbn [Iter_count_loop_p Iter_count_loop]; pure; auto. apply is_iter.
  Qed.
  Lemma is_count V (s : @Iter V) : is (Iter_count_p s) (Iter_count O s).
  Proof. apply is_count_loop. Qed.
  Lemma is_keys V d (s : @Keys V) : is (Keys_step_p d s) (Keys_step O d s).
  Proof. unfold Keys_step_p, Keys_step. pure. apply is_iter. Qed.
  Lemma is_vals V d (s : @Values V) : is (Values_step_p d s) (Values_step O d s).
  Proof. unfold Values_step_p, Values_step. pure. apply is_iter. Qed.
  Lemma is_vals_mut V (m : list (option V)) d s : is (ValuesMut_step_p m d s) (ValuesMut_step O m d s).
  Proof. unfold ValuesMut_step_p, ValuesMut_step. pure. apply is_iter_mut. Qed.
  Lemma is_drain_loop V d n (s : @Drain V) : is (Drain_loop_p d n s) (Drain_loop O d n s).
  Proof.
    revert s. induction n as [|n IH]; intros [st it]; cbn [Drain_loop_p Drain_loop]; pure; auto. apply is_enumerate.
  Qed.
  Lemma is_drain V d (s : @Drain V) : is (Drain_step_p d s) (Drain_step O d s).
  Proof. apply is_drain_loop. Qed.
  Lemma is_drain_drop V (s : @Drain V) : is (Drain_drop_p s) (Drain_drop O s).
  Proof. unfold Drain_drop_p, Drain_drop. pure. apply is_collect. intros. apply is_drain. Qed.

  Ltac steps := pure; auto; try (apply is_drive; intros; auto using is_values, is_enumerate, is_iter, is_iter_mut, is_keys, is_vals, is_vals_mut, is_drain);
    try (apply is_collect; intros; auto using is_values, is_enumerate, is_iter); auto using is_count, is_iter, is_drain_drop;
    try apply is_enumerate.

  Lemma is_map_step V op (m : @OrdinalMap V) : is (heap_step_p size op m) (heap_step O op m).
  Proof.
    destruct op; cbn [heap_step_p heap_step];
      unfold OrdinalMap_insert_p, OrdinalMap_insert, OrdinalMap_get_p, OrdinalMap_get, OrdinalMap_get_mut_p, OrdinalMap_get_mut,
        OrdinalMap_contains_key_p, OrdinalMap_contains_key, OrdinalMap_remove_p, OrdinalMap_remove, OrdinalMap_len_p, OrdinalMap_len,
        OrdinalMap_is_empty_p, OrdinalMap_is_empty, OrdinalMap_clear_p, OrdinalMap_clear, OrdinalMap_entry_p, OrdinalMap_entry,
        OrdinalMap_debug_p, OrdinalMap_debug; steps.
  Qed.

  Lemma is_total_step V op (m : @OrdinalTotalMap V) : is (htotal_step_p size op m) (htotal_step O op m).
  Proof.
    destruct op; cbn [htotal_step_p htotal_step];
      unfold OrdinalTotalMap_get_p, OrdinalTotalMap_get_mut_p, OrdinalTotalMap_index, OrdinalTotalMap_get, OrdinalTotalMap_index_mut,
        OrdinalTotalMap_get_mut, OrdinalTotalMap_insert_p, OrdinalTotalMap_insert, OrdinalTotalMap_debug_p, OrdinalTotalMap_debug,
        OrdinalTotalMap_keys, OrdinalTotalMap_len, OrdinalTotalMap_is_empty; steps.
  Qed.

  Lemma is_array_total_step S V op (m : OrdinalTotalArrayMap S V) : is (atotal_step_p size op m) (atotal_step O op m).
  Proof.
    destruct op; cbn [atotal_step_p atotal_step];
      unfold OrdinalTotalArrayMap_get_p, OrdinalTotalArrayMap_get_mut_p, OrdinalTotalArrayMap_index, OrdinalTotalArrayMap_get,
        OrdinalTotalArrayMap_index_mut, OrdinalTotalArrayMap_get_mut, OrdinalTotalArrayMap_insert_p, OrdinalTotalArrayMap_insert,
        OrdinalTotalArrayMap_debug_p, OrdinalTotalArrayMap_debug, OrdinalTotalArrayMap_keys; steps.
  Qed.

  Lemma is_retain_pure V (g : K -> V -> V * bool) n (m : list (option V)) it :
    is (retain_pure_loop_p g n m it)
       (let '(_, st, r) := OrdinalArrayMap_retain_loop O (pure_retain g) n m it tt in r ;;; Val st).
  Proof.
    revert m it. induction n as [|n IH]; intros m it; cbn [retain_pure_loop_p OrdinalArrayMap_retain_loop bind]; [apply is_done|].
    intros st. unfold evals. rewrite run_bind. unfold TIterMut_step in *.
    destruct (is_enumerate Front it st) as (l1 & E1). rewrite E1.
    destruct (enumerate_step O Front it) as [[[[k i]|] it']| | | |]; cbn [bind]; try (eexists; reflexivity).
    cbn [pbind]. destruct (deref m i) as [[v|]| | | |] eqn:D; cbn [bind]; try (eexists; reflexivity);
      try (unfold deref in D; destruct (slice_get m i); discriminate).
    - unfold pure_retain at 1. destruct (g k v) as [v' [|]]; cbv beta iota zeta;
        (edestruct IH as (l2 & E2); rewrite E2; eexists; reflexivity).
    - edestruct IH as (l2 & E2). rewrite E2. eexists. reflexivity.
  Qed.

  Lemma is_array_step S V op (m : @OrdinalArrayMap V S) : is (array_step_p op m) (array_step O op m).
  Proof.
    destruct op; cbn [array_step_p array_step];
      unfold OrdinalArrayMap_insert_p, OrdinalArrayMap_insert, OrdinalArrayMap_get_p, OrdinalArrayMap_get, OrdinalArrayMap_get_mut_p,
        OrdinalArrayMap_get_mut, OrdinalArrayMap_contains_key_p, OrdinalArrayMap_contains_key, OrdinalArrayMap_remove_p,
        OrdinalArrayMap_remove, OrdinalArrayMap_len_p, OrdinalArrayMap_len,
        OrdinalArrayMap_is_empty_p, OrdinalArrayMap_is_empty, OrdinalArrayMap_clear_p, OrdinalArrayMap_clear, OrdinalArrayMap_entry_p,
        OrdinalArrayMap_entry, OrdinalArrayMap_debug_p, OrdinalArrayMap_debug, OrdinalArrayMap_get_p, OrdinalArrayMap_get,
        OrdinalTotalArrayMap_get_p, OrdinalTotalArrayMap_get_mut_p, OrdinalTotalArrayMap_get, OrdinalTotalArrayMap_get_mut,
        OrdinalTotalArrayMap_index_mut; steps.
    - intros st0. destruct (is_retain_pure f0 (Datatypes.S (length (arr_list m))) (arr_list m) (OrdinalTotalArrayMap_iter_mut m) st0)
        as (l & E).
      unfold evals. rewrite run_bind, E. unfold OrdinalArrayMap_retain.
      destruct (OrdinalArrayMap_retain_loop O (pure_retain f0) _ _ _ tt) as [[u st] r].
      destruct r; cbn [bind]; try (eexists; reflexivity).
  Qed.

  (** The sets. *)
  Lemma is_contains r t : is (OrdinalSetRef_contains_p r t) (OrdinalSetRef_contains O r t).
  Proof. unfold OrdinalSetRef_contains_p, OrdinalSetRef_contains. pure. Qed.
  Lemma is_set_loop d set n it : is (set_loop_p d set n it) (set_loop O (values_step O d) set n it).
  Proof.
    revert it. induction n as [|n IH]; intros it; cbn [set_loop_p set_loop]; pure; auto using is_values, is_contains.
  Qed.
  Lemma is_set_iter d s : is (SetIter_step_p d s) (SetIter_step O d s).
  Proof. unfold SetIter_step_p, SetIter_step. pure. apply is_set_loop. Qed.
  Lemma is_ref_debug r : is (OrdinalSetRef_debug_p size r) (OrdinalSetRef_debug O r).
  Proof.
    unfold OrdinalSetRef_debug_p, OrdinalSetRef_debug. pure. apply is_collect. intros. apply is_set_iter.
  Qed.
  Lemma is_mut_insert ws t : is (OrdinalSetMut_insert_p size ws t) (OrdinalSetMut_insert O ws t).
  Proof. unfold OrdinalSetMut_insert_p, OrdinalSetMut_insert. pure. apply is_contains. Qed.
  Lemma is_set_insert s t : is (OrdinalSet_insert_p size s t) (OrdinalSet_insert O s t).
  Proof.
    unfold OrdinalSet_insert_p, OrdinalSet_insert. apply is_bind; [apply is_done|]. intros [|]; destruct s as [w|ws]; cbv beta iota; pure;
      apply is_mut_insert.
  Qed.
  Lemma is_set_insert_all l s : is (OrdinalSet_insert_all_p size l s) (OrdinalSet_insert_all O l s).
  Proof.
    revert s. induction l as [|t l IH]; intros s; cbn [OrdinalSet_insert_all_p OrdinalSet_insert_all]; pure; auto. apply is_set_insert.
  Qed.
  Lemma is_set_step op s : is (set_step_p size op s) (set_step O op s).
  Proof.
    destruct op; cbn [set_step_p set_step]; pure; auto using is_set_insert.
    - unfold OrdinalSet_contains_p, OrdinalSet_contains. pure. apply is_contains.
    - apply is_drive. intros. apply is_set_iter.
    - unfold OrdinalSet_from_iter_p, OrdinalSet_from_iter. pure. apply is_set_insert_all.
    - unfold OrdinalSet_debug. pure. apply is_ref_debug.
  Qed.

  Lemma is_array_set_insert S (s : OrdinalArraySet S) t : is (OrdinalArraySet_insert_p size s t) (OrdinalArraySet_insert O s t).
  Proof. unfold OrdinalArraySet_insert_p, OrdinalArraySet_insert. pure. apply is_mut_insert. Qed.
  Lemma is_array_set_insert_all S l (s : OrdinalArraySet S) :
    is (OrdinalArraySet_insert_all_p size l s) (OrdinalArraySet_insert_all O l s).
  Proof.
    revert s. induction l as [|t l IH]; intros s; cbn [OrdinalArraySet_insert_all_p OrdinalArraySet_insert_all]; pure; auto.
    apply is_array_set_insert.
  Qed.
  Lemma is_array_set_step S op (s : OrdinalArraySet S) : is (array_set_step_p size op s) (array_set_step O op s).
  Proof.
    destruct op; cbn [array_set_step_p array_set_step]; pure; auto using is_array_set_insert.
    - unfold OrdinalArraySet_contains_p, OrdinalArraySet_contains. pure. apply is_contains.
    - unfold OrdinalArraySet_from_iter_p, OrdinalArraySet_from_iter. pure. apply is_array_set_insert_all.
    - unfold OrdinalArraySet_debug. pure. apply is_ref_debug.
  Qed.

  Lemma is_iter64 d s : is (Iter64_step_p d s) (Iter64_step O d s).
  Proof.
    destruct d; unfold Iter64_step_p, Iter64_step, Iter64_next, Iter64_next_back; [|pure].
    cbv zeta. destruct (trailing_zeros s =? 64); pure.
  Qed.
  Lemma is_or_all l s : is (OrdinalSet64_or_all_p l s) (OrdinalSet64_or_all O l s).
  Proof.
    revert s. induction l as [|t l IH]; intros s; cbn [OrdinalSet64_or_all_p OrdinalSet64_or_all]; pure; auto.
  Qed.
  Lemma is_set64_step op s : is (set64_step_p size op s) (set64_step O op s).
  Proof.
    destruct op; cbn [set64_step_p set64_step];
      unfold OrdinalSet64_insert_p, OrdinalSet64_insert, OrdinalSet64_contains_p, OrdinalSet64_contains,
        OrdinalSet64_from_iter_p, OrdinalSet64_from_iter, OrdinalSet64_debug, OrdinalSet64_as_ref; pure; auto using is_or_all, is_ref_debug.
    apply is_drive. intros. apply is_iter64.
  Qed.

  (** AtomicOrdinal. *)
  Lemma is_decode v cell g : is (decode_p v cell g) (Val (t <- decode O v ;; Val (g t), cell)).
  Proof. intros st. eexists. reflexivity. Qed.
  Lemma is_encode t cell k g :
    (forall v, is (k v) (Val (g v))) ->
    is (encode_p t cell k) (Val (match ordinal O t with
                                 | Val v => g v
                                 | Panic w => (Panic w, cell)
                                 | NoCompile => (NoCompile, cell)
                                 | UB => (UB, cell)
                                 | OutOfFuel => (OutOfFuel, cell)
                                 end)).
  Proof.
    intros H st. unfold evals, encode_p. cbn [run mixed]. destruct (ordinal O t); cbn [run]; try (eexists; reflexivity).
    destruct (H a st) as (l & E). rewrite E. eexists. reflexivity.
  Qed.
  Lemma is_call c cell : is (call_alone_p c cell) (Val (call_alone O c cell)).
  Proof.
    assert (L : forall o, is (load_p o cell)
      (Val (let '(r, cell') := sc_apply (RLoad o) cell in
            (x <- r ;; match x with SVal v => t <- decode O v ;; Val (OVal t) | _ => UB end, cell')))).
    { intros o. unfold load_p. destruct (sc_apply (RLoad o) cell) as [r cell'].
      destruct r as [[v| |v|v]| | | |]; cbn [after bind]; try apply is_done. apply is_decode. }
    destruct c as [o|t o|old new s g|]; cbn [call_alone_p].
    - specialize (L o). unfold call_alone. cbn [call_method AtomicOrdinal_load method_map bind].
      destruct (sc_apply (RLoad o) cell) as [r cell']. destruct r as [[v| |v|v]| | | |]; cbn [bind] in *; exact L.
    - unfold call_alone. cbn [call_method AtomicOrdinal_store method_map].
      match goal with |- is (encode_p t cell ?k) _ =>
        pose proof (@is_encode t cell k (fun v => let '(r, cell') := sc_apply (RStore v o) cell in
          (x <- r ;; match x with SUnit => Val OUnit | _ => UB end, cell'))) as E end.
      unfold AtomicOrdinal_store, method_map. destruct (ordinal O t) as [v| | | |]; cbn [bind] in *; try (apply E; clear E; intros v0;
        destruct (sc_apply (RStore v0 o) cell) as [r cell']; destruct r as [[u| |u|u]| | | |]; cbn [after bind]; apply is_done).
      assert (X : forall (A : Type) (a b : A), a = b -> forall p : prog K C R A, is p (Val a) -> is p (Val b)) by (intros; subst; auto).
      eapply X; [|apply E; clear E; intros v0;
        destruct (sc_apply (RStore v0 o) cell) as [r cell']; destruct r as [[u| |u|u]| | | |]; cbn [after bind]; apply is_done].
      destruct (sc_apply (RStore v o) cell) as [r cell']; destruct r as [[u| |u|u]| | | |]; reflexivity.
    - unfold call_alone. cbn [call_method]. unfold AtomicOrdinal_compare_exchange, method_map.
      assert (X : forall (A : Type) (a b : A), a = b -> forall p : prog K C R A, is p (Val a) -> is p (Val b)) by (intros; subst; auto).
      eapply X; [|apply (@is_encode old cell _ (fun v1 => match ordinal O new with
                                 | Val v2 => let '(r, cell') := sc_apply (RCas v1 v2 s g) cell in
                                    (x <- r ;; match x with SOk v => t <- decode O v ;; Val (OOk t)
                                                        | SErr v => t <- decode O v ;; Val (OErr t) | _ => UB end, cell')
                                 | Panic w => (Panic w, cell)
                                 | NoCompile => (NoCompile, cell)
                                 | UB => (UB, cell)
                                 | OutOfFuel => (OutOfFuel, cell)
                                 end))].
      + destruct (ordinal O old) as [v1| | | |]; cbn [bind]; try reflexivity.
        destruct (ordinal O new) as [v2| | | |]; cbn [bind]; try reflexivity.
        destruct (sc_apply (RCas v1 v2 s g) cell) as [r cell']. destruct r as [[u| |u|u]| | | |]; cbn [bind]; try reflexivity;
          destruct (decode O u); reflexivity.
      + intros v1. apply (@is_encode new cell _ (fun v2 => let '(r, cell') := sc_apply (RCas v1 v2 s g) cell in
                                    (x <- r ;; match x with SOk v => t <- decode O v ;; Val (OOk t)
                                                        | SErr v => t <- decode O v ;; Val (OErr t) | _ => UB end, cell'))).
        intros v2. destruct (sc_apply (RCas v1 v2 s g) cell) as [r cell'].
        destruct r as [[u| |u|u]| | | |]; cbn [after bind]; try apply is_done; apply is_decode.
    - specialize (L Relaxed). unfold call_alone. cbn [call_method AtomicOrdinal_fmt AtomicOrdinal_load method_map bind].
      destruct (sc_apply (RLoad Relaxed) cell) as [r cell']. destruct r as [[v| |v|v]| | | |]; cbn [bind] in *; exact L.
  Qed.

  (** The array impl. *)
  Lemma is_array_ordinal_loop n l r : is (array_ordinal_loop_p n l r) (array_ordinal_loop O n l r).
  Proof.
    revert r. induction l as [|v l IH]; intros r; cbn [array_ordinal_loop_p array_ordinal_loop]; pure; auto.
  Qed.
  Lemma is_array_ordinal len (a : arr K len) : is (array_ordinal_p size a) (ordinal (Ordinal_array O len) a).
  Proof. unfold array_ordinal_p. cbn [ordinal Ordinal_array]. pure. apply is_array_ordinal_loop. Qed.
  Lemma is_array_from_loop len n turns i b :
    is (array_from_loop_p len n turns i b) (Val (array_from_loop O len n turns i b)).
  Proof.
    revert i b. induction turns as [|turns IH]; intros i b; cbn [array_from_loop_p array_from_loop]; [apply is_done|].
    destruct (checked_rem i n) as [j|]; [|apply is_done].
    intros st. unfold evals. cbn [run mixed].
    destruct (from_ordinal O j) as [[v|]| | | |]; cbn [bind unwrap run]; try (eexists; reflexivity).
    destruct (builder_push len b v) as [b'| | | |]; cbn [run]; try (eexists; reflexivity).
    destruct (udiv i n) as [i'| | | |]; cbn [run]; try (eexists; reflexivity).
    destruct (IH i' b' st) as (l & E). rewrite E. eexists. reflexivity.
  Qed.
  Lemma is_array_from len i : is (array_from_ordinal_p size len i) (Val (array_from_ordinal O len i)).
  Proof.
    unfold array_from_ordinal_p, array_from_ordinal. destruct (ORDINAL_SIZE O); try apply is_done. apply is_array_from_loop.
  Qed.
End Faithful.
