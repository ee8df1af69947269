(** * LedgerProofs2: the accounts of single operations. *)
From Verif Require Import Base BaseProofs Spec SpecMem SpecMap SpecTotal SpecCatch SpecResume SpecLedger ModelOrdinal ModelValues
  ModelArrayBuilder ModelIter ModelTotal ModelMap ModelResume ModelUnwind ModelCatch MapMachine TotalMachine
  ResumeProofs UnwindProofs2 CatchProofs5 LedgerProofs.
From Coq Require Import List Lia Permutation. Import ListNotations.
Set Implicit Arguments.
Unset Strict Implicit.

Lemma split_verdicts {V} (r : list (V * bool)) : Permutation (map fst r) (rejected r ++ kept r).
Proof.
  unfold rejected, kept. induction r as [|[v b] r IH]; [apply Permutation_refl|].
  destruct b; cbn [filter snd negb map fst app].
  - eapply Permutation_trans; [apply perm_skip, IH|]. apply Permutation_middle.
  - apply perm_skip, IH.
Qed.
Lemma list_set_mid {A} (a : list A) x y b : list_set (a ++ x :: b) (length a) y = a ++ y :: b.
Proof. induction a as [|z a IH]; cbn; [reflexivity|]. now rewrite IH. Qed.
Lemma nth_mid {A} (a : list A) x b : nth_error (a ++ x :: b) (length a) = Some x.
Proof. induction a; [reflexivity|assumption]. Qed.
Lemma try_arr_list {T} S (l : list T) a : try_arr S l = Some a -> arr_list a = l.
Proof. unfold try_arr. destruct (Sumbool.sumbool_of_bool _); [|discriminate]. intros [= <-]. reflexivity. Qed.

Section Retain.
  Context {cfg : Config} {K V : Type} (O : Ordinal K) (f : K -> V -> V * bool).

  Lemma retain_account fuel : forall (pre rest : list (option V)) nxt u storage r,
    OrdinalArrayMap_retain_loop O (pure_retain f) fuel (pre ++ rest)
      {| e_next := nxt; e_items := map N.of_nat (seq (length pre) (length rest)) |} tt = (u, storage, r) ->
    exists l tail, stored rest = map snd l ++ tail /\ stored storage = stored pre ++ kept (verdicts f l) ++ tail /\
      (r = Val tt -> tail = []).
  Proof.
    induction fuel as [|fuel IH]; intros pre rest nxt u storage r; cbn [OrdinalArrayMap_retain_loop].
    { intros [= <- <- <-]. exists [], (stored rest). rewrite stored_app. repeat split. discriminate. }
    destruct rest as [|x rest]; cbn [length seq map].
    - unfold TIterMut_step, enumerate_step, enumerate_next. cbn [e_items pop_front].
      intros [= <- <- <-]. exists [], []. rewrite stored_app. repeat split.
    - unfold TIterMut_step at 1, enumerate_step, enumerate_next. cbn [e_items e_next pop_front].
      assert (Stop : forall r', r' <> Val tt -> (u, storage, r) = (tt, pre ++ x :: rest, r') ->
        exists l tail, stored (x :: rest) = map snd l ++ tail /\ stored storage = stored pre ++ kept (verdicts f l) ++ tail /\
          (r = Val tt -> tail = [])).
      { intros r' Hr [= -> -> ->]. exists [], (stored (x :: rest)). rewrite stored_app. repeat split. intros H. contradiction. }
      destruct (from_ordinal O nxt) as [[k|]|w| | |]; cbn [bind unwrap];
        try (intros E; symmetry in E; eapply Stop; [|exact E]; discriminate).
      destruct (uadd nxt 1) as [n1|w| | |]; cbn [bind]; try (intros E; symmetry in E; eapply Stop; [|exact E]; discriminate).
      unfold deref at 1, slice_get. rewrite Nnat.Nat2N.id, nth_mid. unfold store_at. rewrite Nnat.Nat2N.id.
      assert (Next : forall y, pre ++ y :: rest = (pre ++ [y]) ++ rest) by (intros y; now rewrite <- app_assoc).
      assert (Len : forall y, S (length pre) = length (pre ++ [y])) by (intros y; rewrite app_length; cbn; lia).
      destruct x as [v|].
      + unfold pure_retain at 1. destruct (f k v) as [v' b] eqn:Ef. rewrite list_set_mid. destruct b.
        * rewrite (Next (Some v')), (Len (Some v')). intros E. destruct (IH _ _ _ _ _ _ E) as (l & tail & H1 & H2 & H3).
          exists ((k, v) :: l), tail. cbn [stored map snd app]. rewrite H1. split; [reflexivity|]. split; [|exact H3].
          rewrite H2, stored_app. unfold verdicts, kept. cbn [map fst snd filter]. rewrite Ef. cbn [snd map fst app stored].
          now rewrite <- app_assoc.
        * rewrite list_set_mid. rewrite (Next None), (Len None). intros E. destruct (IH _ _ _ _ _ _ E) as (l & tail & H1 & H2 & H3).
          exists ((k, v) :: l), tail. cbn [stored map snd app]. rewrite H1. split; [reflexivity|]. split; [|exact H3].
          rewrite H2, stored_app. unfold verdicts, kept. cbn [map fst snd filter]. rewrite Ef. cbn [snd map fst app stored].
          now rewrite app_nil_r.
      + rewrite (Next None), (Len None). intros E. destruct (IH _ _ _ _ _ _ E) as (l & tail & H1 & H2 & H3).
        exists l, tail. cbn [stored]. split; [exact H1|]. split; [|exact H3]. rewrite H2, stored_app. cbn [stored].
        now rewrite app_nil_r.
  Qed.
End Retain.

Section Entries.
  Context {K V : Type}.
  Lemma new_entry (m : list (option V)) (key : K) i e : Entry_new m key i = Val e ->
    exists o, nth_error m (N.to_nat i) = Some o /\
      match o with
      | Some _ => e = Occupied {| o_key := key; o_entry := i |}
      | None => e = Vacant {| v_key := key; v_entry := i |}
      end.
  Proof.
    unfold Entry_new. destruct (deref m i) as [o|w| | |] eqn:E; try discriminate. cbn. intros [= <-].
    exists o. split; [exact (deref_nth E)|]. destruct o; reflexivity.
  Qed.
  Lemma entry_match_account (m : list (option V)) (k : K) i e v w o m' : Entry_new m k i = Val e ->
    entry_match m e v w = Val (o, m') ->
    exists given taken dropped, map_account (OpEntryMatch k v w) (Seen o) (stored m) given taken dropped (stored m') /\
      balanced (stored m) given taken dropped (stored m').
  Proof.
    intros He. destruct (new_entry He) as (o0 & En & Ho). destruct o0 as [old|]; subst e.
    - unfold entry_match, OccupiedEntry_get, OccupiedEntry_get_mut. cbn [o_entry]. unfold deref, slice_get, write_some.
      unfold deref, slice_get. rewrite En. cbn. rewrite En. cbn. intros [= <- <-].
      exists [w], [old], []. split; [exists k, (Some old); repeat split|].
      exact (swap_slot (Some w) En).
    - unfold entry_match, VacantEntry_insert. cbn [v_entry]. unfold deref, slice_get. rewrite En. cbn. intros [= <- <-].
      exists [v], [], []. split; [exists k, None; repeat split|].
      exact (swap_slot (Some v) En).
  Qed.
  Lemma entry_or_insert_account (m : list (option V)) (k : K) i e v w (o : map_out K V) m' : Entry_new m k i = Val e ->
    entry_or_insert m e v w = Val (o, m') ->
    exists given taken dropped, map_account (OpEntryOrInsert k v w) (Seen o) (stored m) given taken dropped (stored m') /\
      balanced (stored m) given taken dropped (stored m').
  Proof.
    intros He. destruct (new_entry He) as (o0 & En & Ho). destruct o0 as [old|]; subst e; unfold entry_or_insert, Entry_or_insert; cbn [o_entry v_entry].
    - unfold write_some, deref, slice_get. rewrite En. cbn [bind unwrap]. rewrite !En. cbn [bind]. rewrite ?En. cbn. intros [= <- <-].
      exists [w], [old], []. split; [exists old; repeat split; auto|]. exact (swap_slot (Some w) En).
    - unfold write_some, deref, slice_get. rewrite En. cbn [bind].
      assert (E2 : nth_error (store_at m i (Some v)) (N.to_nat i) = Some (Some v)).
      { unfold store_at. clear - En. revert En. generalize (N.to_nat i). induction m as [|x m IH]; intros [|j]; cbn; try discriminate; auto. }
      rewrite E2. cbn. intros [= <- <-].
      exists [v; w], [v], []. split; [exists v; repeat split; auto|].
      exact (chain (swap_slot (Some v) En) (swap_slot (Some w) E2)).
  Qed.
End Entries.

(** The account of a call that leaves the values where they are. *)
Ltac idle := exists [], [], []; split; [repeat split|unfold balanced; cbn [app]; rewrite app_nil_r; apply Permutation_refl].

Section Heap.
  Context {cfg : Config} {K V : Type} (O : Ordinal K).

  Definition accounted (op : map_op K V) (s : seen (map_out K V)) (h h' : list V) : Prop :=
    exists given taken dropped, map_account op s h given taken dropped h' /\ balanced h given taken dropped h'.

  Lemma init_stored (m m' : @OrdinalMap V) : OrdinalMap_init_full_map O m = Val m' -> stored m' = stored m.
  Proof.
    unfold OrdinalMap_init_full_map. destruct (ORDINAL_SIZE O) as [n|w| | |]; try discriminate. cbn [bind].
    destruct (llen m =? 0) eqn:E; intros [= <-]; [|reflexivity]. rewrite stored_none.
    destruct m; [reflexivity|]. discriminate E.
  Qed.

  Lemma drain_account sched leak (m : list (option V)) m' (o : map_out K V) :
    drain_act O sched leak m = (m', Ended o) -> accounted (OpDrain sched leak) (Seen o) (stored m) (stored m').
  Proof.
    unfold drain_act.
    destruct (drain_calls (pure_from O) sched (tt, Drain_new m (TIterMut_new (slots (length m))))) as [[got [[] s1]] r] eqn:E1.
    assert (Used : (let '(got, _, storage', f) := drain_use (pure_from O) sched (tt, Drain_new m (TIterMut_new (slots (length m)))) in
          (storage', match f with
                     | Returned => Ended (OutEntries got)
                     | Unwound w => Unwinds w
                     | Aborted => Aborts
                     | Wrong => Stuck
                     end)) = (m', Ended o) ->
       exists got (dropped : list (K * V)), o = OutEntries got /\ stored m' = [] /\
         Permutation (stored m) (map snd (somes got) ++ map snd dropped ++ stored m')).
    { destruct (drain_use _ _ _) as [[[got2 dropped] after] f] eqn:E2. destruct f; try discriminate. intros [= <- <-].
      exists got2, dropped. split; [reflexivity|]. split; [exact (use_empties E2)|exact (use_keeps E2)]. }
    destruct leak.
    - destruct r as [[]|w| | |].
      + intros [= <- <-]. exists [], (map snd (somes got)), []. split; [exists got; repeat split|].
        unfold balanced. rewrite app_nil_r. exact (calls_keep E1).
      + intros E. exfalso. unfold drain_use in E. rewrite E1 in E.
        destruct (drain_drop_resume _ _) as [[l2 [u2 [st2 it2]]] [[]|w2| | |]]; discriminate E.
      + intros E. exfalso. unfold drain_use in E. rewrite E1 in E.
        destruct (drain_drop_resume _ _) as [[l2 [u2 [st2 it2]]] [[]|w2| | |]]; discriminate E.
      + intros E. exfalso. unfold drain_use in E. rewrite E1 in E.
        destruct (drain_drop_resume _ _) as [[l2 [u2 [st2 it2]]] [[]|w2| | |]]; discriminate E.
      + intros E. exfalso. unfold drain_use in E. rewrite E1 in E.
        destruct (drain_drop_resume _ _) as [[l2 [u2 [st2 it2]]] [[]|w2| | |]]; discriminate E.
    - intros E. destruct Used as (got2 & dropped & -> & H1 & H2); [destruct r as [[]|w| | |]; exact E|].
      exists [], (map snd (somes got2)), (map snd dropped). split; [exists got2; repeat split; exact H1|].
      unfold balanced. rewrite app_nil_r. exact H2.
  Qed.
  Lemma drain_panic_account sched leak (m : list (option V)) m' w :
    drain_act O sched leak m = (m', Unwinds w) -> accounted (OpDrain sched leak) (Caught w) (stored m) (stored m').
  Proof.
    unfold drain_act.
    destruct (drain_calls (pure_from O) sched (tt, Drain_new m (TIterMut_new (slots (length m))))) as [[got [[] s1]] r] eqn:E1.
    assert (Used : (let '(got, _, storage', f) := drain_use (pure_from O) sched (tt, Drain_new m (TIterMut_new (slots (length m)))) in
          (storage', match f with
                     | Returned => Ended (@OutEntries K V got)
                     | Unwound w => Unwinds w
                     | Aborted => Aborts
                     | Wrong => Stuck
                     end)) = (m', Unwinds w) -> accounted (OpDrain sched leak) (Caught w) (stored m) (stored m')).
    { destruct (drain_use _ _ _) as [[[got2 dropped] after] f] eqn:E2. destruct f; try discriminate. intros [= <- ->].
      exists [], [], (map snd (somes got2) ++ map snd dropped). split; [split; reflexivity|].
      unfold balanced. rewrite app_nil_r. cbn [app]. rewrite <- app_assoc. exact (use_keeps E2). }
    destruct r as [[]|w1| | |], leak; try exact Used; discriminate.
  Qed.
  Lemma clear_account (m : list (option V)) m' (o : map_out K V) :
    clear_act O m = (m', Ended o) -> accounted OpClear (Seen o) (stored m) (stored m').
  Proof.
    unfold clear_act, clear_map, drain_map. destruct (drain_use _ _ _) as [[[got dropped] after] f] eqn:E. destruct f; try discriminate.
    intros [= <- <-]. exists [], [], (map snd (somes got) ++ map snd dropped). split.
    - split; [reflexivity|]. split; [reflexivity|exact (use_empties E)].
    - unfold balanced. rewrite app_nil_r. cbn [app]. rewrite <- app_assoc. exact (use_keeps E).
  Qed.
  Lemma clear_panic_account (m : list (option V)) m' w :
    @clear_act cfg K V O m = (m', Unwinds w) -> accounted OpClear (Caught w) (stored m) (stored m').
  Proof.
    unfold clear_act, clear_map, drain_map. destruct (drain_use _ _ _) as [[[got dropped] after] f] eqn:E. destruct f; try discriminate.
    intros [= <- <-]. exists [], [], (map snd (somes got) ++ map snd dropped). split.
    - split; reflexivity.
    - unfold balanced. rewrite app_nil_r. cbn [app]. rewrite <- app_assoc. exact (use_keeps E).
  Qed.
  Lemma retain_balanced f (l : list (K * V)) (tail : list V) :
    balanced (map snd l ++ tail) (map fst (verdicts f l)) (map snd l) (rejected (verdicts f l)) (kept (verdicts f l) ++ tail).
  Proof.
    unfold balanced. rewrite <- app_assoc. apply Permutation_app_head.
    eapply Permutation_trans; [apply Permutation_app_head, split_verdicts|].
    eapply Permutation_trans; [apply Permutation_app_comm|]. now rewrite <- app_assoc.
  Qed.

  Ltac next E := match type of E with
    | (match ?x with _ => _ end) = _ => let H := fresh "G" in destruct x as [?|?| | |] eqn:H; try discriminate E; cbn [bind] in E
    end.

  Lemma heap_returns op (m m' : @OrdinalMap V) o : heap_act O op m = (m', Ended o) -> accounted op (Seen o) (stored m) (stored m').
  Proof.
    intros E. destruct op; try (exact (drain_account E)); try (exact (clear_account E));
      apply (proj1 (@same_calls cfg K V O 0)) in E; cbn [heap_step] in E; unfold bind in E; try discriminate E;
      try (repeat match type of E with
           | (match ?x with _ => _ end) = _ => destruct x; try discriminate E
           end; injection E as <- <-; idle).
    - (* insert *)
      destruct (OrdinalMap_insert O m k v) as [[old m1]|w| | |] eqn:G; try discriminate E. injection E as <- <-.
      unfold OrdinalMap_insert in G. destruct (OrdinalMap_init_full_map O m) as [m2|w| | |] eqn:G1; try discriminate G. cbn [bind] in G.
      destruct (ordinal O k) as [i|w| | |]; try discriminate G. cbn [bind] in G.
      destruct (index m2 i) as [old2|w| | |] eqn:G3; try discriminate G. injection G as -> <-.
      exists [v], (opt_list old), []. split; [exists old; repeat split|]. rewrite <- (init_stored G1).
      exact (swap_slot (Some v) (index_nth G3)).
    - (* get_mut *)
      unfold OrdinalMap_get_mut, bind in E. destruct (ordinal O k) as [i|w| | |]; try discriminate E.
      destruct (slice_get m i) as [[old|]|] eqn:G.
      + unfold deref in E. rewrite G in E. destruct (write_some m i v) as [m2|w| | |] eqn:G2; try discriminate E. injection E as <- <-.
        apply write_some_eq in G2. destruct G2 as (_ & _ & ->).
        exists [v], [old], []. split; [exists (Some old); repeat split|]. exact (swap_slot (Some v) G).
      + injection E as <- <-. exists [], [], []. split; [exists None; repeat split|]. unfold balanced. cbn [app]. now rewrite app_nil_r.
      + injection E as <- <-. exists [], [], []. split; [exists None; repeat split|]. unfold balanced. cbn [app]. now rewrite app_nil_r.
    - (* remove *)
      unfold OrdinalMap_remove, bind in E. destruct (ordinal O k) as [i|w| | |]; try discriminate E.
      destruct (slice_get m i) as [old|] eqn:G; injection E as <- <-.
      + exists [], (opt_list old), []. split; [exists old; repeat split|]. exact (swap_slot None G).
      + exists [], [], []. split; [exists None; repeat split|]. unfold balanced. cbn [app]. now rewrite app_nil_r.
    - (* iter_mut *)
      destruct (drive _ _ _) as [[got it]|w| | |]; try discriminate E.
      destruct (write_entries f got m) as [[l m2]|w| | |] eqn:G; try discriminate E. injection E as <- <-.
      exists (map (fun kv => f (fst kv) (snd kv)) (somes l)), (map snd (somes l)), []. split; [exists l; repeat split|].
      exact (proj2 (write_entries_balanced G)).
    - destruct (drive _ _ _) as [[got it]|w| | |]; try discriminate E.
      destruct (write_values f got m) as [[l m2]|w| | |] eqn:G; try discriminate E. injection E as <- <-.
      exists (map f (somes l)), (somes l), []. split; [exists l; repeat split|].
      exact (proj2 (write_values_balanced G)).
    - (* entry *)
      unfold OrdinalMap_entry, bind in E. destruct (OrdinalMap_init_full_map O m) as [m2|w| | |] eqn:G1; try discriminate E.
      destruct (ordinal O k) as [i|w| | |]; try discriminate E. destruct (index_slot m2 i) as [j|w| | |]; try discriminate E.
      destruct (Entry_new m2 k j) as [e|w| | |]; try discriminate E. injection E as <- <-. rewrite (init_stored G1). idle.
    - unfold OrdinalMap_entry, bind in E. destruct (OrdinalMap_init_full_map O m) as [m2|w0| | |] eqn:G1; try discriminate E.
      destruct (ordinal O k) as [i|w0| | |]; try discriminate E. destruct (index_slot m2 i) as [j|w0| | |]; try discriminate E.
      destruct (Entry_new m2 k j) as [e|w0| | |] eqn:G4; try discriminate E. rewrite <- (init_stored G1).
      exact (entry_match_account G4 E).
    - unfold OrdinalMap_entry, bind in E. destruct (OrdinalMap_init_full_map O m) as [m2|w0| | |] eqn:G1; try discriminate E.
      destruct (ordinal O k) as [i|w0| | |]; try discriminate E. destruct (index_slot m2 i) as [j|w0| | |]; try discriminate E.
      destruct (Entry_new m2 k j) as [e|w0| | |] eqn:G4; try discriminate E. rewrite <- (init_stored G1).
      exact (entry_or_insert_account G4 E).
    - injection E as <- <-. exists (map cl (stored m)), [], (stored m). split; [repeat split|]. unfold balanced. cbn [app].
      unfold OrdinalMap_clone. now rewrite stored_map.
  Qed.
  Lemma quiet op w h : bulk op = false -> accounted op (Caught w) h h.
  Proof. destruct op; try discriminate; intros _; idle. Qed.
  Lemma heap_panics op (m m' : @OrdinalMap V) w : heap_act O op m = (m', Unwinds w) -> accounted op (Caught w) (stored m) (stored m').
  Proof.
    intros E. destruct (bulk op) eqn:B.
    - destruct op; try discriminate B; [exact (clear_panic_account E)|exact (drain_panic_account E)|discriminate E].
    - destruct (proj1 (@left_behind cfg K V O 0 w) op m m' B E) as [-> | (-> & n & _ & ->)]; [exact (quiet w _ B)|].
      rewrite stored_none. exact (quiet w _ B).
  Qed.

  Context (S : nat).
  Lemma array_back (o o' : map_out K V) l (m' : @OrdinalArrayMap V S) : back S (o, l) = Val (o', m') -> o = o' /\ arr_list m' = l.
  Proof.
    unfold back, arr_back. cbn [fst snd]. destruct (try_arr S l) as [a|] eqn:E; [|discriminate]. cbn. intros [= <- <-].
    split; [reflexivity|exact (try_arr_list E)].
  Qed.
  Lemma array_returns op (m m' : @OrdinalArrayMap V S) o : array_act O op m = (m', Ended o) ->
    accounted op (Seen o) (stored (arr_list m)) (stored (arr_list m')).
  Proof.
    intros E. destruct op.
    8, 9: cbn [array_act] in E; unfold on_slots in E;
      match type of E with (let '(_, _) := ?x in _) = _ => destruct x as [l e] eqn:G end;
      (destruct (try_arr S l) as [a|] eqn:Ga; [|discriminate E]); injection E as <- ->; rewrite (try_arr_list Ga);
      first [exact (clear_account G)|exact (drain_account G)].
    16: { cbn [array_act] in E. unfold OrdinalArrayMap_retain_act in E.
      destruct (OrdinalArrayMap_retain O (pure_retain f) m tt) as [[u l] r] eqn:G.
      destruct (try_arr S l) as [a|] eqn:Ga; [|discriminate E]. injection E as <- Er. rewrite (try_arr_list Ga).
      destruct (retain_account (pre := []) G) as (es & tail & H1 & H2 & H3).
      assert (r = Val tt) by (destruct r as [[]|w| | |]; try discriminate Er; reflexivity).
      specialize (H3 H). subst tail. rewrite app_nil_r in H1, H2. cbn [stored app] in H2.
      exists (map fst (verdicts f es)), (map snd es), (rejected (verdicts f es)). split.
      - exists es. rewrite H1, H2. repeat split.
      - rewrite H1, H2. pose proof (retain_balanced f es []) as P. now rewrite !app_nil_r in P. }
    all: apply (proj1 (proj2 (@same_calls cfg K V O S))) in E; cbn [array_step] in E; unfold bind in E; try discriminate E;
      try (repeat match type of E with
           | (match ?x with _ => _ end) = _ => destruct x; try discriminate E
           end; injection E as <- <-; idle).
    - unfold OrdinalArrayMap_insert, bind in E. destruct (OrdinalTotalArrayMap_get_mut O m k) as [i|w| | |]; try discriminate E.
      destruct (deref (arr_list m) i) as [old|w| | |] eqn:G; try discriminate E. injection E as <- <-.
      exists [v], (opt_list old), []. split; [exists old; repeat split|]. exact (swap_slot (Some v) (deref_nth G)).
    - unfold OrdinalArrayMap_get_mut, bind in E. destruct (OrdinalTotalArrayMap_get_mut O m k) as [i|w| | |]; try discriminate E.
      destruct (deref (arr_list m) i) as [[old|]|w| | |] eqn:G; try discriminate E.
      + rewrite G in E. destruct (write_some (arr_list m) i v) as [m2|w| | |] eqn:G2; try discriminate E.
        apply array_back in E. destruct E as [<- ->]. apply write_some_eq in G2. destruct G2 as (_ & _ & ->).
        exists [v], [old], []. split; [exists (Some old); repeat split|]. exact (swap_slot (Some v) (deref_nth G)).
      + injection E as <- <-. exists [], [], []. split; [exists None; repeat split|]. unfold balanced. cbn [app]. now rewrite app_nil_r.
    - unfold OrdinalArrayMap_remove, bind in E. destruct (OrdinalTotalArrayMap_get_mut O m k) as [i|w| | |]; try discriminate E.
      destruct (deref (arr_list m) i) as [old|w| | |] eqn:G; try discriminate E. injection E as <- <-.
      exists [], (opt_list old), []. split; [exists old; repeat split|]. exact (swap_slot None (deref_nth G)).
    - destruct (drive _ _ _) as [[got it]|w| | |]; try discriminate E.
      destruct (write_entries f got _) as [[l m2]|w| | |] eqn:G; try discriminate E. apply array_back in E. destruct E as [<- ->].
      exists (map (fun kv => f (fst kv) (snd kv)) (somes l)), (map snd (somes l)), []. split; [exists l; repeat split|].
      exact (proj2 (write_entries_balanced G)).
    - destruct (drive _ _ _) as [[got it]|w| | |]; try discriminate E.
      destruct (write_values f got _) as [[l m2]|w| | |] eqn:G; try discriminate E. apply array_back in E. destruct E as [<- ->].
      exists (map f (somes l)), (somes l), []. split; [exists l; repeat split|].
      exact (proj2 (write_values_balanced G)).
    - unfold OrdinalArrayMap_entry, bind in E. destruct (OrdinalTotalArrayMap_index_mut O m k) as [i|w| | |]; try discriminate E.
      destruct (Entry_new (arr_list m) k i) as [e|w| | |]; try discriminate E. injection E as <- <-. idle.
    - unfold OrdinalArrayMap_entry, bind in E. destruct (OrdinalTotalArrayMap_index_mut O m k) as [i|w0| | |]; try discriminate E.
      destruct (Entry_new (arr_list m) k i) as [e|w0| | |] eqn:G4; try discriminate E.
      destruct (entry_match (arr_list m) e v w) as [[o2 l]|w0| | |] eqn:G5; try discriminate E.
      apply array_back in E. destruct E as [<- ->]. exact (entry_match_account G4 G5).
    - unfold OrdinalArrayMap_entry, bind in E. destruct (OrdinalTotalArrayMap_index_mut O m k) as [i|w0| | |]; try discriminate E.
      destruct (Entry_new (arr_list m) k i) as [e|w0| | |] eqn:G4; try discriminate E.
      destruct (entry_or_insert (arr_list m) e v w) as [[o2 l]|w0| | |] eqn:G5; try discriminate E.
      apply array_back in E. destruct E as [<- ->]. exact (entry_or_insert_account G4 G5).
    - injection E as <- <-. exists (map cl (stored (arr_list m))), [], (stored (arr_list m)). split; [repeat split|]. unfold balanced. cbn [app].
      unfold OrdinalArrayMap_clone, OrdinalTotalArrayMap_clone. unfold arr_clone; cbn [arr_list]. now rewrite stored_map.
  Qed.
  Lemma array_panics op (m m' : @OrdinalArrayMap V S) w : array_act O op m = (m', Unwinds w) ->
    accounted op (Caught w) (stored (arr_list m)) (stored (arr_list m')).
  Proof.
    intros E. destruct (bulk op) eqn:B.
    - destruct op; try discriminate B.
      1, 2: cbn [array_act] in E; unfold on_slots in E;
        match type of E with (let '(_, _) := ?x in _) = _ => destruct x as [l e] eqn:G end;
        (destruct (try_arr S l) as [a|] eqn:Ga; [|discriminate E]); injection E as <- ->; rewrite (try_arr_list Ga);
        first [exact (clear_panic_account G)|exact (drain_panic_account G)].
      cbn [array_act] in E. unfold OrdinalArrayMap_retain_act in E.
      destruct (OrdinalArrayMap_retain O (pure_retain f) m tt) as [[u l] r] eqn:G.
      destruct (try_arr S l) as [a|] eqn:Ga; [|discriminate E]. injection E as <- Er. rewrite (try_arr_list Ga).
      destruct (retain_account (pre := []) G) as (es & tail & H1 & H2 & _). cbn [stored app] in H2.
      exists (map fst (verdicts f es)), (map snd es), (rejected (verdicts f es)). split.
      + exists es, tail. rewrite H1, H2. repeat split.
      + rewrite H1, H2. apply retain_balanced.
    - rewrite (proj1 (proj2 (@left_behind cfg K V O S w)) op m m' B E). exact (quiet w _ B).
  Qed.
End Heap.
