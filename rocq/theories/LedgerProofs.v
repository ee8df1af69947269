(** * LedgerProofs: every operation of a map is balanced, whatever the implementation. *)
From Verif Require Import Base BaseProofs Spec SpecMem SpecMap SpecTotal SpecCatch SpecResume SpecLedger ModelOrdinal ModelValues
  ModelArrayBuilder ModelIter ModelTotal ModelMap ModelResume ModelUnwind ModelCatch MapMachine TotalMachine
  ResumeProofs UnwindProofs2 CatchProofs5.
From Coq Require Import List Lia Permutation. Import ListNotations.
Set Implicit Arguments.
Unset Strict Implicit.

Lemma stored_somes {V} (l : list (option V)) : stored l = somes l.
Proof. induction l as [|[v|] l IH]; cbn; [reflexivity| |exact IH]. f_equal. exact IH. Qed.
Lemma stored_app {V} (a b : list (option V)) : stored (a ++ b) = stored a ++ stored b.
Proof. induction a as [|[v|] a IH]; cbn; [reflexivity| |exact IH]. f_equal. exact IH. Qed.
Lemma stored_none {V} n : stored (repeat (@None V) n) = [].
Proof. induction n; [reflexivity|exact IHn]. Qed.
Lemma stored_map {V} (cl : V -> V) l : stored (map (opt_map cl) l) = map cl (stored l).
Proof. induction l as [|[v|] l IH]; cbn; [reflexivity| |exact IH]. f_equal. exact IH. Qed.

(** Replacing the contents of a slot. *)
Lemma swap_slot {V} (l : list (option V)) : forall j old new, nth_error l j = Some old ->
  Permutation (stored l ++ opt_list new) (opt_list old ++ stored (list_set l j new)).
Proof.
  induction l as [|x l IH]; intros j old new; [destruct j; discriminate|].
  destruct j as [|j]; cbn [nth_error list_set].
  - intros [= ->]. destruct old as [o|], new as [n|]; cbn [stored opt_list app]; try rewrite app_nil_r.
    + apply perm_skip. apply Permutation_sym, Permutation_cons_append.
    + apply Permutation_refl.
    + apply Permutation_sym, Permutation_cons_append.
    + apply Permutation_refl.
  - intros H. specialize (IH j old new H). destruct x as [x|]; cbn [stored app]; [|exact IH].
    eapply Permutation_trans; [apply perm_skip, IH|]. apply Permutation_middle.
Qed.
Lemma swap_at {V} (l : list V) : forall j old new, nth_error l j = Some old ->
  Permutation (l ++ [new]) (old :: list_set l j new).
Proof.
  induction l as [|x l IH]; intros j old new; [destruct j; discriminate|].
  destruct j as [|j]; cbn [nth_error list_set app].
  - intros [= ->]. apply perm_skip. apply Permutation_sym, Permutation_cons_append.
  - intros H. eapply Permutation_trans; [apply perm_skip, (IH j old new H)|]. apply perm_swap.
Qed.
Lemma deref_nth {A} (l : list A) i a : deref l i = Val a -> nth_error l (N.to_nat i) = Some a.
Proof. unfold deref, slice_get. destruct (nth_error l (N.to_nat i)); congruence. Qed.
Lemma index_nth {A} (l : list A) i a : index l i = Val a -> nth_error l (N.to_nat i) = Some a.
Proof. unfold index. destruct (nth_error l (N.to_nat i)); congruence. Qed.
Lemma write_some_eq {V} (l l' : list (option V)) i v : write_some l i v = Val l' ->
  exists old, nth_error l (N.to_nat i) = Some (Some old) /\ l' = store_at l i (Some v).
Proof.
  unfold write_some. destruct (deref l i) as [[o|]|w| | |] eqn:E; try discriminate. cbn. intros [= <-].
  exists o. split; [exact (deref_nth E)|reflexivity].
Qed.

(** Four bags. *)
Lemma chain {V} (h g1 t1 h1 g2 t2 h2 : list V) :
  Permutation (h ++ g1) (t1 ++ h1) -> Permutation (h1 ++ g2) (t2 ++ h2) ->
  Permutation (h ++ g1 ++ g2) ((t1 ++ t2) ++ h2).
Proof.
  intros P1 P2. rewrite app_assoc, <- (app_assoc t1).
  eapply Permutation_trans; [apply Permutation_app_tail, P1|]. rewrite <- app_assoc. apply Permutation_app_head, P2.
Qed.

Section Writes.
  Context {K V : Type}.
  Lemma write_entries_balanced (f : K -> V -> V) : forall got storage l st, write_entries f got storage = Val (l, st) ->
    length st = length storage /\
    Permutation (stored storage ++ map (fun kv => f (fst kv) (snd kv)) (somes l)) (map snd (somes l) ++ stored st).
  Proof.
    induction got as [|[[k i]|] got IH]; intros storage l st; cbn [write_entries].
    - intros [= <- <-]. cbn. now rewrite app_nil_r.
    - destruct (deref storage i) as [[old|]|w| | |] eqn:E; try discriminate. cbn [bind].
      destruct (write_some storage i (f k old)) as [st1|w| | |] eqn:E1; try discriminate. cbn [bind].
      destruct (write_entries f got st1) as [[l2 st2]|w| | |] eqn:E2; try discriminate. cbn [bind].
      intros [= <- <-]. destruct (IH _ _ _ E2) as [HL HP]. apply write_some_eq in E1. destruct E1 as (old' & En & ->).
      split; [rewrite HL; apply MapProofs5.store_at_length|].
      change (somes (Some (k, old) :: l2)) with ((k, old) :: somes l2). cbn [map fst snd].
      rewrite (deref_nth E) in En. injection En as <-.
      exact (chain (swap_slot (Some (f k old)) (deref_nth E)) HP).
    - destruct (write_entries f got storage) as [[l2 st2]|w| | |] eqn:E2; try discriminate. cbn [bind].
      intros [= <- <-]. exact (IH _ _ _ E2).
  Qed.
  Lemma write_values_balanced (f : V -> V) : forall got storage l st, write_values f got storage = Val (l, st) ->
    length st = length storage /\ Permutation (stored storage ++ map f (somes l)) (somes l ++ stored st).
  Proof.
    induction got as [|[i|] got IH]; intros storage l st; cbn [write_values].
    - intros [= <- <-]. cbn. now rewrite app_nil_r.
    - destruct (deref storage i) as [[old|]|w| | |] eqn:E; try discriminate. cbn [bind].
      destruct (write_some storage i (f old)) as [st1|w| | |] eqn:E1; try discriminate. cbn [bind].
      destruct (write_values f got st1) as [[l2 st2]|w| | |] eqn:E2; try discriminate. cbn [bind].
      intros [= <- <-]. destruct (IH _ _ _ E2) as [HL HP]. apply write_some_eq in E1. destruct E1 as (old' & En & ->).
      split; [rewrite HL; apply MapProofs5.store_at_length|].
      change (somes (Some old :: l2)) with (old :: somes l2). cbn [map].
      rewrite (deref_nth E) in En. injection En as <-.
      exact (chain (swap_slot (Some (f old)) (deref_nth E)) HP).
    - destruct (write_values f got storage) as [[l2 st2]|w| | |] eqn:E2; try discriminate. cbn [bind].
      intros [= <- <-]. exact (IH _ _ _ E2).
  Qed.
  Lemma twrite_entries_balanced (f : K -> V -> V) : forall got storage l st, twrite_entries f got storage = Val (l, st) ->
    Permutation (storage ++ map (fun kv => f (fst kv) (snd kv)) (somes l)) (map snd (somes l) ++ st).
  Proof.
    induction got as [|[[k i]|] got IH]; intros storage l st; cbn [twrite_entries].
    - intros [= <- <-]. cbn. now rewrite app_nil_r.
    - destruct (deref storage i) as [old|w| | |] eqn:E; try discriminate. cbn [bind].
      destruct (twrite_entries f got (store_at storage i (f k old))) as [[l2 st2]|w| | |] eqn:E2; try discriminate. cbn [bind].
      intros [= <- <-]. change (somes (Some (k, old) :: l2)) with ((k, old) :: somes l2). cbn [map fst snd].
      exact (@chain V _ [_] [_] _ _ _ _ (swap_at (f k old) (deref_nth E)) (IH _ _ _ E2)).
    - destruct (twrite_entries f got storage) as [[l2 st2]|w| | |] eqn:E2; try discriminate. cbn [bind].
      intros [= <- <-]. exact (IH _ _ _ E2).
  Qed.
  Lemma twrite_values_balanced (f : V -> V) : forall got storage l st, twrite_values f got storage = Val (l, st) ->
    Permutation (storage ++ map f (somes l)) (somes l ++ st).
  Proof.
    induction got as [|[i|] got IH]; intros storage l st; cbn [twrite_values].
    - intros [= <- <-]. cbn. now rewrite app_nil_r.
    - destruct (deref storage i) as [old|w| | |] eqn:E; try discriminate. cbn [bind].
      destruct (twrite_values f got (store_at storage i (f old))) as [[l2 st2]|w| | |] eqn:E2; try discriminate. cbn [bind].
      intros [= <- <-]. change (somes (Some old :: l2)) with (old :: somes l2). cbn [map].
      exact (@chain V _ [_] [_] _ _ _ _ (swap_at (f old) (deref_nth E)) (IH _ _ _ E2)).
    - destruct (twrite_values f got storage) as [[l2 st2]|w| | |] eqn:E2; try discriminate. cbn [bind].
      intros [= <- <-]. exact (IH _ _ _ E2).
  Qed.
End Writes.

(** ** Drain *)
Section Drains.
  Context {cfg : Config} {U K V : Type} (from : U -> N -> U * res (option K)).

  Lemma drop_keeps fuel : forall u (s : @Drain V) l st' r, drain_drop_loop from fuel (u, s) = (l, st', r) ->
    Permutation (stored (fst s)) (map snd l ++ stored (fst (snd st'))).
  Proof.
    induction fuel as [|fuel IH]; intros u s l st' r E; cbn [drain_drop_loop] in E.
    - injection E as <- <- <-. apply Permutation_refl.
    - destruct (drain_resume_step from Front (u, s)) as [[u1 s1] r1] eqn:E1. destruct s as [storage it].
      pose proof (drain_keeps E1) as P. cbn [fst snd] in P |- *. destruct r1 as [[[k v]|]|w| | |]; cbn [handed_out app] in P;
        try (injection E as <- <- <-; exact P).
      destruct (drain_drop_loop from fuel (u1, s1)) as [[l2 st2] r2] eqn:E2. injection E as <- <- <-.
      eapply Permutation_trans; [exact P|]. cbn [map snd app]. apply perm_skip. exact (IH _ _ _ _ _ E2).
  Qed.
  Lemma calls_keep sched : forall u (s : @Drain V) l st' r, drain_calls from sched (u, s) = (l, st', r) ->
    Permutation (stored (fst s)) (map snd (somes l) ++ stored (fst (snd st'))).
  Proof.
    induction sched as [|d ds IH]; intros u s l st' r E; cbn [drain_calls] in E.
    - injection E as <- <- <-. apply Permutation_refl.
    - destruct (drain_resume_step from d (u, s)) as [[u1 s1] r1] eqn:E1. destruct s as [storage it].
      pose proof (drain_keeps E1) as P. cbn [fst snd] in P |- *. destruct r1 as [o|w| | |]; cbn [handed_out app] in P;
        try (injection E as <- <- <-; exact P).
      destruct (drain_calls from ds (u1, s1)) as [[l2 st2] r2] eqn:E2. injection E as <- <- <-.
      eapply Permutation_trans; [exact P|]. destruct o as [[k v]|]; cbn [handed_out app].
      + change (somes (Some (k, v) :: l2)) with ((k, v) :: somes l2). cbn [map snd app]. apply perm_skip. exact (IH _ _ _ _ _ E2).
      + exact (IH _ _ _ _ _ E2).
  Qed.
  Lemma use_keeps sched u (s : @Drain V) got dropped after f : drain_use from sched (u, s) = (got, dropped, after, f) ->
    Permutation (stored (fst s)) (map snd (somes got) ++ map snd dropped ++ stored after).
  Proof.
    unfold drain_use. destruct (drain_calls from sched (u, s)) as [[l [u1 s1]] r1] eqn:E1. unfold drain_drop_resume.
    destruct (drain_drop_loop from (S (length (e_items (snd (snd (u1, s1)))))) (u1, s1)) as [[l2 [u2 [st2 it2]]] r2] eqn:E2.
    intros [= <- <- <- _]. eapply Permutation_trans; [exact (calls_keep E1)|]. apply Permutation_app_head.
    exact (drop_keeps E2).
  Qed.

  (** Every value that is left is in a slot still to come. *)
  Definition ahead (s : @Drain V) : Prop :=
    forall j v, nth_error (fst s) j = Some (Some v) -> In (N.of_nat j) (e_items (snd s)).
  Lemma set_none (l : list (option V)) : forall j i v, nth_error (list_set l j None) i = Some (Some v) ->
    i <> j /\ nth_error l i = Some (Some v).
  Proof.
    induction l as [|x l IH]; intros j i v; [destruct j, i; discriminate|]. destruct j as [|j], i as [|i]; cbn; try discriminate.
    - intros H. split; [discriminate|exact H].
    - intros H. split; [discriminate|exact H].
    - intros H. destruct (IH _ _ _ H) as [H1 H2]. split; [congruence|exact H2].
  Qed.
  Lemma pop_back_in A (l : list A) : match pop_back l with
    | None => l = []
    | Some (x, r) => forall y, In y l -> y = x \/ In y r
    end.
  Proof.
    induction l as [|x l IH]; cbn [pop_back]; [reflexivity|].
    destruct l as [|z l]; [cbn; intros y [->|[]]; auto|].
    destruct (pop_back (z :: l)) as [[y r]|]; [|discriminate IH].
    intros a [<-|Ha]; [right; now left|]. destruct (IH a Ha); [now left|right; now right].
  Qed.
  Lemma enum_pops d u (it : enumerate N) u' it' r : enumerate_resume from d (u, it) = ((u', it'), r) ->
    match r with
    | Val None => e_items it = [] /\ it' = it
    | Val (Some (k, i)) => forall y, In y (e_items it) -> y = i \/ In y (e_items it')
    | _ => True
    end.
  Proof.
    destruct d; cbn [enumerate_resume]; unfold enumerate_resume_next, enumerate_resume_back.
    - destruct (e_items it) as [|x l] eqn:El; cbn [pop_front]; [intros [= <- <- <-]; auto|].
      destruct (ask from u (e_next it)) as [u1 [k|w| | |]]; try (intros [= <- <- <-]; exact I).
      destruct (uadd (e_next it) 1) as [n|w| | |]; intros [= <- <- <-]; try exact I.
      cbn [e_items]. intros y [->|H]; auto.
    - pose proof (pop_back_in (e_items it)) as P. destruct (pop_back (e_items it)) as [[x l]|]; [|intros [= <- <- <-]; auto].
      destruct (uadd (e_next it) (llen l)) as [n|w| | |]; try (intros [= <- <- <-]; exact I).
      destruct (ask from u n) as [u1 [k|w| | |]]; intros [= <- <- <-]; try exact I. exact P.
  Qed.
  Lemma ahead_loop d fuel : forall u (s : @Drain V) u' s' o, ahead s -> drain_resume from d fuel (u, s) = ((u', s'), Val o) ->
    ahead s' /\ (o = None -> e_items (snd s') = []).
  Proof.
    induction fuel as [|fuel IH]; intros u [storage it] u' s' o H; cbn [drain_resume]; [discriminate|].
    destruct (enumerate_resume from d (u, it)) as [[u1 it1] r1] eqn:E1. apply enum_pops in E1.
    destruct r1 as [[[k i]|]|w| | |]; try discriminate.
    - assert (A : ahead (store_at storage i None, it1)).
      { intros j v Hj. cbn [fst snd] in *. unfold store_at in Hj. apply set_none in Hj. destruct Hj as [H1 H2].
        specialize (H j v H2). cbn [snd] in H. destruct (E1 _ H) as [<-|E]; [|exact E]. rewrite Nnat.Nat2N.id in H1. congruence. }
      destruct (deref storage i) as [[v|]|w| | |]; try discriminate.
      + intros [= <- <- <-]. split; [exact A|discriminate].
      + intros E. exact (IH _ _ _ _ _ A E).
    - destruct E1 as [E1 ->]. intros [= <- <- <-]. cbn [snd]. split; [exact H|]. intros _. exact E1.
  Qed.
  Lemma ahead_calls sched : forall u (s : @Drain V) l st', ahead s -> drain_calls from sched (u, s) = (l, st', Val tt) -> ahead (snd st').
  Proof.
    induction sched as [|d ds IH]; intros u s l st' H; cbn [drain_calls]; [intros [= <- <-]; exact H|].
    destruct (drain_resume_step from d (u, s)) as [[u1 s1] [o|w| | |]] eqn:E1; try discriminate.
    destruct (drain_calls from ds (u1, s1)) as [[l2 st2] r2] eqn:E2. intros [= <- <- ->].
    exact (IH _ _ _ _ (proj1 (ahead_loop H E1)) E2).
  Qed.
  Lemma ahead_drop fuel : forall u (s : @Drain V) l st', ahead s -> drain_drop_loop from fuel (u, s) = (l, st', Val tt) ->
    stored (fst (snd st')) = [].
  Proof.
    induction fuel as [|fuel IH]; intros u s l st' H; cbn [drain_drop_loop]; [discriminate|].
    destruct (drain_resume_step from Front (u, s)) as [[u1 s1] [[e|]|w| | |]] eqn:E1; try discriminate.
    - destruct (drain_drop_loop from fuel (u1, s1)) as [[l2 st2] r2] eqn:E2. intros [= <- <- ->].
      exact (IH _ _ _ _ (proj1 (ahead_loop H E1)) E2).
    - intros [= <- <-]. destruct (ahead_loop H E1) as [A B]. specialize (B eq_refl). cbn [snd]. unfold ahead in A. rewrite B in A.
      destruct s1 as [storage it]. cbn [fst] in *. clear - A. induction storage as [|[v|] l IH]; [reflexivity| |].
      + destruct (A 0%nat v eq_refl).
      + apply IH. intros j v H. exact (A (S j) v H).
  Qed.
  Lemma ahead_start (storage : list (option V)) : ahead (Drain_new storage (TIterMut_new (slots (length storage)))).
  Proof.
    intros j v H. cbn. unfold slots. apply in_map. apply in_seq. cbn in H.
    assert (j < length storage)%nat by (apply nth_error_Some; congruence). lia.
  Qed.
  Lemma use_empties sched u (storage : list (option V)) got dropped after :
    drain_use from sched (u, Drain_new storage (TIterMut_new (slots (length storage)))) = (got, dropped, after, Returned) ->
    stored after = [].
  Proof.
    unfold drain_use. destruct (drain_calls from sched (u, _)) as [[l [u1 s1]] r1] eqn:E1. unfold drain_drop_resume.
    destruct (drain_drop_loop from (S (length (e_items (snd (snd (u1, s1)))))) (u1, s1)) as [[l2 [u2 [st2 it2]]] r2] eqn:E2.
    destruct r1 as [[]|w1| | |], r2 as [[]|w2| | |]; try discriminate. intros [= <- <- <-].
    exact (ahead_drop (ahead_calls (@ahead_start storage) E1) E2).
  Qed.
End Drains.
