(** * CallsProofs3: the questions the maps, the total maps, [OrdinalValues] and the atomic ask. *)
From Verif Require Import Base Spec SpecMap SpecTotal SpecSet SpecAtomic SpecSafety SpecCalls ModelOrdinal ModelValues ModelArrayBuilder
  ModelIter ModelTotal ModelMap ModelSet ModelAtomic MapMachine TotalMachine SetMachine ModelCalls BaseProofs IterLib CallsProofs1.
From Coq Require Import List Lia Permutation. Import ListNotations.
Set Implicit Arguments. Unset Strict Implicit.

Lemma prefix_refl {A} (l : list A) : prefix l l.
Proof. exists []. now rewrite app_nil_r. Qed.
Lemma prefix_nil {A} (l : list A) : prefix [] l.
Proof. exists l. reflexivity. Qed.
Lemma prefix_app {A} (l1 l2 l3 : list A) : prefix l1 l2 -> prefix l1 (l2 ++ l3).
Proof. intros (r & ->). exists (r ++ l3). now rewrite app_assoc. Qed.
Lemma app_prefix {A} (l1 l2 l3 : list A) : prefix l2 l3 -> prefix (l1 ++ l2) (l1 ++ l3).
Proof. intros (r & ->). exists r. now rewrite app_assoc. Qed.

Section Asks.
  Context {K C : Type} {R : C -> Type}.
  Local Notation prog := (prog K C R).

  (** [p] asks [qs] and then gives an outcome satisfying [P], or is cut short. *)
  Definition asks {A} (p : prog A) (qs : list (query K C)) (P : A -> Prop) : Prop :=
    forall U (w : world K C R U) u,
      match run w u p with
      | (_, l, Val a) => questions l = qs /\ P a
      | (_, l, _) => prefix (questions l) qs
      end.

  Lemma asks_asked A (p : prog A) qs P U (w : world K C R U) u : asks p qs P -> asked qs (run w u p).
  Proof.
    intros H. specialize (H U w u). unfold asked. destruct (run w u p) as [[u' l] []]; auto. apply H.
  Qed.
  Lemma asks_done A (r : res A) (P : A -> Prop) : (forall a, r = Val a -> P a) -> asks (Done r) [] P.
  Proof. intros H U w u. cbn [run]. destruct r; try apply prefix_nil. split; [reflexivity|]. apply H. reflexivity. Qed.
  Lemma asks_val A (a : A) (P : A -> Prop) : P a -> asks (Done (Val a)) [] P.
  Proof. intros H. apply asks_done. now intros ? [= ->]. Qed.
  Lemma asks_ask q : asks (ask q) [q] (fun _ => True).
  Proof.
    intros U w u. unfold ask. cbn [run]. destruct (w u q) as [u1 r]. destruct r; cbn [questions map question]; auto; apply prefix_refl.
  Qed.
  Lemma asks_bind A B (p : prog A) (k : A -> prog B) q1 q2 P Q :
    asks p q1 P -> (forall a, P a -> asks (k a) q2 Q) -> asks (pbind p k) (q1 ++ q2) Q.
  Proof.
    intros Hp Hk U w u. rewrite run_bind. specialize (Hp U w u). destruct (run w u p) as [[u1 l1] r].
    destruct r as [a| | | |]; try (apply prefix_app, Hp). destruct Hp as [E Pa]. specialize (Hk a Pa U w u1).
    destruct (run w u1 (k a)) as [[u2 l2] x]. unfold questions in *. rewrite map_app, E.
    destruct x; try (apply app_prefix, Hk). destruct Hk as [-> Q2]. auto.
  Qed.
  Lemma asks_then A B (r : res A) (k : A -> prog B) q Q :
    (forall a, r = Val a -> asks (k a) q Q) -> asks (pbind (Done r) k) q Q.
  Proof. intros H. apply (@asks_bind _ _ (Done r) k [] q (fun a => r = Val a)); [now apply asks_done|exact H]. Qed.
  Lemma asks_ask_then B q (k : answer q -> prog B) q2 Q :
    (forall a, asks (k a) q2 Q) -> asks (pbind (ask q) k) (q :: q2) Q.
  Proof. intros H. apply (@asks_bind _ _ (ask q) k [q] q2 (fun _ => True)); [apply asks_ask|auto]. Qed.
  Lemma asks_ordinal_then B k0 (k : N -> prog B) q2 Q :
    (forall a, asks (k a) q2 Q) -> asks (pbind (ask_ordinal k0) k) (QOrdinal k0 :: q2) Q.
  Proof. exact (@asks_ask_then B (QOrdinal k0) k q2 Q). Qed.
  Lemma asks_from_then B i (k : option K -> prog B) q2 Q :
    (forall a, asks (k a) q2 Q) -> asks (pbind (ask_from i) k) (QFrom i :: q2) Q.
  Proof. exact (@asks_ask_then B (QFrom i) k q2 Q). Qed.
  Lemma asks_weaken A (p : prog A) q (P Q : A -> Prop) : (forall a, P a -> Q a) -> asks p q P -> asks p q Q.
  Proof.
    intros H Hp U w u. specialize (Hp U w u). destruct (run w u p) as [[u1 l1] []]; auto. destruct Hp; auto.
  Qed.
  Lemma asks_eq A (p : prog A) q q' P : q = q' -> asks p q P -> asks p q' P.
  Proof. intros ->. auto. Qed.
End Asks.

(** ** Windows *)
Section Windows.
  Context {A : Type} (h : A -> bool).

  Lemma window_app i l1 l2 : window_from h i (l1 ++ l2) = window_from h i l1 ++ window_from h (i + llen l1) l2.
  Proof.
    revert i. induction l1 as [|a l1 IH]; intros i; cbn [app window_from].
    - unfold llen. cbn. now rewrite N.add_0_r.
    - rewrite IH. do 3 f_equal. unfold llen. cbn [length]. lia.
  Qed.
  Lemma window_length i l : length (window_from h i l) = length l.
  Proof. revert i. induction l; intros i; cbn; auto. Qed.
  Lemma window_fst i l : map fst (window_from h i l) = map (fun j => i + N.of_nat j) (seq 0 (length l)).
  Proof.
    revert i. induction l as [|a l IH]; intros i; cbn [window_from map length seq]; [reflexivity|].
    rewrite IH, <- seq_shift, map_map. cbn [fst]. f_equal; [lia|]. apply map_ext. intros j. lia.
  Qed.
  Lemma window_nodup i l : NoDup (map fst (window_from h i l)).
  Proof.
    rewrite window_fst. apply FinFun.Injective_map_NoDup; [|apply seq_NoDup]. intros a b E. lia.
  Qed.
End Windows.

Lemma up_to_value_all w : fst (up_to_value w) ++ map fst (snd (up_to_value w)) = map fst w.
Proof.
  induction w as [|[i [|]] w IH]; cbn [up_to_value]; auto.
  destruct (up_to_value w) as [q r]. cbn [fst snd map app] in *. now rewrite IH.
Qed.
Lemma up_to_value_perm w : Permutation (fst (up_to_value w) ++ map fst (snd (up_to_value w))) (map fst w).
Proof. rewrite up_to_value_all. reflexivity. Qed.
Lemma visit_perm d w : Permutation (fst (visit d w) ++ map fst (snd (visit d w))) (map fst w).
Proof.
  destruct d; cbn [visit]; [apply up_to_value_perm|].
  pose proof (up_to_value_perm (rev w)) as H. destruct (up_to_value (rev w)) as [q r]. cbn [fst snd] in *.
  rewrite map_rev in H. rewrite map_rev, <- !Permutation_rev in *. exact H.
Qed.
Lemma visits_perm s w : Permutation (fst (visits s w) ++ map fst (snd (visits s w))) (map fst w).
Proof.
  revert w. induction s as [|d s IH]; intros w; cbn [visits]; [reflexivity|].
  pose proof (visit_perm d w) as H1. destruct (visit d w) as [q1 w1]. cbn [fst snd] in *.
  specialize (IH w1). destruct (visits s w1) as [q2 w2]. cbn [fst snd] in *.
  rewrite <- app_assoc, IH. exact H1.
Qed.

Section Iterators.
  Context {cfg : Config} {K C : Type} {R : C -> Type}.
  Local Notation asks := (@asks K C R _).

  (** The state of an enumeration and the slots it has still to visit. *)
  Definition enum_ok {A} (h : A -> bool) (s : enumerate A) (w : window) : Prop :=
    e_next s + llen (e_items s) <= usize_max /\ window_from h (e_next s) (e_items s) = w.

  Lemma uadd_small a b : a + b <= usize_max -> uadd a b = Val (a + b).
  Proof.
    intros H. unfold uadd, usize_rt.
    replace ((0 <=? Z.of_N a + Z.of_N b) && (Z.of_N a + Z.of_N b <=? Z.of_N usize_max))%Z with true by lia.
    f_equal. lia.
  Qed.

  (** The slot one step of an enumeration hands out. *)
  Definition one (d : dir) (w : window) : list N * option bool * window :=
    match d with
    | Front => match w with [] => ([], None, []) | (i, b) :: w' => ([i], Some b, w') end
    | Back => match rev w with [] => ([], None, []) | (i, b) :: w' => ([i], Some b, rev w') end
    end.

  Lemma enumerate_asks A (h : A -> bool) d (s : enumerate A) w : enum_ok h s w ->
    let '(q, b, w') := one d w in
    asks (enumerate_step_p d s) (froms q) (fun a =>
      enum_ok h (snd a) w' /\ opt_map (fun x => h (snd x)) (fst a) = b /\
      (length (e_items (snd a)) + (if is_some (fst a) then 1 else 0) = length (e_items s))%nat).
  Proof.
    destruct s as [n items]. intros [B E]. cbn [e_next e_items] in *. subst w. destruct d; cbn [one].
    - unfold enumerate_step_p, enumerate_next_p. cbn [e_items e_next]. destruct items as [|a items]; cbn [pop_front window_from].
      + apply asks_val. split; [split; [exact B|reflexivity]|]. split; reflexivity.
      + apply asks_from_then. intros r. apply asks_then. intros k _. unfold llen in B. cbn [length] in B.
        rewrite uadd_small by lia. apply asks_then. intros ? [= <-]. apply asks_val.
        split; [|split; [reflexivity|cbn; lia]]. split; [unfold llen; cbn [snd e_next e_items]; lia|reflexivity].
    - unfold enumerate_step_p, enumerate_next_back_p. cbn [e_items e_next].
      destruct items as [|a items _] using rev_ind; cbn [pop_back window_from rev].
      + apply asks_val. split; [split; [exact B|reflexivity]|]. split; reflexivity.
      + rewrite pop_back_rev. rewrite window_app, rev_app_distr. cbn [window_from rev app].
        unfold llen in B. rewrite app_length in B. cbn [length] in B. unfold llen.
        rewrite uadd_small by lia. apply asks_then. intros ? [= <-].
        apply asks_from_then. intros r. apply asks_then. intros k _. apply asks_val.
        split; [|split; [reflexivity|cbn; rewrite app_length; cbn; lia]].
        split; [unfold llen; cbn [snd e_next e_items]; lia|]. now rewrite rev_involutive.
  Qed.

  (** Visiting a slot, and then, if it is empty, going on. *)
  Lemma visit_one d w :
    visit d w = let '(q, b, w') := one d w in
                match b with
                | Some false => let '(q2, w2) := visit d w' in (q ++ q2, w2)
                | _ => (q, w')
                end.
  Proof.
    destruct d; cbn [visit one].
    - destruct w as [|[i [|]] w]; reflexivity.
    - destruct (rev w) as [|[i [|]] w']; try reflexivity. cbn [up_to_value]. rewrite rev_involutive.
      destruct (up_to_value w'). reflexivity.
  Qed.
  Lemma one_length d w : let '(q, b, w') := one d w in (length w' + (if is_some b then 1 else 0) = length w)%nat.
  Proof.
    destruct d; cbn [one].
    - destruct w as [|[]]; cbn; lia.
    - rewrite <- (rev_length w). destruct (rev w) as [|[] w']; cbn; rewrite ?rev_length; lia.
  Qed.

  Lemma sparse_asks A B (h : A -> bool) d (sel : A -> res (option B)) n s w :
    (forall a b, sel a = Val b -> is_some b = h a) -> enum_ok h s w -> (length (e_items s) < n)%nat ->
    asks (sparse_loop_p d sel n s) (froms (fst (visit d w))) (fun a =>
      enum_ok h (snd a) (snd (visit d w)) /\ (fst a = None -> snd (visit d w) = []) /\
      (length (e_items (snd a)) + (if is_some (fst a) then 1 else 0) <= length (e_items s))%nat).
  Proof.
    intros Hs. revert s w. induction n as [|n IH]; intros s w Hw Hn; [lia|].
    cbn [sparse_loop_p]. rewrite visit_one. pose proof (enumerate_asks d Hw) as E.
    destruct (one d w) as [[q b] w'] eqn:EO.
    destruct b as [[|]|].
    - apply (@asks_eq _ _ _ _ _ (froms q ++ [])); [apply app_nil_r|].
      eapply asks_bind; [exact E|]. intros [[[k a]|] s'] (O1 & O2 & O3); cbn [fst snd opt_map] in *; [|discriminate].
      injection O2 as O2. apply asks_then. intros b Sb. apply Hs in Sb. rewrite O2 in Sb. destruct b; [|discriminate].
      apply asks_val. cbn [fst snd is_some] in *. split; [exact O1|]. split; [discriminate|lia].
    - destruct (visit d w') as [q2 w2] eqn:EV. cbn [fst snd]. unfold froms. rewrite map_app.
      eapply asks_bind; [exact E|]. intros [[[k a]|] s'] (O1 & O2 & O3); cbn [fst snd opt_map is_some] in *; [|discriminate].
      injection O2 as O2. apply asks_then. intros b Sb. apply Hs in Sb. rewrite O2 in Sb. destruct b; [discriminate|].
      specialize (IH s' w' O1 ltac:(lia)). rewrite EV in IH. cbn [fst snd] in IH. eapply asks_weaken; [|exact IH].
      cbv beta. intros a' (P1 & P2 & P3). split; [exact P1|]. split; [exact P2|lia].
    - assert (w' = [] /\ q = []) as [-> ->].
      { pose proof (one_length d w) as L. rewrite EO in L. destruct d; cbn [one] in EO.
        - destruct w as [|[]]; [injection EO as <- <-; auto|discriminate].
        - destruct (rev w) as [|[]]; [injection EO as <- <-; auto|discriminate]. }
      apply (@asks_eq _ _ _ _ _ (froms [] ++ [])); [reflexivity|].
      eapply asks_bind; [exact E|]. intros [[[k a]|] s'] (O1 & O2 & O3); cbn [fst snd opt_map is_some] in *; [discriminate|].
      apply asks_val. cbn [fst snd is_some] in *. split; [exact O1|]. split; [reflexivity|lia].
  Qed.

  (** Driving an iterator whose steps visit slots. *)
  Lemma drive_asks S A (step : dir -> S -> prog K C R (option A * S)) (ok : S -> window -> Prop) sched s w :
    (forall d s w, ok s w -> asks (step d s) (froms (fst (visit d w))) (fun a => ok (snd a) (snd (visit d w)))) ->
    ok s w -> asks (drive_p step sched s) (froms (fst (visits sched w))) (fun a => ok (snd a) (snd (visits sched w))).
  Proof.
    intros H. revert s w. induction sched as [|d sched IH]; intros s w Hs; cbn [drive_p visits].
    - apply asks_val. exact Hs.
    - specialize (H d s w Hs). destruct (visit d w) as [q1 w1]. cbn [fst snd] in H.
      assert (IH' : forall s1, ok s1 w1 -> _) by (intros s1; apply (IH s1 w1)).
      destruct (visits sched w1) as [q2 w2]. cbn [fst snd] in *. unfold froms. rewrite map_app.
      eapply asks_bind; [exact H|]. intros [o s1] O1. cbn [snd] in O1.
      apply (@asks_eq _ _ _ _ _ (froms q2 ++ [])); [apply app_nil_r|].
      eapply asks_bind; [apply IH', O1|]. intros [os s2] O2. apply asks_val. exact O2.
  Qed.

  (** Running an iterator to its end visits all remaining slots in order. *)
  Lemma collect_asks S A (next : S -> prog K C R (option A * S)) (ok : S -> window -> Prop) n s w :
    (forall s w, ok s w -> asks (next s) (froms (fst (visit Front w))) (fun a =>
       ok (snd a) (snd (visit Front w)) /\ (fst a = None -> snd (visit Front w) = []))) ->
    ok s w -> asks (collect_p next n s) (froms (map fst w)) (fun a => ok (snd a) []).
  Proof.
    intros H. revert s w. induction n as [|n IH]; intros s w Hs; cbn [collect_p].
    - intros U x u. apply prefix_nil.
    - intros U x u. rewrite run_bind. specialize (H s w Hs U x u).
      pose proof (up_to_value_all w) as V. cbn [visit] in H. destruct (up_to_value w) as [q1 w1]. cbn [fst snd] in *.
      destruct (run x u (next s)) as [[u1 l1] r]. rewrite <- V. unfold froms in *. rewrite map_app.
      destruct r as [[o s1]| | | |]; try (apply prefix_app, H). destruct H as (E & O1 & O2). cbn [fst snd] in *.
      destruct o as [a|].
      + rewrite run_bind. specialize (IH s1 w1 O1 U x u1). destruct (run x u1 (collect_p next n s1)) as [[u2 l2] r2].
        destruct r2 as [[l s2]| | | |]; cbn [run]; unfold questions in *; rewrite map_app, E; try (apply app_prefix, IH).
        destruct IH as [E2 O3]. cbn [snd map] in *. rewrite map_app, E2. cbn [map]. split; [now rewrite app_nil_r|exact O3].
      + specialize (O2 eq_refl). subst w1. cbn [run map]. unfold questions in *. rewrite map_app, E. cbn [map]. auto.
  Qed.
End Iterators.
