(** * CallsProofs8: functions with a closure, atomics and the array impl with any user code;
    programs on maps. *)
From Verif Require Import Base Spec SpecMap SpecTotal SpecSet SpecAtomic SpecSafety SpecCalls ModelOrdinal ModelValues ModelArrayBuilder
  ModelIter ModelTotal ModelMap ModelSet ModelAtomic MapMachine TotalMachine SetMachine ModelCalls BaseProofs ArrayProofs IterLib BitProofs
  MapProofs5 SafetyProofs SafetyProofs2 CallsProofs1 CallsProofs2 CallsProofs3 CallsProofs4 CallsProofs5 CallsProofs6 CallsProofs7.
From Coq Require Import List Lia Permutation. Import ListNotations.
Set Implicit Arguments. Unset Strict Implicit.

(** ** Constructors *)
Section Constructors.
  Context {cfg : Config} {K : Type}.

  Lemma try_new_run V E U (w : world K K (fun _ => result V E) U) n u :
    let '(_, l, r) := run w u (OrdinalTotalMap_try_new_p (Val n)) in
    exists made, built (repeat (fun k => k) (N.to_nat n)) (fun v => ResOk v) (fun e => ResErr e) l made r /\
      forall m, r = Val (ResOk m) -> m = made.
  Proof.
    unfold OrdinalTotalMap_try_new_p, values_new_p. cbn [bind pbind].
    pose proof (@values_source K (result V E) 0 (N.to_nat n)) as Hs. cbn [N.add] in Hs. rewrite N2Nat.id in Hs.
    destruct (@try_new_loop_run K V E U w _ [] (Datatypes.S (N.to_nat (range_len {| r_start := 0; r_end := n |}))) _ _ u Hs)
      as (u' & l & r & Er & more & Hb & Hm & _).
    { rewrite repeat_length. unfold range_len. cbn. lia. }
    unfold OrdinalTotalMap. rewrite Er. exists more. split; [exact Hb|exact Hm].
  Qed.

  Lemma array_try_new_run V E S U (w : world K K (fun _ => result V E) U) u :
    exists u' l o, run w u (OrdinalTotalArrayMap_try_new_p (Val (N.of_nat S)) S) = (u', l, Val o) /\
      exists made, built (repeat (fun k => k) S) (fun v => ResOk v) (fun e => ResErr e) l made (returned o) /\
        match returned o with
        | Val (ResOk a) => arr_list a = made /\ dropped o = []
        | Val (ResErr _) | Panic _ => dropped o = made
        | _ => True
        end.
  Proof.
    unfold OrdinalTotalArrayMap_try_new_p, ASSERT_p, values_new_p. cbn [bind]. rewrite N.eqb_refl. cbn [assert_const bind].
    pose proof (@values_source K (result V E) 0 S) as Hs. cbn [N.add] in Hs. rewrite builder_new_of.
    destruct (@fill_run K K (result V E) _ V E S (values_step_p Front) (fun r => r) (fun v => ResOk v) (fun e => ResErr e)
      ltac:(intros []; reflexivity) U w _ [] (S + 2) _ _ u Hs) as (u' & l & o & Er & more & Hb & Ho).
    { rewrite repeat_length. reflexivity. } { rewrite repeat_length. lia. }
    exists u', l, o. split; [exact Er|]. exists more. split; [exact Hb|exact Ho].
  Qed.

  Lemma total_map_run V W S U (w : world K (K * V) (fun _ => W) U) (m : OrdinalTotalArrayMap S V) u : N.of_nat S <= usize_max ->
    exists u' l o, run w u (OrdinalTotalArrayMap_map_p m) = (u', l, Val o) /\
      exists made, built (map (fun v k => (k, v)) (arr_list m)) (fun v => v) (fun e : Empty_set => match e with end) l made (returned o) /\
        match returned o with
        | Val (ResOk a) => arr_list a = made /\ dropped o = []
        | Val (ResErr _) | Panic _ => dropped o = made
        | _ => True
        end.
  Proof.
    intros HS. unfold OrdinalTotalArrayMap_map_p. rewrite builder_new_of.
    pose proof (@enumerate_source cfg K V W 0 (arr_list m)) as Hs. unfold llen in Hs. rewrite arr_length in Hs. specialize (Hs ltac:(lia)).
    destruct (@fill_run K (K * V) W _ W Empty_set S (enumerate_step_p Front) (fun w => ResOk w) (fun v => v) (fun e => match e with end)
      ltac:(reflexivity) U w _ [] (S + 2) _ _ u Hs) as (u' & l & o & Er & more & Hb & Ho).
    { rewrite map_length, arr_length. reflexivity. } { rewrite map_length, arr_length. lia. }
    exists u', l, o. split; [exact Er|]. exists more. split; [exact Hb|exact Ho].
  Qed.
End Constructors.

Section Built.
  Context {K C X : Type}.
  Local Notation R := (fun _ : C => X).

  Lemma stopped_no_ub A B (a : res A) (r : res B) : stopped a r -> no_ub a -> no_ub r.
  Proof. destruct a, r; cbn; auto. Qed.
  Lemma not_decoded_no_ub B (a : res (option K)) (r : res B) : not_decoded a r -> no_ub a -> no_ub r.
  Proof. intros [H|[_ ->]]; [now apply stopped_no_ub|reflexivity]. Qed.
  Lemma built_no_ub T E Z i calls (ok : T -> X) (err : E -> X) (l : list (exchange K C R)) made (r : res (result Z E)) :
    built_from i calls ok err l made r -> safe_answers l -> no_ub r.
  Proof.
    intros (ks & last & _ & -> & H) F. apply Forall_app in F. destruct F as [_ F].
    destruct r as [?| | | |]; try exact I.
    - destruct H as (call & _ & [(a & -> & H)|(k & a & -> & H)]); inversion F as [|? ? F1 F2]; subst.
      + exact (not_decoded_no_ub H F1).
      + inversion F2; subst. eapply stopped_no_ub; eauto.
    - destruct H as (call & _ & [(a & -> & H)|(k & a & -> & H)]); inversion F as [|? ? F1 F2]; subst.
      + exact (not_decoded_no_ub H F1).
      + inversion F2; subst. eapply stopped_no_ub; eauto.
  Qed.

  (** No ordinal is decoded twice, no key is asked for its ordinal. *)
  Definition froms_only (qs : list (query K C)) (l : list N) : Prop :=
    filter (fun q => negb (is_user_question q)) qs = froms l.
  Lemma froms_once qs l : froms_only qs l -> NoDup l -> once qs.
  Proof.
    intros H Hl. split.
    - assert (E : filter is_ordinal_question qs = filter is_ordinal_question (filter (fun q => negb (is_user_question q)) qs)).
      { clear. induction qs as [|[] qs IH]; cbn; congruence. }
      rewrite E, H. apply (once_froms (K := K) (C := C) Hl).
    - unfold froms_only in H. rewrite H. unfold froms. apply FinFun.Injective_map_NoDup; [|exact Hl]. intros a b [= ->]. reflexivity.
  Qed.
  Fixpoint upto (i : N) (n : nat) : list N := match n with 0%nat => [] | Datatypes.S n' => i :: upto (i + 1) n' end.
  Lemma upto_in j n i : In j (upto i n) -> i <= j.
  Proof. revert i. induction n as [|n IH]; intros i; cbn; [tauto|]. intros [->|H]; [lia|]. apply IH in H. lia. Qed.
  Lemma upto_nodup n i : NoDup (upto i n).
  Proof.
    revert i. induction n as [|n IH]; intros i; cbn; constructor; [|apply IH]. intros H. apply upto_in in H. lia.
  Qed.
  Lemma upto_snoc n i : upto i n ++ [i + N.of_nat n] = upto i (Datatypes.S n).
  Proof.
    revert i. induction n as [|n IH]; intros i; cbn [upto app]; [now rewrite N.add_0_r|].
    f_equal. change (upto (i + 1) n ++ [i + N.of_nat (Datatypes.S n)] = upto (i + 1) (Datatypes.S n)). rewrite <- IH. do 2 f_equal. lia.
  Qed.
  Lemma turns_froms i (calls : list (K -> C)) (kxs : list (K * X)) : exists n, (length kxs <= length calls -> n = length kxs)%nat /\ froms_only (questions (turns i calls kxs)) (upto i n).
  Proof.
    revert i kxs. induction calls as [|call calls IH]; intros i kxs.
    - exists 0%nat. split; [cbn; lia|]. reflexivity.
    - destruct kxs as [|[k x] kxs]; [exists 0%nat; split; [reflexivity|reflexivity]|].
      destruct (IH (i + 1) kxs) as (n & Hn & H). exists (Datatypes.S n). split; [cbn; lia|]. cbn [turns turn app]. unfold froms_only in *. cbn. f_equal. exact H.
  Qed.
  Lemma froms_only_app qs1 qs2 l1 l2 : froms_only qs1 l1 -> froms_only qs2 l2 -> froms_only (qs1 ++ qs2) (l1 ++ l2).
  Proof. unfold froms_only, froms. intros H1 H2. now rewrite filter_app, map_app, H1, H2. Qed.
  Lemma built_once T E Z i calls (ok : T -> X) (err : E -> X) (l : list (exchange K C R)) made (r : res (result Z E)) :
    built_from i calls ok err l made r -> once (questions l).
  Proof.
    intros (ks & last & Hk & -> & H). unfold questions. rewrite map_app. fold (questions (turns i calls (combine ks (map ok made)))).
    destruct (turns_froms i calls (combine ks (map ok made))) as (n & Hn & Ht). rewrite combine_length, map_length, Hk, Nat.min_id in Hn.
    assert (One : forall call : K -> C, nth_error calls (length made) = Some call -> n = length made).
    { intros call Hc. apply Hn. assert (length made < length calls)%nat by (apply nth_error_Some; congruence). lia. }
    assert (Last : forall call : K -> C, nth_error calls (length made) = Some call -> froms_only (map question last) [i + llen made] ->
      once (questions (turns i calls (combine ks (map ok made))) ++ map question last)).
    { intros call Hc Hl. apply (@froms_once _ (upto i (Datatypes.S n))); [|apply upto_nodup]. rewrite <- upto_snoc. apply froms_only_app; [exact Ht|].
      rewrite (One call Hc). exact Hl. }
    destruct r as [[z|e]| | | |].
    - destruct H as [_ ->]. cbn [map]. rewrite app_nil_r. exact (froms_once Ht (upto_nodup _ _)).
    - destruct H as (call & k & Hc & ->). apply (Last call Hc). reflexivity.
    - destruct H as (call & Hc & [(a & -> & _)|(k & a & -> & _)]); apply (Last call Hc); reflexivity.
    - destruct H as (call & Hc & [(a & -> & _)|(k & a & -> & _)]); apply (Last call Hc); reflexivity.
    - destruct H as (call & Hc & [(a & -> & _)|(k & a & -> & _)]); apply (Last call Hc); reflexivity.
    - destruct H as (call & Hc & [(a & -> & _)|(k & a & -> & _)]); apply (Last call Hc); reflexivity.
  Qed.
End Built.

(** ** [retain] *)
Section Retain.
  Context {cfg : Config} {K V : Type}.
  Local Notation R := (fun _ : K * V => (V * res bool)%type).

  Lemma deref_mid A (pre : list A) o rest : deref (pre ++ o :: rest) (llen pre) = Val o.
  Proof.
    unfold deref, slice_get, llen. rewrite Nat2N.id, nth_error_app2 by lia. rewrite Nat.sub_diag. reflexivity.
  Qed.
  Lemma store_mid A (pre : list A) o o' rest : store_at (pre ++ o :: rest) (llen pre) o' = pre ++ o' :: rest.
  Proof.
    unfold store_at, llen. rewrite Nat2N.id. induction pre as [|p pre IH]; [reflexivity|]. cbn. now rewrite IH.
  Qed.

  Lemma upto_slots n : slots n = upto 0 n.
  Proof.
    unfold slots. change 0 with (N.of_nat 0). generalize 0%nat. induction n as [|n IH]; intros i; [reflexivity|].
    cbn [seq map upto]. f_equal. rewrite IH. f_equal. lia.
  Qed.
  Lemma retain_loop_run U (w : world K (K * V) R U) rest pre n u : closure_returns w -> llen (pre ++ rest) <= usize_max -> (length rest < n)%nat ->
    exists u' l rest' r, run w u (OrdinalArrayMap_retain_loop_p n (pre ++ rest) {| e_next := llen pre; e_items := upto (llen pre) (length rest) |}) =
      (u', l, Val (pre ++ rest', r)) /\ retained (llen pre) rest l rest' r.
  Proof.
    intros Hw. revert pre n u. induction rest as [|o rest IH]; intros pre n u Hl Hn; (destruct n as [|n]; [cbn in Hn; lia|]).
    - cbn [OrdinalArrayMap_retain_loop_p length upto enumerate_step_p]. unfold enumerate_next_p. cbn [e_items pop_front pcatch run].
      do 4 eexists. split; [reflexivity|]. repeat split.
    - cbn [OrdinalArrayMap_retain_loop_p length upto enumerate_step_p]. unfold enumerate_next_p. cbn [e_items e_next pop_front].
      unfold ask_from, ask. cbn [pbind pcatch run]. destruct (w u (QFrom (llen pre))) as [u1 a].
      assert (Small : llen pre + 1 <= usize_max).
      { unfold llen in *. rewrite app_length in Hl. cbn [length] in Hl. lia. }
      assert (Next : forall o' : option V, llen (pre ++ [o']) = llen pre + 1) by (intros; unfold llen; rewrite app_length; cbn; lia).
      assert (Cont : forall o' u2, exists u' l rest' r,
        run w u2 (OrdinalArrayMap_retain_loop_p n (pre ++ o' :: rest) {| e_next := llen pre + 1; e_items := upto (llen pre + 1) (length rest) |}) =
          (u', l, Val (pre ++ o' :: rest', r)) /\ retained (llen pre + 1) rest l rest' r).
      { intros o' u2. destruct (IH (pre ++ [o']) n u2) as (u' & l & rest' & r & E & H).
        - unfold llen in *. rewrite !app_length in *. cbn in *. lia.
        - cbn in Hn. lia.
        - rewrite Next in *. rewrite <- !app_assoc in E. cbn [app] in E. eauto 6. }
      destruct a as [[k|]| | | |]; cbn [pbind unwrap pcatch run];
        try (do 4 eexists; split; [reflexivity|]; destruct o; cbn [retained]; left; eexists; (split; [reflexivity|]); (split; [reflexivity|]);
             try (left; exact eq_refl); try (left; exact I); right; auto).
      rewrite uadd_small by exact Small. cbn [pbind pcatch run]. rewrite deref_mid. destruct o as [v|].
      + cbn [run]. destruct (Hw u1 (k, v)) as (v' & b & Ev1 & _). destruct (w u1 (QUser (k, v))) as [u2 x]. cbn [snd] in Ev1. subst x.
        rewrite !store_mid. destruct b as [b| | | |];
          [|do 4 eexists; split; [reflexivity|]; cbn [retained]; right; left; exists k, v'; eexists; split; [reflexivity|]; split; [reflexivity|]; try exact I; reflexivity ..].
        destruct b; [destruct (Cont (Some v') u2) as (u' & l & rest' & r & E & H)|destruct (Cont None u2) as (u' & l & rest' & r & E & H)];
          rewrite E; do 4 eexists; (split; [reflexivity|]); cbn [retained]; right; right; exists k, v';
          [exists true|exists false]; exists l, rest'; repeat split; exact H.
      + destruct (Cont None u1) as (u' & l & rest' & r & E & H). rewrite E. do 4 eexists. split; [reflexivity|]. cbn [retained]. right.
        exists k, l, rest'. repeat split. exact H.
  Qed.

  Lemma retain_run S U (w : world K (K * V) R U) (m : @OrdinalArrayMap V S) u : closure_returns w -> N.of_nat S <= usize_max ->
    exists u' l m' r, run w u (OrdinalArrayMap_retain_p m) = (u', l, Val (m', r)) /\ retained 0 (arr_list m) l m' r.
  Proof.
    intros Hw HS. unfold OrdinalArrayMap_retain_p, OrdinalTotalArrayMap_iter_mut, TIterMut_new. rewrite upto_slots.
    apply (@retain_loop_run U w (arr_list m) [] _ u Hw); [|lia]. unfold llen. cbn [app]. now rewrite arr_length.
  Qed.

  Lemma retained_length i (m : list (option V)) (l : list (exchange K (K * V) R)) m' r : retained i m l m' r -> length m' = length m.
  Proof.
    revert i l m'. induction m as [|[v|] m IH]; intros i l m'; cbn [retained].
    - intros (_ & -> & _). reflexivity.
    - intros [(a & _ & -> & _)|[(k & v' & a & _ & -> & _)|(k & v' & b & l2 & rest' & _ & -> & H)]]; [reflexivity|reflexivity|].
      cbn. now rewrite (IH _ _ _ H).
    - intros [(a & _ & -> & _)|(k & l2 & rest' & _ & -> & H)]; [reflexivity|]. cbn. now rewrite (IH _ _ _ H).
  Qed.

  Definition safe_results (l : list (exchange K (K * V) R)) : Prop :=
    Forall (fun e : exchange K (K * V) R => match e with
              | Ev q a => match q return res (answer (R := R) q) -> Prop with
                          | QUser _ => fun a => exists v b, a = Val (v, b) /\ no_ub b
                          | _ => fun _ => True
                          end a
              end) l.
  Lemma run_results U A (w : world K (K * V) R U) (p : prog K (K * V) R A) u u' l r :
    closure_returns w -> run w u p = (u', l, r) -> safe_results l.
  Proof.
    intros S. revert u l. induction p as [x|q c IH]; intros u l; cbn [run].
    - intros [= -> <- ->]. constructor.
    - assert (Sq : match q return res (answer (R := R) q) -> Prop with
                   | QUser _ => fun a => exists v b, a = Val (v, b) /\ no_ub b
                   | _ => fun _ => True
                   end (snd (w u q))) by (destruct q as [| |c0]; [exact I|exact I|apply (S u c0)]).
      destruct (w u q) as [u1 a]. cbn [snd] in Sq.
      destruct (run w u1 (c a)) as [[u2 l2] y] eqn:E. intros [= -> <- ->]. constructor; [exact Sq|]. eapply IH, E.
  Qed.
  Lemma retained_no_ub i (m : list (option V)) (l : list (exchange K (K * V) R)) m' r : retained i m l m' r ->
    safe_answers l -> safe_results l -> no_ub r.
  Proof.
    revert i l m'. induction m as [|[v|] m IH]; intros i l m'; cbn [retained].
    - intros (_ & _ & ->) _ _. exact I.
    - intros [(a & -> & _ & H)|[(k & v' & a & -> & _ & H)|(k & v' & b & l2 & rest' & -> & _ & H)]] F1 F2.
      + inversion F1; subst. eapply not_decoded_no_ub; eauto.
      + inversion F2 as [|? ? _ F3]; subst. inversion F3 as [|? ? F4 _]; subst. destruct F4 as (v2 & b & [= -> ->] & F4). eapply stopped_no_ub; eauto.
      + cbn [turn app] in F1, F2. inversion F1 as [|? ? _ F3]; subst. inversion F3; subst. inversion F2 as [|? ? _ F4]; subst. inversion F4; subst. eauto.
    - intros [(a & -> & _ & H)|(k & l2 & rest' & -> & _ & H)] F1 F2.
      + inversion F1; subst. eapply not_decoded_no_ub; eauto.
      + inversion F1; subst. inversion F2; subst. eauto.
  Qed.
  Lemma retained_once i (m : list (option V)) (l : list (exchange K (K * V) R)) m' r : retained i m l m' r -> once (questions l).
  Proof.
    intros H. cut (exists n, froms_only (questions l) (upto i n)).
    { intros (n & Hn). exact (froms_once Hn (upto_nodup _ _)). }
    revert i l m' H. induction m as [|[v|] m IH]; intros i l m'; cbn [retained].
    - intros (-> & _ & _). exists 0%nat. reflexivity.
    - intros [(a & -> & _ & H)|[(k & v' & a & -> & _ & H)|(k & v' & b & l2 & rest' & -> & _ & H)]].
      + exists 1%nat. reflexivity.
      + exists 1%nat. reflexivity.
      + destruct (IH _ _ _ H) as (n & Hn). exists (Datatypes.S n). cbn [turn app]. unfold froms_only in *. cbn. f_equal. exact Hn.
    - intros [(a & -> & _ & H)|(k & l2 & rest' & -> & _ & H)].
      + exists 1%nat. reflexivity.
      + destruct (IH _ _ _ H) as (n & Hn). exists (Datatypes.S n). unfold froms_only in *. cbn. f_equal. exact Hn.
  Qed.
End Retain.
