(** * SourceProofs: collecting from an iterator is inserting its elements one by one. *)
From Verif Require Import Base Spec SpecMap SpecIter SpecSource ModelOrdinal ModelValues ModelArrayBuilder ModelIter
  ModelTotal ModelMap ModelSet ModelDrop BaseProofs.
From Coq Require Import List.
Import ListNotations.
Set Implicit Arguments.
Unset Strict Implicit.

Section Generic.
  Context {St A C : Type} (next : St -> St * res (option A)).
  Context (ins : C -> A -> res C) (body : St -> C -> A -> St * C * res unit).
  Hypothesis body_val : forall st c x c', ins c x = Val c' -> body st c x = (st, c', Val tt).
  Hypothesis body_panic : forall st c x w, ins c x = Panic w -> body st c x = (st, c, Panic w).

  Fixpoint all (l : list A) (c : C) : res C :=
    match l with [] => Val c | x :: l => c' <- ins c x ;; all l c' end.

  Lemma all_app l k c : all (l ++ k) c = (c' <- all l c ;; all k c').
  Proof. revert c. induction l as [|x l IH]; intros c; cbn; [reflexivity|]. destruct (ins c x); cbn; auto. Qed.

  Lemma loop_yields l st st' (H : yields next st l st') : forall c c', all l c = Val c' ->
    forall fuel, for_loop next body (length l + fuel) c st = for_loop next body fuel c' st'.
  Proof.
    induction H as [st|st st1 st' x l E _ IH]; intros c c' Hc fuel; cbn in *; [now injection Hc as ->|].
    rewrite E. destruct (ins c x) as [c1| | | |] eqn:Ei; try discriminate Hc. rewrite (body_val st1 Ei).
    cbn in Hc. exact (IH _ _ Hc fuel).
  Qed.

  Lemma at_least (f : nat -> Prop) k : (forall n, f (k + n)%nat) -> forall fuel, (k <= fuel)%nat -> f fuel.
  Proof. intros H fuel L. replace fuel with (k + (fuel - k))%nat by lia. apply H. Qed.

  Lemma yields_snoc l x : forall st st1, yields next st (l ++ [x]) st1 ->
    exists st0, yields next st l st0 /\ next st0 = (st1, Val (Some x)).
  Proof.
    induction l as [|y l IH]; intros st st1 H; cbn in H; inversion H as [|? s ? ? ? E H']; subst.
    - inversion H'; subst. exists st. split; [constructor|exact E].
    - destruct (IH _ _ H') as (st0 & Y & N). exists st0. split; [econstructor; eassumption|exact N].
  Qed.

  Lemma generic_collects st c0 : collects (fun fuel => Val (for_loop next body fuel c0 st)) next st (fun l => all l c0).
  Proof.
    split.
    - intros l st1 st2 c Y E Hc. exists (length l + 1)%nat. apply at_least. intros n.
      rewrite <- Nat.add_assoc, (loop_yields Y Hc). cbn. rewrite E. reflexivity.
    - intros l st1 st2 c w Y E Hc. exists (length l + 1)%nat. apply at_least. intros n.
      rewrite <- Nat.add_assoc, (loop_yields Y Hc). cbn. rewrite E. reflexivity.
    - intros l x st1 c w Y Hc Hp. destruct (yields_snoc Y) as (st0 & Y0 & E).
      rewrite all_app, Hc in Hp. cbn in Hp. exists (length l + 1)%nat. apply at_least. intros n.
      rewrite <- Nat.add_assoc, (loop_yields Y0 Hc). cbn. rewrite E.
      destruct (ins c x) as [c1| | | |] eqn:Ei; try discriminate Hp. cbn in Hp. injection Hp as <-.
      rewrite (body_panic st1 Ei). reflexivity.
    - cbn. discriminate.
    - cbn. discriminate.
    - intros H fuel. destruct (H fuel) as (l & st1 & c & L & Y & Hc). exists st1, c. f_equal.
      pose proof (loop_yields Y Hc 0) as E. rewrite Nat.add_0_r, L in E. exact E.
  Qed.

  Lemma generic_collects_new st (new : res C) :
    collects (fun fuel => c <- new ;; Val (for_loop next body fuel c st)) next st (fun l => c <- new ;; all l c).
  Proof.
    destruct new as [c0|w| | |]; cbn [bind]; [apply generic_collects| | | |];
      (split; try (intros; discriminate);
       first [ (intros w' [= ->]; reflexivity) | (intros _; reflexivity)
             | (intros H; destruct (H 0%nat) as (l & st1 & c & _ & _ & E); discriminate E) ]).
  Qed.
End Generic.

Lemma collects_ext {St A C : Type} run run' (next : St -> St * res (option A)) st (f g : list A -> res C) :
  (forall fuel, run fuel = run' fuel) -> (forall l, f l = g l) -> collects run next st f -> collects run' next st g.
Proof.
  intros Hr Hf [H1 H2 H3 H4 H5 H6]. split.
  - intros l st1 st2 c Y E Hc. rewrite <- Hf in Hc. destruct (H1 _ _ _ _ Y E Hc) as (k & H). exists k.
    intros fuel L. rewrite <- Hr. exact (H fuel L).
  - intros l st1 st2 c w Y E Hc. rewrite <- Hf in Hc. destruct (H2 _ _ _ _ _ Y E Hc) as (k & H). exists k.
    intros fuel L. rewrite <- Hr. exact (H fuel L).
  - intros l x st1 c w Y Hc Hp. rewrite <- Hf in Hc, Hp. destruct (H3 _ _ _ _ _ Y Hc Hp) as (k & H). exists k.
    intros fuel L. rewrite <- Hr. exact (H fuel L).
  - intros w E fuel. rewrite <- Hf in E. rewrite <- Hr. exact (H4 w E fuel).
  - intros E fuel. rewrite <- Hf in E. rewrite <- Hr. exact (H5 E fuel).
  - intros H fuel. rewrite <- Hr. apply H6. intros k. destruct (H k) as (l & st1 & c & L & Y & E).
    exists l, st1, c. rewrite Hf. auto.
Qed.

Section Instances.
  Context {cfg : Config} {K V St : Type} (O : Ordinal K).

  Definition no_drop (st : St) (_ : K * V) : St * res unit := (st, Val tt).

  Lemma heap_collects (next : St -> St * res (option (K * V))) st :
    collects (fun fuel => OrdinalMap_from_iter_with O no_drop next fuel st) next st (OrdinalMap_from_iter O).
  Proof.
    set (ins := fun (m : @OrdinalMap V) (kv : K * V) => '(_, m) <- OrdinalMap_insert O m (fst kv) (snd kv) ;; Val m).
    refine (collects_ext (fun _ => eq_refl) _ (@generic_collects _ _ _ next ins _ _ _ st OrdinalMap_new)).
    - unfold OrdinalMap_from_iter. intros l. generalize (@OrdinalMap_new V). induction l as [|[k v] l IH]; intros m; [reflexivity|].
      cbn. unfold ins at 1. cbn. destruct (OrdinalMap_insert O m k v) as [[o m']| | | |]; cbn; auto.
    - intros s c [k v] c' H. unfold ins, insert_stmt in *. cbn in *.
      destruct (OrdinalMap_insert O c k v) as [[[old|] m']| | | |]; cbn in *; try discriminate H; injection H as ->; reflexivity.
    - intros s c [k v] w H. unfold ins, insert_stmt in *. cbn in *.
      destruct (OrdinalMap_insert O c k v) as [[[old|] m']| | | |]; cbn in *; try discriminate H. now injection H as ->.
  Qed.

  Lemma array_collects S (next : St -> St * res (option (K * V))) st :
    collects (fun fuel => OrdinalArrayMap_from_iter_with O no_drop S next fuel st) next st
      (@OrdinalArrayMap_from_iter K V O S).
  Proof.
    set (ins := fun (m : @OrdinalArrayMap V S) (kv : K * V) => '(_, m) <- OrdinalArrayMap_insert O m (fst kv) (snd kv) ;; Val m).
    refine (collects_ext (fun _ => eq_refl) _ (@generic_collects_new _ _ _ next ins _ _ _ st (OrdinalArrayMap_new O S))).
    - unfold OrdinalArrayMap_from_iter. intros l. destruct (@OrdinalArrayMap_new K V O S) as [m| | | |]; try reflexivity. cbn.
      revert m. induction l as [|[k v] l IH]; intros m; [reflexivity|].
      cbn. unfold ins at 1. cbn. destruct (OrdinalArrayMap_insert O m k v) as [[o m']| | | |]; cbn; auto.
    - intros s c [k v] c' H. unfold ins, insert_stmt in *. cbn in *.
      destruct (OrdinalArrayMap_insert O c k v) as [[[old|] m']| | | |]; cbn in *; try discriminate H; injection H as ->; reflexivity.
    - intros s c [k v] w H. unfold ins, insert_stmt in *. cbn in *.
      destruct (OrdinalArrayMap_insert O c k v) as [[[old|] m']| | | |]; cbn in *; try discriminate H. now injection H as ->.
  Qed.

  Lemma stmt_val {T M} (ins : M -> T -> res M) (s : St) c x c' : ins c x = Val c' -> set_stmt ins s c x = (s, c', Val tt).
  Proof. unfold set_stmt. now intros ->. Qed.
  Lemma stmt_panic {T M} (ins : M -> T -> res M) (s : St) c x w : ins c x = Panic w -> set_stmt ins s c x = (s, c, Panic w).
  Proof. unfold set_stmt. now intros ->. Qed.

  Lemma set_collects (next : St -> St * res (option K)) st :
    collects (fun fuel => OrdinalSet_from_iter_with O next fuel st) next st (OrdinalSet_from_iter O).
  Proof.
    refine (collects_ext (fun _ => eq_refl) _ (@generic_collects_new _ _ _ next _ _ (@stmt_val _ _ _) (@stmt_panic _ _ _) st (OrdinalSet_new O))).
    unfold OrdinalSet_from_iter. intros l. destruct (OrdinalSet_new O) as [s| | | |]; try reflexivity. cbn.
    revert s. induction l as [|k l IH]; intros s; [reflexivity|]. cbn.
    destruct (OrdinalSet_insert O s k) as [[o s']| | | |]; cbn; auto.
  Qed.

  Lemma array_set_collects S (next : St -> St * res (option K)) st :
    collects (fun fuel => OrdinalArraySet_from_iter_with O S next fuel st) next st (@OrdinalArraySet_from_iter cfg K O S).
  Proof.
    refine (collects_ext (fun _ => eq_refl) _ (@generic_collects_new _ _ _ next _ _ (@stmt_val _ _ _) (@stmt_panic _ _ _) st (OrdinalArraySet_new O S))).
    unfold OrdinalArraySet_from_iter. intros l. destruct (OrdinalArraySet_new O S) as [s| | | |]; try reflexivity. cbn.
    revert s. induction l as [|k l IH]; intros s; [reflexivity|]. cbn.
    destruct (OrdinalArraySet_insert O s k) as [[o s']| | | |]; cbn; auto.
  Qed.

  Lemma set64_collects (next : St -> St * res (option K)) st :
    collects (fun fuel => OrdinalSet64_from_iter_with O next fuel st) next st (OrdinalSet64_from_iter O).
  Proof.
    refine (collects_ext (fun _ => eq_refl) _ (@generic_collects_new _ _ _ next _ _ (@stmt_val _ _ _) (@stmt_panic _ _ _) st (OrdinalSet64_new O))).
    unfold OrdinalSet64_from_iter. intros l. destruct (OrdinalSet64_new O) as [s| | | |]; try reflexivity. cbn.
    revert s. induction l as [|k l IH]; intros s; [reflexivity|]. cbn.
    destruct (ordinal O k) as [i| | | |]; cbn; auto. destruct (u64_shl 1 i); cbn; auto.
  Qed.
End Instances.
