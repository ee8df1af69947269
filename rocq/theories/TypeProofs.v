(** * TypeProofs: lemmas for PropType.v. *)
From Coq Require Import String.
From Verif Require Import Base ModelType SpecType.
From Coq Require Import List Bool Lia. Import ListNotations.

Lemma auto_of_holdings (client : nat -> auto -> bool) (p : public) (l S : nat) (K V : ty) (a : auto) :
  In p publics -> has client (p_make p l S K V) a = forallb (holding_has client a) (holdings p K V).
Proof.
  intros H. repeat (destruct H as [<-|H]; [destruct a; cbn; repeat rewrite ?andb_true_r; try reflexivity;
    repeat match goal with |- context [has client ?t ?b] => destruct (has client t b) end; reflexivity|]). destruct H.
Qed.

Lemma unwinding (client : nat -> auto -> bool) (p : public) (l S : nat) (K V : ty) : In p publics ->
  has client (p_make p l S K V) UnwindSafe = unwind_safe client p K V /\
  has client (p_make p l S K V) RefUnwindSafe = ref_unwind_safe client p K V.
Proof.
  intros H. rewrite !auto_of_holdings by exact H. unfold unwind_safe, ref_unwind_safe, holdings.
  destruct (p_values p); cbn; rewrite ?andb_true_r; auto.
Qed.

Section Sub.
  Context (outlives client_sub : nat -> nat -> Prop).
  Notation rel := (rel outlives client_sub).

  Fixpoint ty_size (t : ty) : nat :=
    match t with
    | Client _ | Usize | U64 | AtomicUsize => 1%nat
    | Slice t | Array t _ | Opt t | Box t | Range t | MaybeUninit t | Phantom t | Ref _ t | RefMut _ t
    | SliceIter _ t | SliceIterMut _ t | VecIntoIter t | ArrayIntoIter t _ => S (ty_size t)
    | Struct _ fs => S ((fix sum fs := match fs with [] => O | f :: r => S (ty_size f + sum r)%nat end) fs)
    end.

  (** [rel] with its sides. *)
  Lemma rel_sides_aux n : forall t u, (ty_size t < n)%nat ->
    (rel Greater t u <-> rel Less u t) /\ (rel Less t u <-> rel Greater u t) /\
    (rel Both t u <-> rel Less t u /\ rel Greater t u) /\ (rel Both t u <-> rel Both u t).
  Proof.
    induction n as [|n IH]; [lia|]. intros t u Hn.
    assert (L : forall fs gs, (forall f, In f fs -> (ty_size f < n)%nat) ->
      let all d := (fix all (fs gs : list ty) : Prop := match fs, gs with
           | [], [] => True | f :: fs', g :: gs' => rel d f g /\ all fs' gs' | _, _ => False end) in
      (all Greater fs gs <-> all Less gs fs) /\ (all Less fs gs <-> all Greater gs fs) /\
      (all Both fs gs <-> all Less fs gs /\ all Greater fs gs) /\ (all Both fs gs <-> all Both gs fs)).
    { induction fs as [|f fs IHf]; intros [|g gs] Hf; cbn; try tauto.
      destruct (IH f g (Hf f (or_introl eq_refl))) as (A & B & C & D).
      destruct (IHf gs (fun x Hx => Hf x (or_intror Hx))) as (A' & B' & C' & D'). cbn in A', B', C', D'. tauto. }
    destruct t; destruct u; cbn [ModelType.rel by_side]; try tauto; cbn [ty_size] in Hn;
      try (match goal with
           | _ : list ty |- _ => fail 1
           | |- context [rel _ ?a ?b] =>
               destruct (IH a b ltac:(lia)) as (A & B & C & D); clear IH L; try (repeat split; intros; intuition congruence)
           end).
    - specialize (L fields fields0). destruct L as (A & B & C & D).
      { intros f Hf. clear - Hf Hn. revert n Hn. induction fields as [|x xs IHx]; intros n Hn; [destruct Hf|].
        cbn in Hn. destruct Hf as [->|Hf]; [lia|]. apply (IHx Hf). cbn. lia. }
      cbn in A, B, C, D. repeat split; intros; intuition congruence.
  Qed.
  Lemma rel_greater t u : rel Greater t u <-> rel Less u t.
  Proof. apply (@rel_sides_aux (S (ty_size t))). lia. Qed.
  Lemma rel_both t u : rel Both t u <-> rel Less t u /\ rel Less u t.
  Proof. destruct (@rel_sides_aux (S (ty_size t)) t u ltac:(lia)) as (A & _ & C & _). tauto. Qed.

  Lemma subtypes (p : public) (l l' S S' : nat) (K K' V V' : ty) : In p publics ->
    (rel Less (p_make p l S K V) (p_make p l' S' K' V') <-> may_replace outlives client_sub p l l' S S' K K' V V').
  Proof.
    intros H. unfold may_replace.
    repeat (destruct H as [<-|H]; [cbn; pose proof (rel_both V V'); intuition (try congruence; eauto)|]). destruct H.
  Qed.
End Sub.
