(** * IterProofs: the map iterators hand out the ends of the remaining entries. *)
From Verif Require Import Base Spec ModelValues ModelIter BaseProofs IterLib ValuesProofs.
From Coq Require Import List. Import ListNotations.

Section Filter.
  Context {K A B : Type} (sel : A -> option B).

  (** The entries selected by [sel]. *)
  Definition fm (l : list (K * A)) : list (K * B) :=
    flat_map (fun ka => match sel (snd ka) with Some b => [(fst ka, b)] | None => [] end) l.

  Lemma fm_app l1 l2 : fm (l1 ++ l2) = fm l1 ++ fm l2.
  Proof. apply flat_map_app. Qed.

  Lemma fm_length l : (length (fm l) <= length l)%nat.
  Proof.
    induction l as [|[k a] l IH]; [auto|]. cbn [fm flat_map fst snd]. fold (fm l). rewrite app_length.
    destruct (sel a); cbn [length]; lia.
  Qed.
End Filter.

Lemma fm_id {K V} (ks : list K) (m : pmap K V) :
  fm (fun o => o) (map (fun k => (k, m k)) ks) = pm_entries ks m.
Proof.
  induction ks as [|k ks IH]; [reflexivity|]. cbn [map fm flat_map fst snd pm_entries].
  fold (fm (fun o : option V => o) (map (fun k => (k, m k)) ks)). rewrite IH.
  destruct (m k); reflexivity.
Qed.

Lemma fm_all {K A B} (f : A -> B) (l : list (K * A)) :
  fm (fun a => Some (f a)) l = map (fun ka => (fst ka, f (snd ka))) l.
Proof.
  induction l as [|[k a] l IH]; [reflexivity|]. cbn [fm flat_map fst snd map app].
  fold (fm (fun a => Some (f a)) l). now rewrite IH.
Qed.

Lemma fm_ext {K A B} (f g : A -> option B) (l : list (K * A)) :
  (forall a, In a (map snd l) -> f a = g a) -> fm f l = fm g l.
Proof.
  induction l as [|[k a] l IH]; intros H; [reflexivity|].
  cbn [fm flat_map fst snd]. fold (fm f l) (fm g l).
  rewrite (H a) by (left; reflexivity). rewrite IH; [reflexivity|].
  intros b Hb. apply H. right. exact Hb.
Qed.

Section Iter.
  Context {cfg : Config} {K : Type} (O : Ordinal K) (n : N) (HO : ordinal_bijection O n).

  Definition pending {A} (s : enumerate A) (l : list (K * A)) : Prop :=
    numbered O (e_next s) (map fst l) /\ e_items s = map snd l /\ e_next s + llen l <= n.

  Lemma pending_len {A} (s : enumerate A) l : pending s l -> length (e_items s) = length l.
  Proof. intros (_ & H & _). rewrite H. apply map_length. Qed.

  Lemma enumerate_refines {A} : refines (enumerate_step O (A := A)) (@pending A).
  Proof.
    intros d s l (H1 & H2 & H3). destruct d; cbn [enumerate_step].
    - unfold enumerate_next. rewrite H2. destruct l as [|[k a] l]; cbn [map pop_front snd fst].
      + exists s. split; [reflexivity|]. split; [exact H1|]. split; [exact H2|exact H3].
      + cbn [map fst] in H1. inversion H1 as [|? ? ? Ha Hb H]; subst. rewrite Ha. cbn [bind unwrap].
        unfold llen in H3. cbn [length] in H3. pose proof (bij_fits HO).
        rewrite uadd_ok by lia. cbn [bind].
        exists {| e_next := e_next s + 1; e_items := map snd l |}. cbn [deque_step fst snd].
        split; [reflexivity|]. split; [exact H|]. split; [reflexivity|]. cbn [e_next]. unfold llen. lia.
    - unfold enumerate_next_back. rewrite H2. destruct l as [|[k a] l _] using rev_ind; cbn [map pop_back].
      + exists s. split; [reflexivity|]. split; [exact H1|]. split; [exact H2|exact H3].
      + rewrite map_app in *. cbn [map snd fst] in *. rewrite pop_back_rev. rewrite deque_back. cbn [fst snd].
        apply numbered_app in H1. destruct H1 as [H1 H4].
        inversion H4 as [|? ? ? Ha Hb H]; subst. unfold llen in *. rewrite app_length in H3.
        cbn [length] in H3. rewrite map_length in *. pose proof (bij_fits HO).
        rewrite uadd_ok by lia. cbn [bind]. rewrite Ha. cbn [bind unwrap].
        exists {| e_next := e_next s; e_items := map snd l |}.
        split; [reflexivity|]. split; [exact H1|]. split; [reflexivity|]. cbn [e_next]. unfold llen. lia.
  Qed.

  Lemma pending_snoc_len {A} (s : enumerate A) l : pending s l -> enumerate_len s = llen l.
  Proof. intros H. unfold enumerate_len, llen. now rewrite (pending_len H). Qed.

  (** Cloning items. *)
  Lemma pending_clone {A} (cl : A -> A) s l : pending s l ->
    pending (enumerate_clone cl s) (map (fun ka => (fst ka, cl (snd ka))) l).
  Proof.
    intros (H1 & H2 & H3). split; [|split].
    - cbn [e_next enumerate_clone]. rewrite map_map. cbn [fst]. exact H1.
    - cbn [e_items enumerate_clone]. rewrite H2, !map_map. reflexivity.
    - cbn [e_next enumerate_clone]. unfold llen in *. rewrite map_length. exact H3.
  Qed.

  (** The sparse loop. *)
  Section Sparse.
    Context {A B : Type} (sel' : A -> res (option B)) (sel : A -> option B).

    Lemma sparse_front l : forall s fuel, pending s l -> (length l < fuel)%nat ->
      (forall a, In a (map snd l) -> sel' a = Val (sel a)) ->
      exists s' l', sparse_loop (enumerate_step O Front) sel' fuel s = Val (fst (deque_step Front (fm sel l)), s') /\
        pending s' l' /\ fm sel l' = snd (deque_step Front (fm sel l)) /\
        (exists p, l = p ++ l').
    Proof.
      induction l as [|[k a] l IH]; intros s fuel H Hf Hs.
      - destruct fuel as [|fuel]; [cbn in Hf; lia|]. cbn [sparse_loop].
        destruct (enumerate_refines Front H) as (s' & E & H'). rewrite E. cbn [bind fst deque_step fm flat_map].
        exists s', []. split; [reflexivity|]. split; [exact H'|]. split; [reflexivity|].
        exists []. reflexivity.
      - destruct fuel as [|fuel]; [cbn in Hf; lia|]. cbn [sparse_loop].
        destruct (enumerate_refines Front H) as (s' & E & H'). rewrite E. cbn [bind fst snd deque_step].
        cbn [deque_step snd] in H'.
        rewrite Hs by (left; reflexivity). cbn [bind]. cbn [fm flat_map fst snd]. fold (fm sel l).
        destruct (sel a) as [b|] eqn:Ea; cbn [app].
        + exists s', l. split; [reflexivity|]. split; [exact H'|]. split; [reflexivity|].
          exists [(k, a)]. reflexivity.
        + destruct (IH s' fuel H') as (s2 & l2 & E2 & H2 & H3 & p & Hp).
          { cbn [length] in Hf. lia. }
          { intros x Hx. apply Hs. right. exact Hx. }
          exists s2, l2. split; [exact E2|]. split; [exact H2|]. split; [exact H3|].
          exists ((k, a) :: p). cbn. now rewrite <- Hp.
    Qed.

    Lemma sparse_back l : forall s fuel, pending s l -> (length l < fuel)%nat ->
      (forall a, In a (map snd l) -> sel' a = Val (sel a)) ->
      exists s' l', sparse_loop (enumerate_step O Back) sel' fuel s = Val (fst (deque_step Back (fm sel l)), s') /\
        pending s' l' /\ fm sel l' = snd (deque_step Back (fm sel l)) /\
        (exists p, l = l' ++ p).
    Proof.
      induction l as [|[k a] l IH] using rev_ind; intros s fuel H Hf Hs.
      - destruct fuel as [|fuel]; [cbn in Hf; lia|]. cbn [sparse_loop].
        destruct (enumerate_refines Back H) as (s' & E & H'). rewrite E. cbn [bind fst deque_step fm flat_map].
        exists s', []. split; [reflexivity|]. split; [exact H'|]. split; [reflexivity|].
        exists []. reflexivity.
      - destruct fuel as [|fuel]; [cbn in Hf; lia|]. cbn [sparse_loop].
        destruct (enumerate_refines Back H) as (s' & E & H'). rewrite deque_back in *. rewrite E.
        cbn [bind fst snd] in *.
        rewrite map_app in Hs. cbn [map snd] in Hs.
        rewrite Hs by (apply in_or_app; right; left; reflexivity). cbn [bind].
        rewrite fm_app. cbn [fm flat_map fst snd]. fold (fm sel l).
        destruct (sel a) as [b|] eqn:Ea; cbn [app].
        + rewrite deque_back. exists s', l. split; [reflexivity|]. split; [exact H'|]. split; [reflexivity|].
          exists [(k, a)]. reflexivity.
        + rewrite app_nil_r. destruct (IH s' fuel H') as (s2 & l2 & E2 & H2 & H3 & p & Hp).
          { rewrite app_length in Hf. cbn [length] in Hf. lia. }
          { intros x Hx. apply Hs. apply in_or_app. left. exact Hx. }
          exists s2, l2. split; [exact E2|]. split; [exact H2|]. split; [exact H3|].
          exists (p ++ [(k, a)]). rewrite Hp. now rewrite <- app_assoc.
    Qed.

    Definition sparse_step (d : dir) (s : enumerate A) : res (option (K * B) * enumerate A) :=
      sparse_loop (enumerate_step O d) sel' (S (length (e_items s))) s.

    Lemma sparse_step_inv d l s : pending s l ->
      (forall a, In a (map snd l) -> sel' a = Val (sel a)) ->
      exists s' pre l' post, sparse_step d s = Val (fst (deque_step d (fm sel l)), s') /\
        pending s' l' /\ fm sel l' = snd (deque_step d (fm sel l)) /\ l = pre ++ l' ++ post.
    Proof.
      intros H Hs. unfold sparse_step.
      assert (Hf : (length l < S (length (e_items s)))%nat) by (rewrite (pending_len H); lia).
      destruct d.
      - destruct (@sparse_front l s _ H Hf Hs) as (s' & l' & E & H' & Hl & p & Hp).
        exists s', p, l', []. rewrite app_nil_r. auto.
      - destruct (@sparse_back l s _ H Hf Hs) as (s' & l' & E & H' & Hl & p & Hp).
        exists s', [], l', p. auto.
    Qed.

    (** The sparse iterator still has the selected entries [l]. *)
    Definition spending (s : enumerate A) (l : list (K * B)) : Prop :=
      exists l0, pending s l0 /\ l = fm sel l0 /\ (forall a, In a (map snd l0) -> sel' a = Val (sel a)).

    Lemma sparse_refines : refines sparse_step spending.
    Proof.
      intros d s l (l0 & H & -> & Hs). unfold sparse_step.
      assert (Hf : (length l0 < S (length (e_items s)))%nat) by (rewrite (pending_len H); lia).
      destruct d.
      - destruct (@sparse_front l0 s _ H Hf Hs) as (s' & l' & E & H' & Hl & p & Hp).
        exists s'. split; [exact E|]. exists l'. split; [exact H'|]. split; [now rewrite Hl|].
        intros a Ha. apply Hs. rewrite Hp, map_app. apply in_or_app. now right.
      - destruct (@sparse_back l0 s _ H Hf Hs) as (s' & l' & E & H' & Hl & p & Hp).
        exists s'. split; [exact E|]. exists l'. split; [exact H'|]. split; [now rewrite Hl|].
        intros a Ha. apply Hs. rewrite Hp, map_app. apply in_or_app. now left.
    Qed.

    Lemma spending_hint s l : spending s l -> llen l <= enumerate_len s.
    Proof.
      intros (l0 & H & -> & _). rewrite (pending_snoc_len H). unfold llen.
      pose proof (fm_length sel l0). lia.
    Qed.
  End Sparse.
End Iter.
