(** * CostProofs2: bounds for the steps of the counted functions (ModelCost.v). *)
From Verif Require Import Base Spec SpecMap SpecTotal SpecIter SpecApi ModelOrdinal ModelValues ModelArrayBuilder ModelIter ModelTotal
  ModelMap ModelSet MapMachine TotalMachine SetMachine ModelCost SpecCost BaseProofs ArrayProofs MapProofs5 CostProofs.
From Coq Require Import List. Import ListNotations.
Set Implicit Arguments. Unset Strict Implicit.

Ltac bounded := unfold cbind, one, free, steps, outcome in *; cbn [fst snd];
  repeat (match goal with |- context [match ?x with _ => _ end] => destruct x; cbn [fst snd] end); lia.

Section Bounds.
  Context {cfg : Config} {K : Type} (O : Ordinal K).

  (** ** One key *)
  Section Map.
    Context {V : Type}.
    Implicit Types m : @OrdinalMap V.
    Lemma s_get m k : steps (c_OrdinalMap_get O m k) <= 2.
    Proof. unfold c_OrdinalMap_get. prim. bounded. Qed.
    Lemma s_get_mut m k : steps (c_OrdinalMap_get_mut O m k) <= 2.
    Proof. unfold c_OrdinalMap_get_mut. prim. bounded. Qed.
    Lemma s_contains_key m k : steps (c_OrdinalMap_contains_key O m k) <= 2.
    Proof. unfold c_OrdinalMap_contains_key. prim. bounded. Qed.
    Lemma s_remove m k : steps (c_OrdinalMap_remove O m k) <= 3.
    Proof. unfold c_OrdinalMap_remove. prim. bounded. Qed.
    Lemma s_init m n : ORDINAL_SIZE O = Val n -> steps (c_OrdinalMap_init_full_map O m) = if llen m =? 0 then n else 0.
    Proof. intros E. unfold c_OrdinalMap_init_full_map. rewrite E. cbn. destruct (llen m =? 0); cbn; [|reflexivity]. reflexivity. Qed.
    Lemma s_init_size m : (forall n, ORDINAL_SIZE O <> Val n) -> steps (c_OrdinalMap_init_full_map O m) = 0.
    Proof. intros E. unfold c_OrdinalMap_init_full_map, cbind. cbn. destruct (ORDINAL_SIZE O) eqn:E1; [destruct (E a eq_refl)|..]; reflexivity. Qed.
    Lemma s_insert m k v c : steps (c_OrdinalMap_init_full_map O m) <= c -> steps (c_OrdinalMap_insert O m k v) <= c + 3.
    Proof. intros H. unfold c_OrdinalMap_insert. apply steps_le; [exact H|]. intros m' _. prim. bounded. Qed.
    Lemma s_entry m k c : steps (c_OrdinalMap_init_full_map O m) <= c -> steps (c_OrdinalMap_entry O m k) <= c + 2.
    Proof. intros H. unfold c_OrdinalMap_entry. apply steps_le; [exact H|]. intros m' _. unfold c_Entry_new. prim. bounded. Qed.
    Lemma s_entry_match st (e : Entry K) (v w : V) : steps (c_entry_match st e v w) <= 3.
    Proof. unfold c_entry_match, c_OccupiedEntry_get, c_OccupiedEntry_get_mut, c_VacantEntry_insert. prim. destruct e; bounded. Qed.
    Lemma s_Entry_or_insert st (e : Entry K) (v : V) : steps (c_Entry_or_insert st e v) <= 2.
    Proof. unfold c_Entry_or_insert. prim. destruct e; bounded. Qed.
    Lemma s_entry_or_insert st (e : Entry K) (v w : V) : steps (c_entry_or_insert st e v w) <= 4.
    Proof. unfold c_entry_or_insert. change 4 with (2 + 2). apply steps_le; [apply s_Entry_or_insert|]. intros [i st'] _. prim. bounded. Qed.
  End Map.

  (** ** Iterators *)
  Lemma pop_back_len A (l : list A) : match pop_back l with None => l = [] | Some (_, r) => llen l = llen r + 1 end.
  Proof.
    induction l as [|x l IH]; cbn [pop_back]; [reflexivity|]. destruct (pop_back l) as [[y r]|].
    - unfold llen in *. cbn [length]. lia.
    - subst l. reflexivity.
  Qed.
  Lemma pop_front_len A (l : list A) : match pop_front l with None => l = [] | Some (_, r) => llen l = llen r + 1 end.
  Proof. destruct l; cbn; [reflexivity|]. unfold llen. cbn [length]. lia. Qed.

  Lemma s_enumerate A d (s : enumerate A) : steps (c_enumerate_step O d s) <= 2 /\ (e_items s = [] -> steps (c_enumerate_step O d s) <= 1) /\
    forall o s', outcome (c_enumerate_step O d s) = Val (o, s') ->
      steps (c_enumerate_step O d s) = match o with None => 1 | Some _ => 2 end /\
      match o with None => e_items s = [] /\ e_items s' = [] | Some _ => llen (e_items s) = llen (e_items s') + 1 end.
  Proof.
    destruct d; cbn [c_enumerate_step]; prim.
    - generalize (pop_front_len (e_items s)). destruct (pop_front (e_items s)) as [[v r]|] eqn:E; intros L; cbn.
      + split; [destruct (from_ordinal O (e_next s)) as [[k|]| | | |]; cbn; lia|]. split; [intros E1; rewrite E1 in E; discriminate E|].
        intros o s'. destruct (from_ordinal O (e_next s)) as [[k|]| | | |]; cbn; try discriminate.
        destruct (uadd (e_next s) 1); cbn; try discriminate. intros E1. injection E1 as <- <-. auto.
      + split; [lia|]. split; [lia|]. intros o s' E1. injection E1 as <- <-. auto.
    - generalize (pop_back_len (e_items s)). destruct (pop_back (e_items s)) as [[v r]|] eqn:E; intros L; cbn.
      + split; [destruct (uadd (e_next s) (llen r)); cbn; try lia; destruct (from_ordinal O a) as [[k|]| | | |]; cbn; lia|].
        split; [intros E1; rewrite E1 in E; discriminate E|].
        intros o s'. destruct (uadd (e_next s) (llen r)); cbn; try discriminate. destruct (from_ordinal O a) as [[k|]| | | |]; cbn; try discriminate.
        intros E1. injection E1 as <- <-. auto.
      + split; [lia|]. split; [lia|]. intros o s' E1. injection E1 as <- <-. auto.
  Qed.

  Lemma s_total A : walks (fun d (s : enumerate A) => c_enumerate_step O d s) (fun s => llen (e_items s)) 2 2.
  Proof.
    intros d s. destruct (s_enumerate d s) as (H1 & H0 & H2). split.
    - destruct (e_items s); [specialize (H0 eq_refl); lia|]. unfold llen. cbn [length]. lia.
    - intros o s' E. destruct (H2 _ _ E) as (H3 & H4). destruct o as [x|].
      + exists 1. lia.
      + destruct H4 as (H4 & H5). exists 0. rewrite H4, H5. cbn. lia.
  Qed.

  Lemma s_sparse A B (sel : A -> res (option B)) d fuel : forall s : enumerate A, steps (c_sparse_loop O sel d fuel s) <= 3 * llen (e_items s) + 1 /\
      forall o s', outcome (c_sparse_loop O sel d fuel s) = Val (o, s') ->
      exists p, llen (e_items s) = llen (e_items s') + p /\
        match o with
        | None => llen (e_items s') = 0 /\ 3 * p + 1 <= steps (c_sparse_loop O sel d fuel s) <= 3 * p + 1
        | Some _ => 1 <= p /\ 3 * p <= steps (c_sparse_loop O sel d fuel s) <= 3 * p
        end.
  Proof.
    induction fuel as [|fuel IH]; intros s; cbn [c_sparse_loop]; [cbn; split; [lia|discriminate]|].
    generalize (s_enumerate d s). generalize (c_enumerate_step O d s). intros [n r] (H1 & H0 & H2). unfold steps, outcome in *. cbn [fst snd] in *.
    destruct r as [[o s1]| | | |]; unfold cbind; cbn [outcome steps fst snd].
    2-5: split; [|intros o s' X; discriminate X]; destruct (e_items s) as [|a l];
      [specialize (H0 eq_refl); lia|unfold llen; cbn [length]; lia].
    destruct (H2 _ _ eq_refl) as (H3 & H4). rewrite H3.
    destruct o as [[k a]|]; cbn [one free outcome snd steps fst].
    - destruct (sel a) as [[v|]| | | |]; cbn [one free outcome snd steps fst].
      3-6: split; [lia|intros o s' X; discriminate X].
      + split; [lia|]. intros o s' X. injection X as <- <-. exists 1. lia.
      + destruct (IH s1) as (I1 & I2). unfold steps, outcome in *. split; [lia|]. intros o s' X. destruct (I2 _ _ X) as (p & P1 & P2).
        exists (p + 1). split; [lia|]. destruct o; lia.
    - destruct H4 as (H4 & H5). rewrite H4. split; [lia|]. intros o s' X. injection X as <- <-. rewrite H5. exists 0. cbn. lia.
  Qed.
  Lemma s_Iter V : walks (@c_Iter_step cfg K O V) (fun s => llen (e_items s)) 3 3.
  Proof. intros d s. apply s_sparse. Qed.
  Lemma s_IterMut V (st : list (option V)) : walks (c_IterMut_step O st) (fun s => llen (e_items s)) 3 3.
  Proof. intros d s. apply s_sparse. Qed.
  Lemma s_mapped St A B (cstep : dir -> St -> counted (option A * St)) left lo hi (f : A -> B) : walks cstep left lo hi ->
    walks (fun d s => '(o, s') <~ cstep d s ;; free (Val (opt_map f o, s'))) left lo hi.
  Proof.
    intros W d s. destruct (W d s) as (H1 & H2). destruct (cstep d s) as [n r]. unfold cbind, steps, outcome in *. cbn [fst snd] in *.
    destruct r as [[o s1]| | | |]; cbn [fst snd free]; (split; [lia|]); intros o' s' X; try discriminate X. injection X as <- <-.
    destruct (H2 _ _ eq_refl) as (p & P1 & P2). exists p. split; [exact P1|]. destruct o; cbn [opt_map]; lia.
  Qed.
  Lemma s_Keys V : walks (@c_Keys_step cfg K O V) (fun s => llen (e_items s)) 3 3.
  Proof. exact (s_mapped fst (@s_Iter V)). Qed.
  Lemma s_Values V : walks (@c_Values_step cfg K O V) (fun s => llen (e_items s)) 3 3.
  Proof. exact (s_mapped snd (@s_Iter V)). Qed.
  Lemma s_ValuesMut V (st : list (option V)) : walks (c_ValuesMut_step O st) (fun s => llen (e_items s)) 3 3.
  Proof. exact (s_mapped snd (@s_IterMut V st)). Qed.

  Lemma s_Drain_loop V d fuel : forall s : @Drain V, steps (c_Drain_loop O d fuel s) <= 4 * llen (e_items (snd s)) + 1 /\
      forall o s', outcome (c_Drain_loop O d fuel s) = Val (o, s') ->
      exists p, llen (e_items (snd s)) = llen (e_items (snd s')) + p /\
        match o with
        | None => llen (e_items (snd s')) = 0 /\ 4 * p + 1 <= steps (c_Drain_loop O d fuel s) <= 4 * p + 1
        | Some _ => 1 <= p /\ 4 * p <= steps (c_Drain_loop O d fuel s) <= 4 * p
        end.
  Proof.
    induction fuel as [|fuel IH]; intros [st it]; cbn [c_Drain_loop fst snd]; [cbn; split; [lia|discriminate]|].
    generalize (s_enumerate d it). generalize (c_enumerate_step O d it). intros [n r] (H1 & H0 & H2). unfold steps, outcome in *. cbn [fst snd] in *.
    destruct r as [[o s1]| | | |]; unfold cbind; cbn [outcome steps fst snd].
    2-5: split; [|intros o s' X; discriminate X]; destruct (e_items it) as [|a l];
      [specialize (H0 eq_refl); lia|unfold llen; cbn [length]; lia].
    destruct (H2 _ _ eq_refl) as (H3 & H4). rewrite H3.
    destruct o as [[k a]|]; cbn [c_deref c_put one free outcome snd steps fst].
    - destruct (deref st a) as [[v|]| | | |]; cbn [one free outcome snd steps fst].
      3-6: split; [lia|intros o s' X; discriminate X].
      + split; [lia|]. intros o s' X. injection X as <- <-. exists 1. cbn [snd]. lia.
      + destruct (IH (store_at st a None, s1)) as (I1 & I2). unfold steps, outcome, Drain, TIterMut in *. cbn [snd] in *. split; [lia|]. intros o s' X.
        destruct (I2 _ _ X) as (p & P1 & P2). exists (p + 1). split; [lia|]. destruct o; lia.
    - destruct H4 as (H4 & H5). rewrite H4. split; [lia|]. intros o s' X. injection X as <- <-. cbn [snd]. rewrite H5. exists 0. cbn. lia.
  Qed.
  Lemma s_Drain V : walks (@c_Drain_step cfg K O V) (fun s => llen (e_items (snd s))) 4 4.
  Proof. intros d s. apply s_Drain_loop. Qed.

  (** Any schedule, and running to the end. *)
  Lemma s_drive St A (cstep : dir -> St -> counted (option A * St)) left lo hi : walks cstep left lo hi ->
    forall sched s, steps (c_drive cstep sched s) <= hi * left s + llen sched.
  Proof.
    intros W. induction sched as [|d sched IH]; intros s; cbn [c_drive]; [cbn; lia|].
    destruct (W d s) as (H1 & H2). destruct (cstep d s) as [n r]. unfold cbind, steps, outcome in *. cbn [fst snd] in *.
    assert (L : llen (d :: sched) = llen sched + 1) by (unfold llen; cbn [length]; lia). rewrite L.
    destruct r as [[o s1]| | | |]; cbn [fst snd]; [|lia..].
    destruct (H2 _ _ eq_refl) as (p & P1 & P2). specialize (IH s1). destruct (c_drive cstep sched s1) as [n1 r1]. cbn [fst snd] in *.
    assert (hi * left s = hi * left s1 + hi * p) by (rewrite P1; lia).
    assert (n <= hi * p + 1) by (destruct o; lia).
    destruct r1 as [[os s2]| | | |]; cbn [fst snd free]; lia.
  Qed.
  Lemma s_collect St A (cstep : dir -> St -> counted (option A * St)) left lo hi d : walks cstep left lo hi ->
    forall fuel s, steps (c_collect (cstep d) fuel s) <= hi * left s + 1 /\
      forall l s', outcome (c_collect (cstep d) fuel s) = Val (l, s') ->
        lo * left s + 1 <= steps (c_collect (cstep d) fuel s) <= hi * left s + 1 /\ left s' = 0.
  Proof.
    intros W. induction fuel as [|fuel IH]; intros s; cbn [c_collect]; [cbn; split; [lia|discriminate]|].
    destruct (W d s) as (H1 & H2). destruct (cstep d s) as [n r]. unfold cbind, steps, outcome in *. cbn [fst snd] in *.
    destruct r as [[o s1]| | | |]; cbn [fst snd]; try (split; [lia|intros l s' X; discriminate X]).
    destruct (H2 _ _ eq_refl) as (p & P1 & P2).
    assert (Eh : hi * left s = hi * left s1 + hi * p) by (rewrite P1; lia).
    assert (El : lo * left s = lo * left s1 + lo * p) by (rewrite P1; lia).
    destruct o as [a|].
    - destruct (IH s1) as (I1 & I2). destruct (c_collect (cstep d) fuel s1) as [n1 r1]. cbn [fst snd] in *.
      destruct r1 as [[os s2]| | | |]; cbn [fst snd free]; (split; [lia|]); intros l s' X; try discriminate X.
      injection X as <- <-. destruct (I2 _ _ eq_refl). split; [lia|assumption].
    - cbn [fst snd free]. destruct P2 as (P2 & P3). rewrite P2 in *. split; [lia|]. intros l s' X. injection X as <- <-. split; [lia|assumption].
  Qed.

  (** [len], [is_empty], [clear]. *)
  Lemma s_count V fuel : forall (s : @Iter V) c, steps (c_Iter_count_loop O fuel s c) <= 3 * llen (e_items s) + 1 /\
    forall r, outcome (c_Iter_count_loop O fuel s c) = Val r -> steps (c_Iter_count_loop O fuel s c) = 3 * llen (e_items s) + 1.
  Proof.
    induction fuel as [|fuel IH]; intros s c; cbn [c_Iter_count_loop]; [cbn; split; [lia|discriminate]|].
    destruct (s_Iter Front s) as (H1 & H2). destruct (c_Iter_step O Front s) as [n r]. unfold cbind, steps, outcome in *. cbn [fst snd] in *.
    destruct r as [[o s1]| | | |]; cbn [fst snd]; try (split; [lia|intros l X; discriminate X]).
    destruct (H2 _ _ eq_refl) as (p & P1 & P2). destruct o as [a|].
    - cbn [free fst snd]. destruct (uadd c 1) as [c'| | | |]; cbn [fst snd]; try (split; [lia|intros l X; discriminate X]).
      destruct (IH s1 c') as (I1 & I2). split; [lia|]. intros r X. rewrite (I2 _ X). lia.
    - cbn [free fst snd]. split; [lia|]. intros. lia.
  Qed.
  Lemma s_len V (m : @OrdinalMap V) : steps (c_OrdinalMap_len O m) <= 3 * llen m + 1 /\
    forall r, OrdinalMap_len O m = Val r -> steps (c_OrdinalMap_len O m) = 3 * llen m + 1.
  Proof. rewrite <- e_OrdinalMap_len. apply s_count. Qed.
  Lemma s_array_len V S (m : @OrdinalArrayMap V S) : steps (c_OrdinalArrayMap_len O m) <= 3 * N.of_nat S + 1 /\
    forall r, OrdinalArrayMap_len O m = Val r -> steps (c_OrdinalArrayMap_len O m) = 3 * N.of_nat S + 1.
  Proof.
    rewrite <- e_OrdinalArrayMap_len.
    replace (N.of_nat S) with (llen (e_items (OrdinalArrayMap_iter m))); [apply s_count|].
    unfold llen, OrdinalArrayMap_iter. cbn. now rewrite arr_length.
  Qed.
End Bounds.
