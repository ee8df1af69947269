(** * ValuesProofs: proofs about OrdinalValues (C20 - C22). *)
From Verif Require Import Base Spec ModelValues BaseProofs IterLib.
From Coq Require Import String List.
Import ListNotations.

Section Values.
  Context {cfg : Config} {T : Type} (O : Ordinal T) (n : N) (HO : ordinal_bijection O n).

  (** [l] lists the values with ordinals [a, a+1, ...]. *)
  Inductive numbered : N -> list T -> Prop :=
  | numbered_nil a : numbered a []
  | numbered_cons a t l : from_ordinal O a = Val (Some t) -> ordinal O t = Val a ->
      numbered (a + 1) l -> numbered a (t :: l).

  Lemma numbered_app a l1 l2 :
    numbered a (l1 ++ l2) <-> numbered a l1 /\ numbered (a + llen l1) l2.
  Proof.
    revert a. induction l1 as [|t l1 IH]; intros a; cbn [app].
    - unfold llen. cbn. rewrite N.add_0_r. split; [intros H; split; [constructor|exact H]|intros [_ H]; exact H].
    - unfold llen in *. cbn [List.length]. replace (a + N.of_nat (S (List.length l1)))
        with (a + 1 + N.of_nat (List.length l1)) by lia.
      split.
      + intros H. inversion H; subst. apply IH in H5 as [H5 H6].
        split; [constructor; assumption|exact H6].
      + intros [H1 H2]. inversion H1; subst. constructor; auto. apply IH. auto.
  Qed.

  Lemma numbered_exists k a : a + N.of_nat k <= n -> exists l, numbered a l /\ List.length l = k.
  Proof.
    revert a. induction k as [|k IH]; intros a Hk.
    - exists []. split; [constructor|reflexivity].
    - destruct (bij_from HO (i := a)) as (t & H1 & H2); [lia|].
      destruct (IH (a + 1)) as (l & Hl & El); [lia|].
      exists (t :: l). split; [constructor; assumption|]. cbn. congruence.
  Qed.

  Lemma numbered_unique a l1 l2 : numbered a l1 -> numbered a l2 ->
    List.length l1 = List.length l2 -> l1 = l2.
  Proof.
    intros H. revert l2. induction H as [a|a t l H1 H2 H IH]; intros [|u l2] G E; try discriminate E.
    - reflexivity.
    - inversion G; subst. f_equal; [congruence|]. apply IH; [assumption|]. now injection E.
  Qed.

  Lemma numbered_In a l t : numbered a l -> In t l ->
    exists i, ordinal O t = Val i /\ a <= i < a + llen l.
  Proof.
    induction 1 as [a|a u l H1 H2 H IH]; [intros []|]. unfold llen in *. cbn [List.length].
    intros [->|Hin].
    - exists a. split; [exact H2|lia].
    - destruct (IH Hin) as (i & Hi & Hr). exists i. split; [exact Hi|lia].
  Qed.

  Lemma numbered_has a l t i : numbered a l -> ordinal O t = Val i -> a <= i < a + llen l -> In t l.
  Proof.
    induction 1 as [a|a u l H1 H2 H IH]; unfold llen in *; cbn [List.length]; intros Ht Hi; [lia|].
    destruct (N.eq_dec i a) as [->|Hne].
    - left. eapply bij_inj; eassumption.
    - right. apply IH; [exact Ht|lia].
  Qed.

  Lemma numbered_sorted a l : numbered a l -> StronglySorted (ordinal_before O) l.
  Proof.
    induction 1 as [a|a t l H1 H2 H IH]; constructor; [exact IH|].
    apply Forall_forall. intros u Hu. destruct (numbered_In u H Hu) as (i & Hi & Hr).
    exists a, i. split; [exact H2|]. split; [exact Hi|lia].
  Qed.

  Lemma numbered_enumeration l : numbered 0 l -> llen l = n -> enumeration O l.
  Proof.
    intros H Hl. split; [|apply numbered_sorted in H; exact H].
    intros t. destruct (bij_to HO t) as (i & Hi & Hlt & _).
    eapply numbered_has; [exact H|exact Hi|]. rewrite Hl. lia.
  Qed.

  (** The iterator state [s] still has to yield [l]. *)
  Definition remaining (s : OrdinalValues) (l : list T) : Prop :=
    numbered (r_start s) l /\ r_end s = r_start s + llen l /\ r_end s <= n.

  Lemma values_refines : refines (values_step O) remaining.
  Proof.
    intros d s l (H1 & H2 & H3). destruct d.
    - cbn [values_step]. unfold values_next, range_next. destruct l as [|t l].
      + unfold llen in H2; cbn in H2. rewrite H2, N.add_0_r, N.ltb_irrefl.
        exists s. cbn. split; [reflexivity|]. split; [constructor|]. unfold llen. cbn. lia.
      + unfold llen in H2; cbn [List.length] in H2. inversion H1 as [|? ? ? Ha Hb H]; subst.
        destruct (N.ltb_spec (r_start s) (r_end s)); [|lia].
        rewrite Ha. cbn [bind unwrap deque_step fst snd]. eexists. split; [reflexivity|].
        split; [exact H|]. cbn [r_start r_end]. unfold llen. lia.
    - cbn [values_step]. unfold values_next_back, range_next_back.
      destruct l as [|t l] using rev_ind.
      + unfold llen in H2; cbn in H2. rewrite H2, N.add_0_r, N.ltb_irrefl.
        exists s. cbn. split; [reflexivity|]. split; [constructor|]. unfold llen. cbn. lia.
      + clear IHl. rewrite deque_back. cbn [fst snd]. unfold llen in H2.
        rewrite app_length in H2. cbn [List.length] in H2.
        destruct (N.ltb_spec (r_start s) (r_end s)); [|lia].
        apply numbered_app in H1 as [G1 G2]. inversion G2 as [|? ? ? Ha Hb G3]; subst.
        unfold llen in *. replace (r_end s - 1) with (r_start s + N.of_nat (List.length l)) by lia.
        rewrite Ha. cbn [bind unwrap]. eexists. split; [reflexivity|].
        split; [exact G1|]. cbn [r_start r_end]. unfold llen. lia.
  Qed.

  Lemma values_init : exists l s, values_new O = Val s /\ remaining s l /\ llen l = n /\
    enumeration O l /\ numbered 0 l.
  Proof.
    destruct (numbered_exists (N.to_nat n) 0) as (l & Hl & El); [lia|].
    assert (Hn : llen l = n) by (unfold llen; lia).
    exists l, {| r_start := 0; r_end := n |}. unfold values_new. rewrite (bij_size HO).
    split; [reflexivity|]. split; [|split; [exact Hn|split; [apply numbered_enumeration; assumption|exact Hl]]].
    split; [exact Hl|]. cbn [r_start r_end]. rewrite Hn. lia.
  Qed.

  Lemma enumeration_unique l1 l2 : enumeration O l1 -> enumeration O l2 -> l1 = l2.
  Proof.
    intros [A1 S1] [A2 S2].
    assert (Hbefore : forall x y, ordinal_before O x y -> ordinal_before O y x -> False).
    { intros x y (i & j & H1 & H2 & H3) (k & m & H4 & H5 & H6).
      assert (i = m) by congruence. assert (j = k) by congruence. lia. }
    assert (G : forall l1 l2, StronglySorted (ordinal_before O) l1 ->
      StronglySorted (ordinal_before O) l2 -> (forall t, In t l1 <-> In t l2) -> l1 = l2).
    { clear -Hbefore. intros l1. induction l1 as [|x l1 IH]; intros l2 S1 S2 E.
      - destruct l2 as [|y l2]; [reflexivity|]. exfalso. apply (E y). left. reflexivity.
      - destruct l2 as [|y l2]; [exfalso; apply (E x); left; reflexivity|].
        inversion S1 as [|? ? S1' F1]; subst. inversion S2 as [|? ? S2' F2]; subst.
        rewrite Forall_forall in F1, F2.
        assert (x = y).
        { destruct (proj1 (E x) (or_introl eq_refl)) as [->|Hx]; [reflexivity|].
          destruct (proj2 (E y) (or_introl eq_refl)) as [->|Hy]; [reflexivity|].
          exfalso. eapply Hbefore; [apply F1, Hy|apply F2, Hx]. }
        subst y. f_equal. apply IH; [exact S1'|exact S2'|]. intros t. split; intros Ht.
        + destruct (proj1 (E t) (or_intror Ht)) as [<-|H]; [|exact H].
          exfalso. eapply Hbefore; apply F1, Ht.
        + destruct (proj2 (E t) (or_intror Ht)) as [<-|H]; [|exact H].
          exfalso. eapply Hbefore; apply F2, Ht. }
    apply G; [exact S1|exact S2|]. intros t. split; auto.
  Qed.

  Lemma enumeration_numbered l : enumeration O l -> numbered 0 l /\ llen l = n.
  Proof.
    intros H. destruct values_init as (l' & s & _ & _ & Hn & He & Hnum).
    rewrite (enumeration_unique H He). auto.
  Qed.

  (** *** C20 *)
  Lemma all_values_collect l fuel : enumeration O l -> (List.length l < fuel)%nat ->
    exists s s', values_new O = Val s /\ collect (values_next O) fuel s = Val (l, s').
  Proof.
    intros He Hf. destruct values_init as (l' & s & Hs & Hr & _ & He' & _).
    assert (l' = l) by (eapply enumeration_unique; eassumption). subst l'.
    destruct (@collect_refines _ _ _ _ values_refines fuel s l Hr Hf) as (s' & Hc & _).
    exists s, s'. split; [exact Hs|exact Hc].
  Qed.

  Lemma all_values_law : exists l s, enumeration O l /\ llen l = n /\ values_new O = Val s /\
    forall fuel, (List.length l < fuel)%nat -> exists s', collect (values_next O) fuel s = Val (l, s').
  Proof.
    destruct values_init as (l & s & Hs & Hr & Hn & He & _).
    exists l, s. split; [exact He|]. split; [exact Hn|]. split; [exact Hs|]. intros fuel Hf.
    destruct (@collect_refines _ _ _ _ values_refines fuel s l Hr Hf) as (s' & Hc & _).
    exists s'. exact Hc.
  Qed.

  (** *** C21 *)
  Lemma remaining_len s l : remaining s l -> range_len s = llen l.
  Proof. intros (_ & H & _). unfold range_len. lia. Qed.

  Lemma remaining_last s l : remaining s l -> values_last O s = Val (last_opt l).
  Proof.
    intros H. destruct (values_refines Back H) as (s' & E & _).
    unfold values_last. cbn [values_step] in E. rewrite E. reflexivity.
  Qed.

  Lemma all_values_iterator l sched : enumeration O l ->
    exists s s', values_new O = Val s /\
      drive (values_step O) sched s = Val (fst (deque_run sched l), s') /\
      let rest := snd (deque_run sched l) in
      values_len s' = llen rest /\
      values_size_hint s' = (llen rest, Some (llen rest)) /\
      values_count s' = llen rest /\
      values_last O s' = Val (last_opt rest).
  Proof.
    intros He. destruct values_init as (l' & s & Hs & Hr & _ & He' & _).
    assert (l' = l) by (eapply enumeration_unique; eassumption). subst l'.
    destruct (@drive_refines _ _ _ _ values_refines sched s l Hr) as (s' & Hd & Hr').
    exists s, s'. split; [exact Hs|]. split; [exact Hd|]. cbn zeta.
    unfold values_len, values_size_hint, values_count. rewrite (remaining_len Hr').
    repeat (split; [reflexivity|]). apply remaining_last, Hr'.
  Qed.

  (** *** C22 *)
  Lemma values_debug_law show l sched rest : enumeration O l -> rest = snd (deque_run sched l) ->
    exists s os s', values_new O = Val s /\ drive (values_step O) sched s = Val (os, s') /\
      (rest = [] -> values_debug O show s' = Val "[]"%string) /\
      (forall pre first more, l = pre ++ rest -> rest = first :: more ->
         values_debug O show s' = Val ("[" ++ show first ++ "..]")%string) /\
      (forall only, rest = [only] -> (forall pre, l <> pre ++ rest) ->
         values_debug O show s' = Val ("[" ++ show only ++ "]")%string) /\
      (forall first middle last, rest = first :: middle ++ [last] -> (forall pre, l <> pre ++ rest) ->
         values_debug O show s' = Val ("[" ++ show first ++ "..=" ++ show last ++ "]")%string).
  Proof.
    intros He ->. destruct values_init as (l' & s & Hs & Hr & Hn & He' & Hnum).
    assert (l' = l) by (eapply enumeration_unique; eassumption). subst l'.
    destruct (@drive_refines _ _ _ _ values_refines sched s l Hr) as (s' & Hd & Hr').
    exists s, (fst (deque_run sched l)), s'. split; [exact Hs|]. split; [exact Hd|].
    set (rest := snd (deque_run sched l)) in *.
    destruct (deque_run_infix sched l) as (a & b & Hl). fold rest in Hl.
    assert (Hpos : rest <> [] -> r_start s' = llen a).
    { intros Hne. destruct Hr' as [G _]. destruct rest as [|x r]; [contradiction|].
      inversion_clear G as [|? ? ? Ga Gb _]. rewrite Hl in Hnum. apply numbered_app in Hnum as [_ Hnum].
      inversion_clear Hnum as [|? ? ? Gc Gd _]. replace (0 + llen a) with (llen a) in * by lia. congruence. }
    assert (Hend : rest <> [] -> (r_end s' = n <-> b = [])).
    { intros Hne. specialize (Hpos Hne). destruct Hr' as (_ & E & _).
      assert (n = llen a + llen rest + llen b).
      { rewrite <- Hn, Hl. unfold llen. rewrite !app_length. lia. }
      rewrite E, Hpos. destruct b; [|unfold llen in *; cbn [List.length] in *].
      - unfold llen in *. cbn in *. split; [reflexivity|lia].
      - split; [lia|discriminate]. }
    assert (Hnob : (forall pre, l <> pre ++ rest) -> b <> []).
    { intros H ->. apply (H a). rewrite app_nil_r in Hl. exact Hl. }
    assert (Hyesb : forall pre, rest <> [] -> l = pre ++ rest -> b = []).
    { intros pre Hne E.
      assert (G : a ++ rest ++ b = pre ++ rest) by congruence.
      assert (Hlen : numbered 0 (pre ++ rest)) by (rewrite <- E; exact Hnum).
      apply numbered_app in Hlen as [_ G2]. destruct rest as [|x r]; [contradiction|].
      inversion_clear G2 as [|? ? ? Ga Gb _].
      pose proof (Hpos ltac:(discriminate)) as Hp. destruct Hr' as [G3 _]. inversion_clear G3 as [|? ? ? Gc Gd _].
      assert (0 + llen pre = llen a) by congruence.
      apply (f_equal (@List.length T)) in G. rewrite !app_length in G. unfold llen in *.
      destruct b; [reflexivity|cbn [List.length] in G; lia]. }
    assert (Hdbg : forall first more, rest = first :: more ->
      exists s1, values_next O s' = Val (Some first, s1) /\ remaining s1 more).
    { intros first more E. destruct (values_refines Front Hr') as (s1 & E1 & R1).
      rewrite E in E1, R1. cbn [deque_step fst snd values_step] in *. eauto. }
    unfold values_debug, values_clone. rewrite (bij_size HO). cbn [bind].
    replace {| r_start := r_start s'; r_end := r_end s' |} with s' by (destruct s'; reflexivity).
    split; [|split; [|split]].
    - intros E. destruct (values_refines Front Hr') as (s1 & E1 & R1).
      rewrite E in E1. cbn [deque_step fst snd values_step] in E1. rewrite E1. reflexivity.
    - intros pre first more E1 E2. destruct (Hdbg _ _ E2) as (s1 & H1 & _). rewrite H1. cbn [bind].
      assert (Hne : rest <> []) by (rewrite E2; discriminate).
      rewrite (proj2 (Hend Hne) (Hyesb pre Hne E1)), N.eqb_refl. reflexivity.
    - intros only E H. destruct (Hdbg _ _ E) as (s1 & H1 & R1). rewrite H1. cbn [bind].
      assert (Hne : rest <> []) by (rewrite E; discriminate).
      destruct (N.eqb_spec (r_end s') n) as [Heq|_].
      { exfalso. apply (Hnob H). apply (Hend Hne), Heq. }
      destruct (values_refines Back R1) as (s2 & E2 & _).
      cbn [values_step deque_step rev fst] in E2. rewrite E2. reflexivity.
    - intros first middle last E H. destruct (Hdbg _ _ E) as (s1 & H1 & R1). rewrite H1. cbn [bind].
      assert (Hne : rest <> []) by (rewrite E; discriminate).
      destruct (N.eqb_spec (r_end s') n) as [Heq|_].
      { exfalso. apply (Hnob H). apply (Hend Hne), Heq. }
      destruct (values_refines Back R1) as (s2 & E2 & _).
      rewrite deque_back in E2. cbn [values_step fst] in E2. rewrite E2. reflexivity.
  Qed.
End Values.
