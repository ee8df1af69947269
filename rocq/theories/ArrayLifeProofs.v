(** * ArrayLifeProofs: lemmas for C118. *)
From Verif Require Import Base Spec SpecCatch SpecLifeRun SpecLifeEnds SpecKeyMake SpecDeriveLife SpecArrayLife ModelOrdinal ModelArrayBuilder ModelCatch ModelLife
  ModelKeyMake ModelArrayLife BaseProofs ArrayProofs LifeProofs5 LifeProofs6 KeyMakeProofs DeriveLifeProofs.
From Coq Require Import List. Import ListNotations.
Set Implicit Arguments. Unset Strict Implicit.

Section Arrays.
  Context {cfg : Config} {T : Type} (boom : list T -> T -> option panic) {E : Type} (thing : E -> T) (O : Ordinal E) (len : nat).
  Context {M : Type}.
  Notation view := (fun a : arr E len => map thing (arr_list a)).
  Notation elem := (as_element thing O).

  Lemma parts_map ws : parts (elem_of thing) ws = map thing ws.
  Proof. induction ws as [|w ws IH]; [reflexivity|]. cbn. now rewrite <- IH. Qed.

  Lemma loop_owned size turns : ORDINAL_SIZE O = Val size -> 0 < size ->
    (forall i, i < size -> (exists o, from_ordinal O i = Val o) \/ (exists w, from_ordinal O i = Panic w)) ->
    forall l m log (mm : M), (length l + turns = len)%nat ->
    agrees view (returned (array_from_loop O len size turns m (builder_of len l))) mm
      (array_from_loop_owned boom thing O len size turns m (builder_of len l) (log, mm))
      (elements_made boom elem log m (map thing l) turns).
  Proof.
    intros Hs Hp Ha. induction turns as [|turns IH]; intros l m log mm Hl; cbn [array_from_loop array_from_loop_owned elements_made].
    - destruct (N.eqb_spec m 0) as [->|Hm]; cbn [negb].
      + destruct (@finish_ok E len l) as (a & Hf & Hal); [lia|]. rewrite Hf. cbn [returned bind]. rewrite Hal.
        destruct (@finish_is T boom E (elem_of thing) len M l (log, mm)) as (a2 & F2 & Hal2); [lia|].
        unfold abind. rewrite F2. unfold look. rewrite Hal2.
        destruct (@try_arr_ok E len (rev l)) as (a' & -> & Ha'); [rewrite rev_length; lia|].
        split; [reflexivity|]. exists a'. rewrite Ha', map_rev. auto.
      + rewrite leave_ok. cbn [returned]. unfold abind. rewrite builder_end_is, parts_map.
        destruct (up_to_panic boom log (map thing l)) as [log' [w|]]; unfold agrees; cbn; auto.
    - unfold checked_rem. destruct (N.eqb_spec size 0) as [|_]; [lia|]. cbn [as_element fst snd]. rewrite Hs.
      assert (P : forall w, agrees view (@Panic (option (arr E len)) w) mm (gives boom w log mm (map thing l)) (lost boom w log (map thing l))).
      { intros w. unfold agrees, gives. cbn [fst snd]. rewrite !lost_log, !lost_end. destruct (snd (destroyed_all boom _ _ _)); cbn; eauto. }
      destruct (Ha (m mod size) ltac:(apply N.mod_lt; lia)) as [[[v|] X]|[w X]]; rewrite X; cbn [bind unwrap opt_map].
      + unfold abind. erewrite building_ended by reflexivity. erewrite building_ended by (apply push_is; lia).
        erewrite building_ended by (unfold look; rewrite udiv_ok by lia; reflexivity).
        rewrite push_ok by lia. rewrite udiv_ok by lia.
        specialize (IH (l ++ [v]) (m / size) log mm ltac:(rewrite app_length; cbn; lia)). rewrite map_app in IH. exact IH.
      + rewrite leave_ok. cbn [returned].
        erewrite bind_gives; [apply P|]. rewrite <- (parts_map l); apply (@building_gives T boom E (elem_of thing) len M _ _ log mm log mm []); reflexivity.
      + rewrite leave_ok. cbn [returned].
        erewrite bind_gives; [apply P|]. rewrite <- (parts_map l); apply (@building_gives T boom E (elem_of thing) len M _ _ log mm log mm []); reflexivity.
  Qed.

  Lemma array_owned size o log (mm : M) : ORDINAL_SIZE O = Val size ->
    (forall i, i < size -> (exists o, from_ordinal O i = Val o) \/ (exists w, from_ordinal O i = Panic w)) ->
    agrees view (from_ordinal (Ordinal_array O len) o) mm (array_from_owned boom thing O len o (log, mm)) (array_decoded boom elem log o len).
  Proof.
    intros Hs Ha. unfold array_from_owned, array_decoded. cbn [from_ordinal Ordinal_array as_element fst]. unfold array_from_ordinal. rewrite Hs, builder_new_of.
    destruct (N.eqb_spec size 0) as [->|Hz]; cbn [andb].
    2: { apply loop_owned; [exact Hs|lia|exact Ha|reflexivity]. }
    destruct len as [|len'] eqn:El; cbn [Nat.eqb negb].
    - cbn [array_from_loop array_from_loop_owned elements_made]. destruct (N.eqb_spec o 0) as [->|Hm]; cbn [negb].
      + destruct (@finish_ok E 0 [] eq_refl) as (a & Hf & Hal). rewrite Hf. cbn [returned bind]. rewrite Hal.
        destruct (@finish_is T boom E (elem_of thing) 0 M [] (log, mm) eq_refl) as (a2 & F2 & Hal2).
        unfold abind. rewrite F2. unfold look. rewrite Hal2.
        destruct (@try_arr_ok E 0 (rev []) eq_refl) as (a' & -> & Ha').
        split; [reflexivity|]. exists a'. rewrite Ha'. auto.
      + rewrite leave_ok. cbn [returned]. unfold abind. rewrite builder_end_is. unfold agrees; cbn; auto.
    - cbn [array_from_loop array_from_loop_owned]. unfold checked_rem. cbn [N.eqb]. rewrite leave_ok. cbn [returned].
      unfold abind. rewrite builder_end_is. unfold agrees; cbn; auto.
  Qed.
  Lemma array_exact size o log (mm : M) : ORDINAL_SIZE O = Val size ->
    (forall i, i < size -> (exists o, from_ordinal O i = Val o) \/ (exists w, from_ordinal O i = Panic w)) ->
    let '(log', x) := array_decoded boom elem log o len in
    exists e, array_from_owned boom thing O len o (log, mm) = ((log', mm), e) /\
      match x with
      | Some (Seen (Some ts)) => exists a, e = Ended (Some a) /\ map thing (arr_list a) = ts /\ from_ordinal (Ordinal_array O len) o = Val (Some a)
      | Some (Seen None) => e = Ended None /\ from_ordinal (Ordinal_array O len) o = Val None
      | Some (Caught w) => e = Unwinds w /\ (from_ordinal (Ordinal_array O len) o = Panic w \/ from_ordinal (Ordinal_array O len) o = Val None)
      | None => e = Aborts /\ (from_ordinal (Ordinal_array O len) o = Val None \/ exists w, from_ordinal (Ordinal_array O len) o = Panic w)
      end.
  Proof. intros Hs Ha. exact (agrees_shape (array_owned o log mm Hs Ha)). Qed.

  Lemma elements_in log turns ts : forall o made, snd (elements_made boom elem log o made turns) = Some (Seen (Some ts)) -> fst (elements_made boom elem log o made turns) = log.
  Proof.
    induction turns as [|turns IH]; intros o made; cbn [elements_made].
    - destruct (o =? 0); [reflexivity|]. destruct (up_to_panic boom log made) as [l [|]]; discriminate.
    - destruct (snd elem (o mod fst elem)) as [[t|]|w]; [apply IH| |];
        rewrite lost_end; destruct (snd (destroyed_all boom _ _ _)); discriminate.
  Qed.

  Section Lawful.
    Context (n : N) (HO : ordinal_bijection O n).
    Lemma elem_answers i : i < n -> (exists o, from_ordinal O i = Val o) \/ (exists w, from_ordinal O i = Panic w).
    Proof. intros Hi. destruct (@bij_from _ _ _ _ HO i Hi) as (v & V & _). eauto. Qed.

    Lemma array_in_range k o log (mm : M) : ORDINAL_SIZE (Ordinal_array O len) = Val k -> o < k ->
      exists a, from_ordinal (Ordinal_array O len) o = Val (Some a) /\ array_from_owned boom thing O len o (log, mm) = ((log, mm), Ended (Some a)).
    Proof.
      intros Hk Ho.
      assert (L : ordinal_bijection (Ordinal_array O len) k).
      { pose proof Hk as Hk'. cbn [ORDINAL_SIZE Ordinal_array] in Hk'. rewrite (bij_size HO) in Hk'. cbn [bind] in Hk'.
        pose proof (@usize_max_ge cfg). destruct (@size_loop_inv _ _ _ _ _ Hk' ltac:(lia)) as [-> Hm]. rewrite N.mul_1_l in *. eapply array_bijection; eauto. }
      destruct (@bij_from _ _ _ _ L o Ho) as (a & X & _).
      exists a. split; [exact X|]. destruct (@array_owned n o log mm (bij_size HO) elem_answers) as [E1 E2].
      assert (Q : forall ts, snd (array_decoded boom elem log o len) = Some (Seen (Some ts)) -> fst (array_decoded boom elem log o len) = log).
      { intros ts. unfold array_decoded. destruct (_ && _); [reflexivity|apply elements_in]. }
      rewrite X in E2. destruct (array_decoded boom elem log o len) as [l x]. destruct (array_from_owned boom thing O len o (log, mm)) as [s e].
      cbn [fst snd] in *. subst s. destruct x as [[[ts|]|w]|].
      - destruct E2 as (t' & -> & _ & E3). injection E3 as ->. now rewrite (Q ts eq_refl).
      - destruct E2 as [_ E3]. discriminate E3.
      - destruct E2 as [_ [E3|E3]]; discriminate E3.
      - destruct E2 as [_ [E3|[w E3]]]; discriminate E3.
    Qed.

    Lemma elements_lawful turns log : 0 < n -> forall m made,
      exists l', length l' = turns /\ exists ds, ordinals O n (rev l') ds /\ array_value n ds = m mod npow n turns /\
      elements_made boom elem log m made turns =
        if m / npow n turns =? 0 then (log, Some (Seen (Some (rev (made ++ map thing l')))))
        else let '(log', p) := up_to_panic boom log (made ++ map thing l') in (log', Some (shown None p)).
    Proof.
      intros Hn. induction turns as [|turns IH]; intros m made.
      - exists []. split; [reflexivity|]. exists []. split; [constructor|].
        change (npow n 0) with 1. rewrite N.mod_1_r, N.div_1_r. split; [reflexivity|]. cbn [elements_made map]. rewrite app_nil_r. reflexivity.
      - cbn [elements_made as_element fst snd]. rewrite (bij_size HO).
        destruct (@bij_from _ _ _ _ HO (m mod n)) as (v & H1 & H2); [apply N.mod_lt; lia|]. rewrite H1. cbn [opt_map].
        destruct (IH (m / n) (made ++ [thing v])) as (l' & Hl' & ds & Hds & Hval & Hres).
        exists (v :: l'). split; [cbn; lia|]. exists (ds ++ [m mod n]). split; [|split].
        + cbn [rev]. apply Forall2_app; [exact Hds|]. constructor; [|constructor]. split; [exact H2|]. apply N.mod_lt. lia.
        + unfold array_value in *. rewrite app_length. cbn [length].
          rewrite Nat.add_comm. cbn [plus repeat]. rewrite repeat_cons.
          rewrite mixed_radix_snoc by apply repeat_length.
          rewrite Hval, npow_S. rewrite N.mod_mul_r; [lia|lia|]. pose proof (npow_pos turns Hn). lia.
        + rewrite npow_S, <- N.div_div; [|lia| pose proof (npow_pos turns Hn); lia].
          rewrite <- app_assoc in Hres. cbn [app] in Hres. exact Hres.
    Qed.

    Lemma array_beyond k o log (mm : M) : ORDINAL_SIZE (Ordinal_array O len) = Val k -> 0 < k -> k <= o ->
      exists a, from_ordinal (Ordinal_array O len) (o mod k) = Val (Some a) /\
        array_from_owned boom thing O len o (log, mm) = let '(log', p) := up_to_panic boom log (rev (map thing (arr_list a))) in
          ((log', mm), match p with None => Ended None | Some w => Unwinds w end).
    Proof.
      intros Hk Hpos Ho.
      assert (L : k = npow n len /\ k <= usize_max).
      { pose proof Hk as Hk'. cbn [ORDINAL_SIZE Ordinal_array] in Hk'. rewrite (bij_size HO) in Hk'. cbn [bind] in Hk'.
        pose proof (@usize_max_ge cfg). destruct (@size_loop_inv _ _ _ _ _ Hk' ltac:(lia)) as [-> Hm]. rewrite N.mul_1_l in *. auto. }
      destruct L as [-> Hm].
      destruct (@array_from_ok _ _ _ _ len HO (o mod npow n len) Hm ltac:(apply N.mod_lt; lia)) as (a & ds & Hf & Hds & Hv).
      exists a. split; [cbn [from_ordinal Ordinal_array]; now rewrite Hf|].
      destruct (@array_owned n o log mm (bij_size HO) elem_answers) as [E1 E2].
      assert (X : array_decoded boom elem log o len = let '(log', p) := up_to_panic boom log (rev (map thing (arr_list a))) in (log', Some (shown None p))).
      { destruct (N.eq_dec n 0) as [Z|Z].
        - unfold array_decoded. cbn [as_element fst]. rewrite (bij_size HO), Z. cbn [N.eqb andb].
          destruct len as [|len'] eqn:El; [|exfalso; rewrite npow_S, Z in Hpos; lia]. cbn [Nat.eqb negb elements_made].
          destruct (N.eqb_spec o 0) as [->|]; [unfold npow in Ho; cbn in Ho; lia|].
          pose proof (arr_length a) as La. destruct (arr_list a); [reflexivity|discriminate La].
        - unfold array_decoded. cbn [as_element fst]. rewrite (bij_size HO). destruct (N.eqb_spec n 0); [lia|]. cbn [andb].
          destruct (@elements_lawful len log ltac:(lia) o []) as (l' & Hl' & es & Hes & Hval & ->).
          destruct (N.eqb_spec (o / npow n len) 0) as [Y|Y]; [apply N.div_small_iff in Y; lia|]. cbn [app].
          replace (rev (map thing (arr_list a))) with (map thing l'); [reflexivity|].
          assert (rev l' = arr_list a) as R.
          { eapply ordinals_inj; [exact HO|exact Hes|]. replace es with ds; [exact Hds|].
            pose proof (ordinals_length Hes) as G1. pose proof (ordinals_length Hds) as G2.
            rewrite arr_length in G2. rewrite rev_length, Hl' in G1.
            unfold array_value in *. apply mixed_radix_inj with (ns := repeat n len).
            - pose proof (ordinals_lt Hds) as L'. rewrite arr_length in L'. exact L'.
            - pose proof (ordinals_lt Hes) as L'. rewrite rev_length, Hl' in L'. exact L'.
            - rewrite <- G1 in Hval at 1. rewrite <- G2 in Hv at 1. congruence. }
          rewrite <- R, map_rev, rev_involutive. reflexivity. }
      rewrite X in E1, E2. destruct (up_to_panic boom log (rev (map thing (arr_list a)))) as [l p].
      destruct (array_from_owned boom thing O len o (log, mm)) as [s e]. cbn [fst snd] in *. subst s.
      destruct p as [w|]; cbn [shown] in E2; destruct E2 as [-> _]; reflexivity.
    Qed.
  End Lawful.
End Arrays.
