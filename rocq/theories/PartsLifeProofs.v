(** * PartsLifeProofs: lemmas for C119. *)
From Verif Require Import Base Spec SpecDerive SpecCatch SpecLifeRun SpecLifeEnds SpecKeyMake SpecPartsLife ModelOrdinal ModelArrayBuilder ModelDerive ModelCatch ModelLife
  ModelKeyMake ModelDeriveLife ModelArrayLife ModelPartsLife
  BaseProofs ArrayProofs DeriveProofs DeriveProofs2 DeriveProofs3 LifeProofs5 LifeProofs6 KeyMakeProofs DeriveLifeProofs ArrayLifeProofs.
From Coq Require Import String List. Import ListNotations.
Set Implicit Arguments. Unset Strict Implicit.

Section Walk.
  Context {T St : Type} (boom : list T -> T -> option panic).
  Notation state := (list T * St)%type.
  Fixpoint walk_called (s : state) (m : N) (made : list T) (ps : list (part (T := T) (St := St))) : state * ((N * list T) + option (panic * list T)) :=
    match ps with
    | [] => (s, inl (m, made))
    | p :: ps' =>
        let '(s', x) := snd p (m mod fst p) s in
        match x with
        | Some (Seen (Some t)) => walk_called s' (m / fst p) (t :: made) ps'
        | Some (Seen None) => (s', inr (Some (PUnwrap, made)))
        | Some (Caught w) => (s', inr (Some (w, made)))
        | None => (s', inr None)
        end
    end.
  Lemma walk_called_app a b : forall s m made,
    walk_called s m made (a ++ b) = match walk_called s m made a with (s', inl (m', made')) => walk_called s' m' made' b | x => x end.
  Proof.
    induction a as [|p a IH]; intros s m made; cbn [app walk_called]; [reflexivity|].
    destruct (snd p (m mod fst p) s) as [s' [[[t|]|w]|]]; auto.
  Qed.
  Lemma called_walk ps : forall s m made,
    fields_called boom s m made ps = match walk_called s m made ps with
      | (s', inl (m', made')) => if m' =? 0 then (s', Some (Seen (Some made')))
                                 else let '(log', p) := destroyed_all boom None (fst s') made' in ((log', snd s'), opt_map (shown None) p)
      | (s', inr (Some (w, made'))) => given_up boom w s' made'
      | (s', inr None) => (s', None)
      end.
  Proof.
    induction ps as [|p ps IH]; intros s m made; cbn [fields_called walk_called]; [reflexivity|].
    unfold part_made. destruct (snd p (m mod fst p) s) as [s' [[[t|]|w]|]]; auto.
  Qed.
End Walk.

Section AsCalls.
  Context {T M : Type} (boom : list T -> T -> option panic).
  (** [x] behaves as [want], and is not stuck. *)
  Definition behaves {A B} (f : A -> B) (got : (list T * M) * ending (option A)) (want : (list T * M) * option (seen (option B))) : Prop :=
    (let '(s', e) := got in (s', match e with Ended o => Some (Seen (opt_map f o)) | Unwinds w => Some (Caught w) | Aborts | Stuck => None end)) = want /\
    snd got <> Stuck.
  Lemma behaves_gives A B (f : A -> B) w s ts : behaves f (gives boom w (fst s) (snd s) ts) (given_up boom w s ts).
  Proof.
    unfold behaves, gives, given_up. rewrite !lost_log, !lost_end.
    assert (L : forall X, @lost T boom X w (fst s) ts = (fst (destroyed_all boom (Some w) (fst s) ts),
      match snd (destroyed_all boom (Some w) (fst s) ts) with Some _ => Some (Caught w) | None => None end)).
    { intros X. rewrite <- (lost_log boom X), <- (lost_end boom X). destruct (lost boom w (fst s) ts); reflexivity. }
    rewrite L. destruct (snd (destroyed_all boom (Some w) (fst s) ts)); cbn; split; try reflexivity; discriminate.
  Qed.
  Lemma unwrapped_gives A s s' (x : act (list T * M) (option A)) : x s = (s', Ended None) -> unwrapped x s = gives boom PUnwrap (fst s') (snd s') [].
  Proof. intros E. unfold unwrapped, abind. rewrite E. destruct s'. reflexivity. Qed.
  Lemma unwrapped_unwinds A s s' w (x : act (list T * M) (option A)) : x s = (s', Unwinds w) -> unwrapped x s = gives boom w (fst s') (snd s') [].
  Proof. intros E. unfold unwrapped, abind. rewrite E. destruct s'. reflexivity. Qed.
  Lemma unwrapped_some A s s' a (x : act (list T * M) (option A)) : x s = (s', Ended (Some a)) -> unwrapped x s = (s', Ended a).
  Proof. intros E. unfold unwrapped, abind. now rewrite E. Qed.
  Lemma unwrapped_aborts A s s' (x : act (list T * M) (option A)) : x s = (s', Aborts) -> unwrapped x s = (s', Aborts).
  Proof. intros E. unfold unwrapped, abind. now rewrite E. Qed.
End AsCalls.

Section Run.
  Context {cfg : Config} {T : Type} (boom : list T -> T -> option panic) (thing : forall f : ftype, ft_T f -> T) {M : Type}.
  Context (dec : forall f : ftype, N -> act (list T * M) (option (ft_T f))).
  Notation run := (run_stmts_called boom thing dec).
  Notation field_part := (as_part thing dec).
  Definition runs (f : ftype) : Prop := forall n i s, ORDINAL_SIZE (ft_ord f) = Val n -> i < n -> snd (dec f i s) <> Stuck.

  Lemma bind_assoc A B C (x : act (list T * M) A) (k : A -> act (list T * M) B) (g : B -> act (list T * M) C) s :
    abind (abind x k) g s = abind x (fun a => abind (k a) g) s.
  Proof. unfold abind. destruct (x s) as [s' []]; reflexivity. Qed.
  Lemma bind_ext A B (x : act (list T * M) A) (k g : A -> act (list T * M) B) s : (forall a s', k a s' = g a s') -> abind x k s = abind x g s.
  Proof. intros H. unfold abind. destruct (x s) as [s' []]; auto. Qed.

  Lemma run_called_app fs ov a b : forall rem p locals s,
    run fs ov (a ++ b) rem p locals s =
    (r <! run fs ov a rem p locals ;;
     match r with None => ret None | Some (rem', p', locals') => run fs ov b rem' p' locals' end) s.
  Proof.
    induction a as [|st a IH]; intros rem p locals s; [reflexivity|].
    destruct st; cbn [app run_stmts_called].
    1-3: rewrite bind_assoc; apply bind_ext; intros; apply IH.
    destruct (negb (rem =? 0)); [|apply IH]. unfold abind, ret. destruct (glue boom locals s) as [s' []]; reflexivity.
  Qed.

  Lemma owning_map A B (g : A -> B) locals (x : act (list T * M) A) s :
    owning boom locals (v <! x ;; ret (g v)) s = (v <! owning boom locals x ;; ret (g v)) s.
  Proof.
    unfold owning, abind, ret, unwinding. destruct (x s) as [s' []]; try reflexivity.
    destruct (glue_unwinding boom locals s') as [s'' []]; reflexivity.
  Qed.

  Lemma run_called_shift f fs ov ss : forall rem (p : partial_tuple (f :: fs)) locals s,
    run (f :: fs) ov (map shift_stmt ss) rem p locals s =
    (r <! run fs ov ss rem (snd p) locals ;;
     match r with None => ret None | Some (rem', p', locals') => ret (Some (rem', ((fst p, p') : partial_tuple (f :: fs)), locals')) end) s.
  Proof.
    induction ss as [|st ss IH]; intros rem p locals s.
    - cbn. destruct p; reflexivity.
    - destruct st; cbn [map shift_stmt run_stmts_called].
      + unfold abind. destruct (owning boom locals _ s) as [s' []]; try reflexivity. apply IH.
      + cbn [decode_field_called].
        set (y := (o <! look (fun _ : list T * M => n <- eval false no_ordinals ov sz ;; urem rem n) ;; decode_field_called dec fs field o (snd p))).
        assert (E : owning boom locals (o <! look (fun _ : list T * M => n <- eval false no_ordinals ov sz ;; urem rem n) ;;
            p' <! decode_field_called dec fs field o (snd p) ;; ret ((fst p, p') : partial_tuple (f :: fs))) s =
          (v <! owning boom locals y ;; ret ((fst p, v) : partial_tuple (f :: fs))) s).
        { rewrite <- owning_map. unfold owning, y, abind. destruct (look _ s) as [s' []]; reflexivity. }
        rewrite bind_assoc. unfold abind at 1.
        match goal with |- (let '(_, _) := ?L in _) = _ => replace L with ((v <! owning boom locals y ;; ret ((fst p, v) : partial_tuple (f :: fs))) s) by (symmetry; exact E) end.
        clear E. unfold abind at 1. symmetry. unfold abind at 1. symmetry.
        destruct (owning boom locals y s) as [s' [q| | |]]; try reflexivity. unfold ret at 1.
        change (field_thing thing (f :: fs) (S field) (fst p, q)) with (field_thing thing fs field q).
        rewrite (IH rem (fst p, q)). reflexivity.
      + unfold abind. destruct (owning boom locals _ s) as [s' []]; try reflexivity. apply IH.
      + destruct (negb (rem =? 0)); [|apply IH]. unfold abind, ret. destruct (glue boom locals s) as [s' []]; reflexivity.
  Qed.

  Lemma run_fields_called vars fs ns ov m (p : partial_tuple fs) made s :
    has_sizes fs ns -> Forall runs fs -> length vars = length fs -> Forall (fun n => 0 < n) ns ->
    match walk_called s m made (rev (map field_part fs)) with
    | (s', inl (m', made')) => exists p' t,
        run fs ov (List.concat (rev (field_form vars 0 fs))) m p made s = (s', Ended (Some (m', p', made'))) /\
        all_fields fs p' = Some t /\ made' = tuple_things thing fs t ++ made
    | (s', inr (Some (w, made'))) =>
        run fs ov (List.concat (rev (field_form vars 0 fs))) m p made s = gives boom w (fst s') (snd s') made'
    | (s', inr None) => run fs ov (List.concat (rev (field_form vars 0 fs))) m p made s = (s', Aborts)
    end.
  Proof.
    intros H. revert vars p. induction H as [|f n fs ns H HF IH]; intros vars p Ha Hl Hpos.
    - destruct vars; [|discriminate Hl]. exists p, tt. cbn. auto.
    - destruct vars as [|x vars]; [discriminate Hl|]. injection Hl as Hl.
      inversion Hpos as [|? ? Hn Hpos']; subst. inversion Ha as [|? ? A1 Ha']; subst.
      specialize (IH vars (snd p) Ha' Hl Hpos'). destruct H as [Hsz _].
      cbn [map rev field_form]. rewrite walk_called_app, concat_app, field_form_shift, <- (map_rev (map shift_stmt)), <- concat_map.
      rewrite run_called_app.
      assert (U : forall B (k : _ -> act (list T * M) B), (abind (run (f :: fs) ov (map shift_stmt (List.concat (rev (field_form vars 0 fs)))) m p made) k) s =
        (r <! (r <! run fs ov (List.concat (rev (field_form vars 0 fs))) m (snd p) made ;;
           match r with None => ret None | Some (rem', p', locals') => ret (Some (rem', ((fst p, p') : partial_tuple (f :: fs)), locals')) end) ;; k r) s).
      { intros B k. unfold abind at 1. rewrite run_called_shift. reflexivity. }
      rewrite U. clear U.
      destruct (walk_called s m made (rev (map field_part fs))) as [s1 [[m' made']|[[w made']|]]].
      2: { unfold abind at 1. unfold abind at 1. rewrite IH. unfold gives. rewrite !lost_log, !lost_end. destruct (snd (destroyed_all boom _ _ _)); reflexivity. }
      2: { unfold abind. now rewrite IH. }
      destruct IH as (p' & t & R1 & R3 & R4).
      assert (V : forall B (k : _ -> act (list T * M) B), (r <! (r <! run fs ov (List.concat (rev (field_form vars 0 fs))) m (snd p) made ;;
           match r with None => ret None | Some (rem', p', locals') => ret (Some (rem', ((fst p, p') : partial_tuple (f :: fs)), locals')) end) ;; k r) s =
        k (Some (m', ((fst p, p') : partial_tuple (f :: fs)), made')) s1).
      { intros B k. unfold abind. rewrite R1. reflexivity. }
      rewrite V. clear V.
      cbn [walk_called as_part fst snd]. rewrite Hsz. cbn [List.concat app run_stmts_called eval].
      pose proof (A1 n (m' mod n) s1 Hsz ltac:(apply N.mod_lt; lia)) as NS.
      set (x2 := (o <! look (fun _ : list T * M => n0 <- ORDINAL_SIZE (ft_ord f) ;; urem m' n0) ;;
                   decode_field_called dec (f :: fs) 0 o ((fst p, p') : partial_tuple (f :: fs)))).
      assert (X2 : x2 s1 = (v <! unwrapped (dec f (m' mod n)) ;; ret ((Some v, p') : partial_tuple (f :: fs))) s1).
      { unfold x2. unfold abind at 1. unfold look. rewrite Hsz. cbn [bind]. rewrite urem_ok by lia. reflexivity. }
      unfold as_calls. destruct (dec f (m' mod n) s1) as [s2 [[v|]|w| |]] eqn:E; cbn [opt_map snd] in *.
      + exists (Some v, p'), (v, t). unfold abind at 1.
        erewrite owning_ended by (rewrite X2; unfold abind; erewrite unwrapped_some by exact E; reflexivity).
        unfold abind at 1. erewrite owning_ended by (unfold look; rewrite Hsz; cbn [bind]; rewrite udiv_ok by lia; reflexivity).
        cbn [field_thing fst app run_stmts_called]. split; [reflexivity|].
        cbn [all_fields fst snd]. rewrite R3. split; [reflexivity|]. cbn [tuple_things fst snd app]. now rewrite R4.
      + destruct s1 as [l1 m1]. apply bind_gives. apply (owning_gives (ts := [])). rewrite X2. apply bind_gives. now apply unwrapped_gives.
      + destruct s1 as [l1 m1]. apply bind_gives. apply (owning_gives (ts := [])). rewrite X2. apply bind_gives. now apply unwrapped_unwinds.
      + unfold abind at 1. unfold owning at 1. rewrite X2. unfold abind at 1. erewrite unwrapped_aborts by exact E. reflexivity.
      + now destruct NS.
  Qed.

  Lemma run_block_called_is vars fs ns e ov o block s :
    has_sizes fs ns -> Forall runs fs -> length vars = length fs -> Forall (fun n => 0 < n) ns ->
    struct_from_ordinal e vars fs = Val block -> eval false no_ordinals ov e = Val o ->
    behaves (tuple_things thing fs) (run_block_called boom thing dec fs ov block s) (fields_called boom s o [] (rev (map field_part fs))).
  Proof.
    intros H Ha Hl Hpos Hb He. unfold struct_from_ordinal in Hb. rewrite field_stmts_form in Hb.
    cbn [bind] in Hb. injection Hb as <-. rewrite called_walk.
    pose proof (@run_fields_called vars fs ns ov o (no_fields fs) [] s H Ha Hl Hpos) as R.
    unfold run_block_called. cbn [run_stmts_called]. unfold abind at 1. unfold abind at 1.
    unfold owning at 1, look at 1. rewrite He. cbn [ending_of]. rewrite run_called_app. unfold abind at 1.
    destruct (walk_called s o [] (rev (map field_part fs))) as [s' [[m' made']|[[w made']|]]].
    - destruct R as (p' & t & R1 & R3 & R4). rewrite R1. cbn [run_stmts_called].
      rewrite app_nil_r in R4. destruct (m' =? 0); cbn [negb].
      + unfold ret. rewrite R3. split; [cbn; now rewrite R4|discriminate].
      + unfold abind, ret. destruct s' as [l' k']. rewrite glue_is. unfold behaves. cbn [fst snd].
        destruct (destroyed_all boom None l' made') as [log' [[w|]|]]; cbn; split; try reflexivity; discriminate.
    - rewrite R. pose proof (behaves_gives boom (tuple_things thing fs) w s' made') as B. unfold gives in *. rewrite !lost_log, !lost_end in *.
      destruct (snd (destroyed_all boom (Some w) (fst s') made')); exact B.
    - rewrite R. split; [reflexivity|discriminate].
  Qed.

  Lemma no_zero_part fs ns : has_sizes fs ns -> existsb (fun f => fst f =? 0) (map field_part fs) = (product_of ns =? 0).
  Proof.
    induction 1 as [|f n fs ns [H _] HF IH]; [reflexivity|]. cbn [map existsb as_part fst]. rewrite H, IH, product_of_cons.
    destruct (N.eqb_spec n 0), (N.eqb_spec (product_of ns) 0), (N.eqb_spec (n * product_of ns) 0); try reflexivity; nia.
  Qed.

  Lemma product_called_is vars fs ns size ord block n o s :
    product_pieces vars fs size ord block -> has_sizes fs ns -> Forall runs fs -> run_size size = Val n ->
    behaves (tuple_things thing fs) (product_from_called boom thing dec fs size block o s) (struct_called boom s o (map field_part fs)).
  Proof.
    intros [P1 _ P4 P5] Hs Ha Hn. destruct (run_size_inv Hs P1 Hn) as (-> & _ & _).
    unfold product_from_called, struct_called. unfold abind at 1. unfold look at 1. rewrite Hn, (no_zero_part Hs). cbn [ending_of].
    destruct (N.eqb_spec (product_of ns) 0) as [E|E]; [split; [reflexivity|discriminate]|].
    eapply run_block_called_is; eauto. apply product_pos_inv. lia.
  Qed.

  Lemma struct_called_is f ns n o s :
    has_sizes (field_types f) ns -> Forall runs (field_types f) -> ORDINAL_SIZE (derive_struct f) = Val n ->
    behaves (tuple_things thing (field_types f)) (struct_from_called boom thing dec f o s) (struct_called boom s o (map field_part (field_types f))).
  Proof.
    intros Hs Ha Hn. pose proof (field_vars_length f) as Hl.
    destruct (pieces_exist (field_vars f) (field_types f) Hl) as (size & ord & block & P).
    pose proof P as [P1 (s0 & P2 & P3) P4 P5].
    unfold derive_struct, struct_from_called, struct_size, struct_ord, struct_block in *.
    rewrite struct_ordinal_size_form, P2 in *. cbn [bind] in *. rewrite P1, P3, P4 in *.
    destruct (resolves block (field_vars f)); [|discriminate Hn]. eapply product_called_is; eauto.
  Qed.
  Lemma tuple_called_is tys ns n o s :
    has_sizes tys ns -> Forall runs tys -> ORDINAL_SIZE (impl_ordinal_for_tuple_n tys) = Val n ->
    behaves (tuple_things thing tys) (tuple_from_called boom thing dec tys o s) (struct_called boom s o (map field_part tys)).
  Proof.
    intros Hs Ha Hn. pose proof (tuple_vars_length 0 tys) as Hl.
    destruct (pieces_exist (tuple_vars 0 tys) tys Hl) as (size & ord & block & P).
    pose proof P as [P1 (s0 & P2 & P3) P4 P5].
    unfold impl_ordinal_for_tuple_n, tuple_from_called in *. destruct (Nat.ltb 26 (length tys)); [discriminate Hn|].
    rewrite struct_ordinal_size_form, P2 in *. cbn [bind] in *. rewrite P1, P3, P4 in *.
    destruct (resolves block (tuple_vars 0 tys)); [|discriminate Hn]. eapply product_called_is; eauto.
  Qed.

  (** ** Enums *)
  Lemma behaves_map A A' B B' (inj : A -> A') (g : B -> B') (view : A -> B) (view' : A' -> B') (x : act (list T * M) (option A)) s s' want :
    (forall a, view' (inj a) = g (view a)) -> behaves view (x s) (s', want) ->
    behaves view' ((y <! x ;; ret (opt_map inj y)) s)
      (s', match want with
           | Some (Seen (Some b)) => Some (Seen (Some (g b)))
           | Some (Seen None) => Some (Seen None)
           | Some (Caught w) => Some (Caught w)
           | None => None
           end).
  Proof.
    intros V [E1 E2]. unfold behaves, abind, ret. destruct (x s) as [s1 e]. cbn [fst snd] in *. injection E1 as -> <-.
    destruct e as [[a|]|w| |]; cbn; rewrite ?V; split; try reflexivity; try discriminate. now destruct E2.
  Qed.
  Lemma sizes_product_part fs ns : has_sizes fs ns -> fold_right N.mul 1 (map fst (map field_part fs)) = product_of ns.
  Proof. induction 1 as [|f n fs ns [H _] HF IH]; [reflexivity|]. cbn [map fold_right as_part fst]. rewrite H, IH. reflexivity. Qed.

  Lemma branches_called rest : forall pre nss0 nss bs i o s,
    vsizes rest nss -> Forall (Forall runs) (variant_types rest) -> vsizes pre nss0 -> variants_fit (nss0 ++ nss) ->
    enum_branches (pre ++ rest) (length pre) rest = Val bs ->
    sum_of (map product_of nss0) <= o ->
    behaves (enum_things thing i (variant_types rest)) (run_branches_called boom thing dec (variant_types rest) bs o s)
      (enum_called boom s (o - sum_of (map product_of nss0)) i (map (map field_part) (variant_types rest))).
  Proof.
    induction rest as [|v rest IH]; intros pre nss0 nss bs i o s Hl Ha Hpre Hfit Hb Ho.
    - cbn. split; [reflexivity|discriminate].
    - inversion Hl as [|? ns ? nss' Hv Hl']; subst. cbn [variant_types map] in Ha. inversion Ha as [|? ? Ha1 Ha']; subst.
      assert (Hpre' : vsizes (pre ++ [v]) (nss0 ++ [ns])).
      { apply Forall2_app; [exact Hpre|]. constructor; [exact Hv|constructor]. }
      assert (Hfit' : variants_fit ((nss0 ++ [ns]) ++ nss')) by (rewrite <- app_assoc; exact Hfit).
      cbn [enum_branches] in Hb.
      destruct (@first_variants_SV _ true no_ordinals o pre (v :: rest) nss0 Hpre
        (variants_fit_app _ _ Hfit)) as (s0 & S1 & S2 & _).
      destruct (@first_variants_SV _ true no_ordinals o (pre ++ [v]) rest _ Hpre'
        (variants_fit_app _ _ Hfit')) as (s1 & T1 & T2 & _).
      rewrite <- app_assoc in T1. cbn [app] in T1. rewrite app_length in T1. cbn [length] in T1.
      rewrite Nat.add_1_r in T1.
      rewrite S1, T1 in Hb. cbn [bind] in Hb.
      destruct (const_expr_SV _ _ _ _ S2) as (e0 & E0 & E0'). destruct (const_expr_SV _ _ _ _ T2) as (e1 & E1 & E1').
      rewrite E0, E1 in Hb. cbn [bind] in Hb.
      destruct (struct_from_ordinal (RSub ROrdinalVar e0) (field_vars (v_fields v)) (field_types (v_fields v))) as [block| | | |] eqn:B1;
        cbn [bind] in Hb; try discriminate Hb.
      destruct (enum_branches (pre ++ v :: rest) (S (length pre)) rest) as [bs'| | | |] eqn:B2; cbn [bind] in Hb; try discriminate Hb.
      injection Hb as <-.
      cbn [variant_types map run_branches_called enum_called]. unfold abind at 1, look at 1. rewrite E1'. cbn [bind ending_of].
      assert (Hsum : sum_of (map product_of (nss0 ++ [ns])) =
        sum_of (map product_of nss0) + product_of ns).
      { rewrite map_app, sum_of_app. cbn [map]. rewrite sum_of_cons. cbn [sum_of fold_right]. unfold sum_of. lia. }
      assert (Htot : sum_of (map product_of (nss0 ++ ns :: nss')) =
        sum_of (map product_of nss0) + product_of ns + sum_of (map product_of nss')).
      { rewrite map_app, sum_of_app. cbn [map]. rewrite sum_of_cons. lia. }
      rewrite Hsum, (sizes_product_part Hv). destruct Hfit as [Hp Hm].
      destruct (N.ltb_spec o (sum_of (map product_of nss0) + product_of ns)) as [Hlt|Hge];
        destruct (N.ltb_spec (o - sum_of (map product_of nss0)) (product_of ns)) as [Hlt2|Hge2]; try lia.
      + unfold struct_called. rewrite (no_zero_part Hv). destruct (N.eqb_spec (product_of ns) 0); [lia|].
        pose proof (@run_block_called_is (field_vars (v_fields v)) (field_types (v_fields v)) ns (RSub ROrdinalVar e0) o
          (o - sum_of (map product_of nss0)) block s Hv Ha1 (field_vars_length _)) as R.
        specialize (R ltac:(apply product_pos_inv; lia) B1 ltac:(cbn [eval]; rewrite E0'; cbn [bind]; apply usub_ok; [exact Ho|lia])).
        destruct (fields_called boom s _ [] _) as [l x].
        exact (behaves_map (inj := inl) (g := pair i) (view' := enum_things thing i (field_types (v_fields v) :: variant_types rest)) (fun a => eq_refl) R).
      + specialize (IH (pre ++ [v]) (nss0 ++ [ns]) nss' bs' (S i) o s Hl' Ha' Hpre' Hfit').
        rewrite <- app_assoc in IH. cbn [app] in IH. rewrite app_length in IH.
        cbn [length] in IH. rewrite Nat.add_1_r in IH.
        specialize (IH B2 ltac:(rewrite Hsum; exact Hge)). rewrite Hsum in IH.
        replace (o - sum_of (map product_of nss0) - product_of ns) with (o - (sum_of (map product_of nss0) + product_of ns)) by lia.
        fold (variant_types rest). destruct (enum_called boom s _ (S i) _) as [l x].
        rewrite <- (made_same x).
        exact (behaves_map (inj := inr) (g := fun y => y) (view' := enum_things thing i (field_types (v_fields v) :: variant_types rest)) (fun a => eq_refl) IH).
  Qed.

  Lemma enum_called_none s o i vs : sum_of (map (fun fs => fold_right N.mul 1 (map fst fs)) vs) <= o -> enum_called boom (St := M) s o i vs = (s, Some (Seen None)).
  Proof.
    revert o i. induction vs as [|fs vs IH]; intros o i H; [reflexivity|]. cbn [map] in H. rewrite sum_of_cons in H. cbn [enum_called].
    destruct (N.ltb_spec o (fold_right N.mul 1 (map fst fs))); [lia|]. apply IH. lia.
  Qed.
  Lemma variant_sizes_part vs nss : vsizes vs nss ->
    map (fun fs => fold_right N.mul 1 (map fst fs)) (map (map field_part) (variant_types vs)) = map product_of nss.
  Proof. induction 1 as [|v ns vs nss Hv H IH]; [reflexivity|]. cbn [variant_types map]. rewrite (sizes_product_part Hv). f_equal. exact IH. Qed.

  Lemma enum_called_is vs nss n o s :
    Forall2 has_sizes (variant_types vs) nss -> Forall (Forall runs) (variant_types vs) -> ORDINAL_SIZE (derive_enum vs) = Val n ->
    behaves (enum_things thing 0 (variant_types vs)) (enum_from_called boom thing dec vs o s)
      (enum_called boom s o 0 (map (map field_part) (variant_types vs))).
  Proof.
    intros Hs' Ha Hn. pose proof (variants_sizes Hs') as Hs. unfold derive_enum, enum_from_called, enum_size in *. rewrite first_variants_form, firstn_all in *.
    destruct (sum (map vform vs)) as [s0| | | |] eqn:E1; cbn [bind] in *; try discriminate Hn.
    destruct (expr s0) as [size| | | |] eqn:E2; try discriminate Hn.
    destruct (enum_arms vs 0 vs) as [arms| | | |] eqn:E3; try discriminate Hn.
    destruct (enum_branches vs 0 vs) as [bs| | | |] eqn:E4; try discriminate Hn.
    destruct (branches_resolve vs bs); try discriminate Hn. cbn [ORDINAL_SIZE from_ordinal] in *.
    destruct (enum_total_inv Hs E1 E2 Hn) as [-> Hfit].
    unfold abind at 1, look at 1. rewrite Hn. cbn [bind ending_of].
    destruct (N.eqb_spec (sum_of (map product_of nss)) 0) as [Z|Z].
    - rewrite enum_called_none by (rewrite (variant_sizes_part Hs); lia). split; [reflexivity|discriminate].
    - pose proof (@branches_called vs [] [] nss bs 0%nat o s Hs Ha (Forall2_nil _) Hfit E4 ltac:(cbn; lia)) as R.
      cbn [map sum_of fold_right] in R. rewrite N.sub_0_r in R. exact R.
  Qed.
End Run.

Section Arrays.
  Context {T : Type} (boom : list T -> T -> option panic) {E : Type} (thing : E -> T) (O : Ordinal E) (len : nat) {M : Type}.
  Context (dec : N -> act (list T * M) (option E)).
  Notation view := (fun a : arr E len => map thing (arr_list a)).
  Notation elem := (elem_part thing O dec).

  Lemma loop_called size turns : ORDINAL_SIZE O = Val size -> 0 < size -> (forall i s, i < size -> snd (dec i s) <> Stuck) ->
    forall l m s, (length l + turns = len)%nat ->
    behaves view (array_from_loop_called boom thing len dec size turns m (builder_of len l) s) (elements_called boom elem s m (map thing l) turns).
  Proof.
    intros Hs Hp Ha. induction turns as [|turns IH]; intros l m s Hl; cbn [array_from_loop_called elements_called].
    - destruct (N.eqb_spec m 0) as [->|Hm]; cbn [negb].
      + destruct (@finish_is T boom E (elem_of thing) len M l s) as (a2 & F2 & Hal2); [lia|].
        unfold abind. rewrite F2. unfold look. rewrite Hal2.
        destruct (@try_arr_ok E len (rev l)) as (a' & -> & Ha'); [rewrite rev_length; lia|].
        split; [cbn; rewrite Ha', map_rev; reflexivity|discriminate].
      + unfold abind. destruct s as [log mm]. rewrite builder_end_is, parts_map. cbn [fst snd].
        destruct (up_to_panic boom log (map thing l)) as [log' [w|]]; split; try reflexivity; discriminate.
    - unfold checked_rem. destruct (N.eqb_spec size 0) as [|_]; [lia|]. unfold part_made. cbn [elem_part fst snd]. rewrite Hs.
      pose proof (Ha (m mod size) s ltac:(apply N.mod_lt; lia)) as NS. unfold as_calls.
      destruct (dec (m mod size) s) as [s2 [[v|]|w| |]] eqn:X; cbn [opt_map snd] in *.
      + unfold abind. erewrite building_ended by (apply unwrapped_some; exact X). erewrite building_ended by (apply push_is; lia).
        erewrite building_ended by (unfold look; rewrite udiv_ok by lia; reflexivity).
        specialize (IH (l ++ [v]) (m / size) s2 ltac:(rewrite app_length; cbn; lia)). rewrite map_app in IH. exact IH.
      + destruct s as [l1 m1]. erewrite bind_gives; [apply behaves_gives|]. rewrite <- (parts_map thing l). apply (@building_gives T boom E (elem_of thing) len M _ _ l1 m1 (fst s2) (snd s2) []). now apply unwrapped_gives.
      + destruct s as [l1 m1]. erewrite bind_gives; [apply behaves_gives|]. rewrite <- (parts_map thing l). apply (@building_gives T boom E (elem_of thing) len M _ _ l1 m1 (fst s2) (snd s2) []). now apply unwrapped_unwinds.
      + unfold abind at 1. erewrite building_aborts by (apply unwrapped_aborts; exact X). split; [reflexivity|discriminate].
      + now destruct NS.
  Qed.

  Lemma array_called_is size o s : ORDINAL_SIZE O = Val size -> (forall i s, i < size -> snd (dec i s) <> Stuck) ->
    behaves view (array_from_called boom thing O len dec o s) (array_called boom elem s o len).
  Proof.
    intros Hs Ha. unfold array_from_called, array_called. cbn [elem_part fst]. rewrite Hs, builder_new_of.
    destruct (N.eqb_spec size 0) as [->|Hz]; cbn [andb].
    2: { apply (@loop_called size len Hs ltac:(lia) Ha [] o s eq_refl). }
    destruct len as [|len'] eqn:El; cbn [Nat.eqb negb].
    - cbn [array_from_loop_called elements_called]. destruct (N.eqb_spec o 0) as [->|Hm]; cbn [negb].
      + destruct (@finish_is T boom E (elem_of thing) 0 M [] s eq_refl) as (a2 & F2 & Hal2).
        unfold abind. rewrite F2. unfold look. rewrite Hal2.
        destruct (@try_arr_ok E 0 (rev []) eq_refl) as (a' & -> & Ha').
        split; [cbn; rewrite Ha'; reflexivity|discriminate].
      + unfold abind. destruct s as [log mm]. rewrite builder_end_is. split; [reflexivity|discriminate].
    - cbn [array_from_loop_called]. unfold checked_rem. cbn [N.eqb].
      unfold abind. destruct s as [log mm]. rewrite builder_end_is. split; [reflexivity|discriminate].
  Qed.
End Arrays.
