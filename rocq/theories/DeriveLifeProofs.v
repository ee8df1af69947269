(** * DeriveLifeProofs: lemmas for C117. *)
From Verif Require Import Base Spec SpecDerive SpecCatch SpecLifeRun SpecLifeEnds SpecDeriveLife ModelOrdinal ModelDerive ModelCatch ModelLife ModelDeriveLife
  BaseProofs ArrayProofs DeriveProofs DeriveProofs2 DeriveProofs3 LifeProofs5 LifeProofs6.
From Coq Require Import String List. Import ListNotations.
Set Implicit Arguments. Unset Strict Implicit.

(** A type whose [from_ordinal] returns or panics. *)
Definition answers (f : ftype) : Prop := forall n i, ORDINAL_SIZE (ft_ord f) = Val n -> i < n ->
  (exists o, from_ordinal (ft_ord f) i = Val o) \/ (exists w, from_ordinal (ft_ord f) i = Panic w).

Section Walk.
  Context {T : Type} (boom : list T -> T -> option panic).
  Fixpoint walk (m : N) (made : list T) (fs : list (field (T := T))) : (N * list T) + (panic * list T) :=
    match fs with
    | [] => inl (m, made)
    | (n, from) :: fs' =>
        match from (m mod n) with
        | Seen (Some t) => walk (m / n) (t :: made) fs'
        | Seen None => inr (PUnwrap, made)
        | Caught w => inr (w, made)
        end
    end.
  Lemma walk_app a b : forall m made,
    walk m made (a ++ b) = match walk m made a with inl (m', made') => walk m' made' b | inr x => inr x end.
  Proof.
    induction a as [|[n from] a IH]; intros m made; cbn [app walk]; [reflexivity|].
    destruct (from (m mod n)) as [[t|]|w]; auto.
  Qed.
  Lemma made_walk fs : forall log m made,
    fields_made boom log m made fs = match walk m made fs with
      | inl (m', made') => if m' =? 0 then (log, Some (Seen (Some made')))
                           else let '(log', p) := destroyed_all boom None log made' in (log', opt_map (shown None) p)
      | inr (w, made') => lost boom w log made'
      end.
  Proof.
    induction fs as [|[n from] fs IH]; intros log m made; cbn [fields_made walk]; [reflexivity|].
    destruct (from (m mod n)) as [[t|]|w]; auto.
  Qed.
End Walk.

Section Run.
  Context {cfg : Config} {T : Type} (boom : list T -> T -> option panic) (thing : forall f : ftype, ft_T f -> T) {M : Type}.
  Notation at_ m p := ((fst p, m), ends_as (snd p)).
  Notation run := (run_stmts_owned boom thing (M := M)).

  Lemma run_owned_app fs ov a b : forall rem p locals s,
    run fs ov (a ++ b) rem p locals s =
    (r <! run fs ov a rem p locals ;;
     match r with None => ret None | Some (rem', p', locals') => run fs ov b rem' p' locals' end) s.
  Proof.
    induction a as [|st a IH]; intros rem p locals s; [reflexivity|].
    destruct st; cbn [app run_stmts_owned].
    1-3: unfold abind; destruct (owning boom locals _ s) as [s' []]; try reflexivity; apply IH.
    destruct (negb (rem =? 0)); [|apply IH]. unfold abind, ret. destruct (glue boom locals s) as [s' []]; reflexivity.
  Qed.

  Lemma run_owned_shift f fs ov ss : forall rem (p : partial_tuple (f :: fs)) locals s,
    run (f :: fs) ov (map shift_stmt ss) rem p locals s =
    (r <! run fs ov ss rem (snd p) locals ;;
     match r with None => ret None | Some (rem', p', locals') => ret (Some (rem', ((fst p, p') : partial_tuple (f :: fs)), locals')) end) s.
  Proof.
    induction ss as [|st ss IH]; intros rem p locals s.
    - cbn. destruct p; reflexivity.
    - destruct st; cbn [map shift_stmt run_stmts_owned].
      + unfold abind. destruct (owning boom locals _ s) as [s' []]; try reflexivity. apply IH.
      + unfold owning, look, abind. destruct (eval false no_ordinals ov sz) as [n| | | |]; cbn [bind ending_of]; try reflexivity.
        2: { destruct (glue_unwinding boom locals s) as [s' []]; reflexivity. }
        destruct (urem rem n) as [o| | | |]; cbn [bind ending_of]; try reflexivity.
        2: { destruct (glue_unwinding boom locals s) as [s' []]; reflexivity. }
        cbn [decode_field].
        destruct (decode_field fs field o (snd p)) as [q| | | |]; cbn [bind ending_of]; try reflexivity.
        2: { destruct (glue_unwinding boom locals s) as [s' []]; reflexivity. }
        change (field_thing thing (f :: fs) (S field) (fst p, q)) with (field_thing thing fs field q).
        rewrite (IH rem (fst p, q)). reflexivity.
      + unfold abind. destruct (owning boom locals _ s) as [s' []]; try reflexivity. apply IH.
      + destruct (negb (rem =? 0)); [|apply IH]. unfold abind, ret. destruct (glue boom locals s) as [s' []]; reflexivity.
  Qed.

  (** The fields, and the code without the log. *)
  Lemma run_fields_owned vars fs ns ov m (p : partial_tuple fs) made log (mm : M) :
    has_sizes fs ns -> Forall answers fs -> length vars = length fs -> Forall (fun n => 0 < n) ns ->
    match walk m made (rev (map (as_field thing) fs)) with
    | inl (m', made') => exists p' t,
        run fs ov (List.concat (rev (field_form vars 0 fs))) m p made (log, mm) = ((log, mm), Ended (Some (m', p', made'))) /\
        run_stmts fs ov (List.concat (rev (field_form vars 0 fs))) m p = Val (Some (m', p')) /\
        all_fields fs p' = Some t /\ made' = tuple_things thing fs t ++ made
    | inr (w, made') =>
        run fs ov (List.concat (rev (field_form vars 0 fs))) m p made (log, mm) = at_ mm (@lost T boom (option (N * partial_tuple fs * list T)) w log made') /\
        run_stmts fs ov (List.concat (rev (field_form vars 0 fs))) m p = Panic w
    end.
  Proof.
    intros H. revert vars p. induction H as [|f n fs ns H HF IH]; intros vars p Ha Hl Hpos.
    - destruct vars; [|discriminate Hl]. exists p, tt. cbn. auto.
    - destruct vars as [|x vars]; [discriminate Hl|]. injection Hl as Hl.
      inversion Hpos as [|? ? Hn Hpos']; subst. inversion Ha as [|? ? A1 Ha']; subst.
      specialize (IH vars (snd p) Ha' Hl Hpos'). destruct H as [Hsz _].
      cbn [map rev field_form]. rewrite walk_app, concat_app, field_form_shift, <- (map_rev (map shift_stmt)), <- concat_map.
      rewrite run_owned_app, run_stmts_app, run_stmts_shift.
      assert (U : forall B (k : _ -> act (list T * M) B), (abind (run (f :: fs) ov (map shift_stmt (List.concat (rev (field_form vars 0 fs)))) m p made) k) (log, mm) =
        (r <! (r <! run fs ov (List.concat (rev (field_form vars 0 fs))) m (snd p) made ;;
           match r with None => ret None | Some (rem', p', locals') => ret (Some (rem', ((fst p, p') : partial_tuple (f :: fs)), locals')) end) ;; k r) (log, mm)).
      { intros B k. unfold abind at 1. rewrite run_owned_shift. reflexivity. }
      rewrite U. clear U.
      destruct (walk m made (rev (map (as_field thing) fs))) as [[m' made']|[w made']].
      2: { destruct IH as [R1 R2]. rewrite R2. split; [|reflexivity]. unfold abind. rewrite R1.
           rewrite !lost_log, !lost_end. destruct (snd (destroyed_all boom _ _ _)); reflexivity. }
      destruct IH as (p' & t & R1 & R2 & R3 & R4). unfold abind. rewrite R1, R2. cbn [bind ret].
      cbn [walk as_field]. rewrite Hsz. cbn [List.concat app run_stmts run_stmts_owned eval].
      unfold abind, look. rewrite Hsz. cbn [bind]. rewrite urem_ok by lia. cbn [bind decode_field].
      destruct (A1 n (m' mod n) Hsz ltac:(apply N.mod_lt; lia)) as [[[v|] E]|[w E]]; rewrite E; cbn [opt_map bind unwrap snd ending_of].
      + exists (Some v, p'), (v, t). unfold owning. cbn [ending_of]. rewrite udiv_ok by lia. cbn [bind ending_of].
        cbn [field_thing fst app run_stmts_owned]. split; [reflexivity|]. split; [reflexivity|].
        cbn [all_fields fst snd]. rewrite R3. split; [reflexivity|]. cbn [tuple_things fst snd app]. now rewrite R4.
      + split; [|reflexivity]. erewrite owning_lost by reflexivity. rewrite !lost_log, !lost_end. destruct (snd (destroyed_all boom _ _ _)); reflexivity.
      + split; [|reflexivity]. erewrite owning_lost by reflexivity. rewrite !lost_log, !lost_end. destruct (snd (destroyed_all boom _ _ _)); reflexivity.
  Qed.

  Definition agrees {A B} (view : A -> B) (o : res (option A)) (mm : M) (got : (list T * M) * ending (option A))
      (want : list T * option (seen (option B))) : Prop :=
    fst got = (fst want, mm) /\
    match snd want with
    | Some (Seen (Some ts)) => exists t, snd got = Ended (Some t) /\ view t = ts /\ o = Val (Some t)
    | Some (Seen None) => snd got = Ended None /\ o = Val None
    | Some (Caught w) => snd got = Unwinds w /\ (o = Panic w \/ o = Val None)
    | None => snd got = Aborts /\ (o = Val None \/ exists w, o = Panic w)
    end.

  Lemma run_block_owned_is vars fs ns e ov o block log (mm : M) :
    has_sizes fs ns -> Forall answers fs -> length vars = length fs -> Forall (fun n => 0 < n) ns ->
    struct_from_ordinal e vars fs = Val block -> eval false no_ordinals ov e = Val o ->
    agrees (tuple_things thing fs) (run_block fs ov block) mm (run_block_owned boom thing fs ov block (log, mm)) (fields_made boom log o [] (rev (map (as_field thing) fs))).
  Proof.
    intros H Ha Hl Hpos Hb He. unfold struct_from_ordinal in Hb. rewrite field_stmts_form in Hb.
    cbn [bind] in Hb. injection Hb as <-. rewrite made_walk.
    pose proof (@run_fields_owned vars fs ns ov o (no_fields fs) [] log mm H Ha Hl Hpos) as R.
    unfold run_block, run_block_owned. cbn [run_stmts run_stmts_owned]. unfold abind at 1. unfold abind at 1.
    unfold owning at 1, look at 1. rewrite He. cbn [bind ending_of]. rewrite run_owned_app, run_stmts_app. unfold abind at 1.
    destruct (walk o [] (rev (map (as_field thing) fs))) as [[m' made']|[w made']].
    - destruct R as (p' & t & R1 & R2 & R3 & R4). rewrite R1, R2. cbn [bind run_stmts run_stmts_owned].
      rewrite app_nil_r in R4. destruct (m' =? 0); cbn [negb].
      + unfold ret. cbn [bind]. rewrite R3. split; [reflexivity|]. exists t. auto.
      + cbn [bind]. unfold abind, ret. rewrite glue_is. unfold agrees.
        destruct (destroyed_all boom None log made') as [log' [[w|]|]]; cbn; auto.
    - destruct R as [R1 R2]. rewrite R1, R2. cbn [bind]. unfold agrees. rewrite !lost_log, !lost_end.
      destruct (snd (destroyed_all boom (Some w) log made')); cbn; eauto 6.
  Qed.

  Lemma no_zero fs ns : has_sizes fs ns -> existsb (fun f => fst f =? 0) (map (as_field thing) fs) = (product_of ns =? 0).
  Proof.
    induction 1 as [|f n fs ns [H _] HF IH]; [reflexivity|]. cbn [map existsb as_field fst]. rewrite H, IH, product_of_cons.
    destruct (N.eqb_spec n 0), (N.eqb_spec (product_of ns) 0), (N.eqb_spec (n * product_of ns) 0); try reflexivity; nia.
  Qed.

  Lemma product_owned_is vars fs ns size ord block n o log (mm : M) :
    product_pieces vars fs size ord block -> has_sizes fs ns -> Forall answers fs -> run_size size = Val n ->
    agrees (tuple_things thing fs) (from_ordinal (product_impl fs size ord block) o) mm (product_from_owned boom thing fs size block o (log, mm))
      (struct_made boom log o (map (as_field thing) fs)).
  Proof.
    intros [P1 _ P4 P5] Hs Ha Hn. destruct (run_size_inv Hs P1 Hn) as (-> & _ & _).
    cbn [from_ordinal product_impl]. unfold product_from_owned, struct_made, abind, look. rewrite Hn, (no_zero Hs). cbn [bind ending_of].
    destruct (N.eqb_spec (product_of ns) 0) as [E|E]; [split; [reflexivity|]; cbn; auto|].
    eapply run_block_owned_is; eauto. apply product_pos_inv. lia.
  Qed.

  Lemma struct_owned f ns n o log (mm : M) :
    has_sizes (field_types f) ns -> Forall answers (field_types f) -> ORDINAL_SIZE (derive_struct f) = Val n ->
    agrees (tuple_things thing (field_types f)) (from_ordinal (derive_struct f) o) mm (struct_from_owned boom thing f o (log, mm))
      (struct_made boom log o (map (as_field thing) (field_types f))).
  Proof.
    intros Hs Ha Hn. pose proof (field_vars_length f) as Hl.
    destruct (pieces_exist (field_vars f) (field_types f) Hl) as (size & ord & block & P).
    pose proof P as [P1 (s & P2 & P3) P4 P5].
    unfold derive_struct, struct_from_owned, struct_size, struct_ord, struct_block in *.
    rewrite struct_ordinal_size_form, P2 in *. cbn [bind] in *. rewrite P1, P3, P4 in *.
    destruct (resolves block (field_vars f)); [|discriminate Hn]. eapply product_owned_is; eauto.
  Qed.
  Lemma tuple_owned tys ns n o log (mm : M) :
    has_sizes tys ns -> Forall answers tys -> ORDINAL_SIZE (impl_ordinal_for_tuple_n tys) = Val n ->
    agrees (tuple_things thing tys) (from_ordinal (impl_ordinal_for_tuple_n tys) o) mm (tuple_from_owned boom thing tys o (log, mm))
      (struct_made boom log o (map (as_field thing) tys)).
  Proof.
    intros Hs Ha Hn. pose proof (tuple_vars_length 0 tys) as Hl.
    destruct (pieces_exist (tuple_vars 0 tys) tys Hl) as (size & ord & block & P).
    pose proof P as [P1 (s & P2 & P3) P4 P5].
    unfold impl_ordinal_for_tuple_n, tuple_from_owned in *. destruct (Nat.ltb 26 (length tys)); [discriminate Hn|].
    rewrite struct_ordinal_size_form, P2 in *. cbn [bind] in *. rewrite P1, P3, P4 in *.
    destruct (resolves block (tuple_vars 0 tys)); [|discriminate Hn]. eapply product_owned_is; eauto.
  Qed.

  (** ** Lawful fields *)
  Lemma lawful_answers fs ns : fields_lawful fs ns -> Forall answers fs.
  Proof.
    induction 1 as [|f n fs ns H HF IH]; constructor; [|exact IH]. intros n' i Hn Hi. rewrite (bij_size H) in Hn. injection Hn as <-.
    destruct (@bij_from _ _ _ _ H i Hi) as (v & V & _). left. eauto.
  Qed.
  Lemma lawful_walk fs ns o (mm : M) : fields_lawful fs ns -> Forall (fun n => 0 < n) ns ->
    exists t ds, walk o [] (rev (map (as_field thing) fs)) = inl (o / product_of ns, tuple_things thing fs t) /\
      tuple_digits fs t ds /\ mixed_radix ns ds = o mod product_of ns.
  Proof.
    intros H Hpos. pose proof (map_length (fun _ : ftype => EmptyString) fs) as Hl. set (vars := map (fun _ : ftype => EmptyString) fs) in *.
    destruct (@run_fields _ vars fs ns o o (no_fields fs) H Hl Hpos) as (p' & t & ds & R1 & R2 & R3 & R4).
    pose proof (@run_fields_owned vars fs ns o o (no_fields fs) [] [] mm (lawful_sizes H) (lawful_answers H) Hl Hpos) as R.
    exists t, ds. split; [|auto]. destruct (walk o [] (rev (map (as_field thing) fs))) as [[m' made']|[w made']].
    - destruct R as (p2 & t2 & _ & Q2 & Q3 & Q4). rewrite R1 in Q2. injection Q2 as <- <-. rewrite R2 in Q3. injection Q3 as <-.
      now rewrite Q4, app_nil_r.
    - destruct R as [_ Q]. rewrite R1 in Q. discriminate Q.
  Qed.
End Run.

Section Lawful.
  Context {cfg : Config} {T : Type} (boom : list T -> T -> option panic) (thing : forall f : ftype, ft_T f -> T) {M : Type}.
  Lemma struct_made_in fs log o ts : snd (struct_made boom log o fs) = Some (Seen (Some ts)) -> fst (struct_made boom log o fs) = log.
  Proof.
    unfold struct_made. destruct (existsb _ _); [reflexivity|]. rewrite made_walk.
    destruct (walk o [] (rev fs)) as [[m' made']|[w made']].
    - destruct (m' =? 0); [reflexivity|]. destruct (destroyed_all boom None log made') as [l [[|]|]]; discriminate.
    - rewrite lost_end. destruct (snd _); discriminate.
  Qed.
  (** In range. *)
  Lemma in_range fs (r : res (option (tuple fs))) t log (mm : M) got o : r = Val (Some t) ->
    agrees (tuple_things thing fs) r mm got (struct_made boom log o (map (as_field thing) fs)) -> got = ((log, mm), Ended (Some t)).
  Proof.
    intros -> [E1 E2]. pose proof (@struct_made_in (map (as_field thing) fs) log o) as L. destruct (struct_made boom log o (map (as_field thing) fs)) as [l x].
    cbn [fst snd] in *. destruct got as [s e]. cbn [fst snd] in *. subst s. destruct x as [[[ts|]|w]|].
    - destruct E2 as (t' & -> & _ & E). injection E as ->. now rewrite (L ts eq_refl).
    - destruct E2 as [_ E]. discriminate E.
    - destruct E2 as [_ [E|E]]; discriminate E.
    - destruct E2 as [_ [E|[w E]]]; discriminate E.
  Qed.
  (** Out of range. *)
  Lemma out_of_range fs ns t ds log o (mm : M) : fields_lawful fs ns -> 0 < product_of ns -> product_of ns <= o ->
    tuple_digits fs t ds -> mixed_radix ns ds = o mod product_of ns ->
    struct_made boom log o (map (as_field thing) fs) =
      let '(log', p) := destroyed_all boom None log (tuple_things thing fs t) in (log', opt_map (shown None) p).
  Proof.
    intros H Hpos Ho Hd He. unfold struct_made. rewrite (no_zero thing (lawful_sizes H)).
    destruct (N.eqb_spec (product_of ns) 0); [lia|]. rewrite made_walk.
    destruct (@lawful_walk _ _ boom thing M fs ns o mm H (product_pos_inv _ Hpos)) as (t' & ds' & -> & D & E).
    destruct (N.eqb_spec (o / product_of ns) 0) as [Z|Z]; [apply N.div_small_iff in Z; lia|].
    assert (t' = t) as ->; [|reflexivity]. eapply digits_inj; [exact H|exact D|].
    rewrite (@mixed_radix_inj _ _ _ (@digits_lt _ _ _ _ _ H D) (@digits_lt _ _ _ _ _ H Hd) (eq_trans E (eq_sym He))). exact Hd.
  Qed.
End Lawful.

(** ** Enums *)
Section Enums.
  Context {cfg : Config} {T : Type} (boom : list T -> T -> option panic) (thing : forall f : ftype, ft_T f -> T) {M : Type}.

  Lemma agrees_map A A' B B' (inj : A -> A') (g : B -> B') (view : A -> B) (view' : A' -> B') r mm
      (x : act (list T * M) (option A)) s log want :
    (forall a, view' (inj a) = g (view a)) -> agrees view r mm (x s) (log, want) ->
    agrees view' (y <- r ;; Val (opt_map inj y)) mm ((y <! x ;; ret (opt_map inj y)) s)
      (log, match want with
            | Some (Seen (Some b)) => Some (Seen (Some (g b)))
            | Some (Seen None) => Some (Seen None)
            | Some (Caught w) => Some (Caught w)
            | None => None
            end).
  Proof.
    intros V [E1 E2]. unfold agrees, abind. destruct (x s) as [s' e]. cbn [fst snd] in *. subst s'.
    destruct want as [[[b|]|w]|].
    - destruct E2 as (t & -> & <- & ->). split; [reflexivity|]. exists (inj t). cbn. auto.
    - destruct E2 as [-> ->]. cbn. auto.
    - destruct E2 as [-> [-> | ->]]; cbn; auto.
    - destruct E2 as [-> [-> |[w ->]]]; cbn; eauto.
  Qed.
  Lemma made_same (x : option (seen (option (nat * list T)))) :
    match x with
    | Some (Seen (Some b)) => Some (Seen (Some b))
    | Some (Seen None) => Some (Seen None)
    | Some (Caught w) => Some (Caught w)
    | None => None
    end = x.
  Proof. destruct x as [[[|]|]|]; reflexivity. Qed.

  Lemma sizes_product fs ns : has_sizes fs ns -> fold_right N.mul 1 (map fst (map (as_field thing) fs)) = product_of ns.
  Proof. induction 1 as [|f n fs ns [H _] HF IH]; [reflexivity|]. cbn [map fold_right as_field fst]. rewrite H, IH. reflexivity. Qed.

  Lemma branches_owned rest : forall pre nss0 nss bs i o log (mm : M),
    vsizes rest nss -> Forall (Forall answers) (variant_types rest) -> vsizes pre nss0 -> variants_fit (nss0 ++ nss) ->
    enum_branches (pre ++ rest) (length pre) rest = Val bs ->
    sum_of (map product_of nss0) <= o ->
    agrees (enum_things thing i (variant_types rest)) (run_branches (variant_types rest) bs o) mm
      (run_branches_owned boom thing (variant_types rest) bs o (log, mm))
      (enum_made boom log (o - sum_of (map product_of nss0)) i (map (map (as_field thing)) (variant_types rest))).
  Proof.
    induction rest as [|v rest IH]; intros pre nss0 nss bs i o log mm Hl Ha Hpre Hfit Hb Ho.
    - cbn. split; [reflexivity|]. cbn. auto.
    - inversion Hl as [|? ns ? nss' Hv Hl']; subst. cbn [variant_types map] in Ha. inversion Ha as [|? ? Ha1 Ha']; subst.
      assert (Hpre' : vsizes (pre ++ [v]) (nss0 ++ [ns])).
      { apply Forall2_app; [exact Hpre|]. constructor; [exact Hv|constructor]. }
      assert (Hfit' : variants_fit ((nss0 ++ [ns]) ++ nss')) by (rewrite <- app_assoc; exact Hfit).
      cbn [enum_branches] in Hb.
      destruct (@first_variants_SV _ true no_ordinals o pre (v :: rest) nss0 Hpre
        (variants_fit_app _ _ Hfit)) as (s0 & S1 & S2 & _).
      destruct (@first_variants_SV _ true no_ordinals o (pre ++ [v]) rest _ Hpre'
        (variants_fit_app _ _ Hfit')) as (s1 & T1 & T2 & _).
      rewrite <- app_assoc in T1. cbn [app] in T1. rewrite app_length in T1. cbn [length] in T1.
      rewrite Nat.add_1_r in T1.
      rewrite S1, T1 in Hb. cbn [bind] in Hb.
      destruct (const_expr_SV _ _ _ _ S2) as (e0 & E0 & E0'). destruct (const_expr_SV _ _ _ _ T2) as (e1 & E1 & E1').
      rewrite E0, E1 in Hb. cbn [bind] in Hb.
      destruct (struct_from_ordinal (RSub ROrdinalVar e0) (field_vars (v_fields v)) (field_types (v_fields v))) as [block| | | |] eqn:B1;
        cbn [bind] in Hb; try discriminate Hb.
      destruct (enum_branches (pre ++ v :: rest) (S (length pre)) rest) as [bs'| | | |] eqn:B2; cbn [bind] in Hb; try discriminate Hb.
      injection Hb as <-.
      cbn [variant_types map run_branches run_branches_owned enum_made]. unfold abind at 1, look at 1. rewrite E1'. cbn [bind ending_of].
      assert (Hsum : sum_of (map product_of (nss0 ++ [ns])) =
        sum_of (map product_of nss0) + product_of ns).
      { rewrite map_app, sum_of_app. cbn [map]. rewrite sum_of_cons. cbn [sum_of fold_right]. unfold sum_of. lia. }
      assert (Htot : sum_of (map product_of (nss0 ++ ns :: nss')) =
        sum_of (map product_of nss0) + product_of ns + sum_of (map product_of nss')).
      { rewrite map_app, sum_of_app. cbn [map]. rewrite sum_of_cons. lia. }
      rewrite Hsum, (sizes_product Hv). destruct Hfit as [Hp Hm].
      destruct (N.ltb_spec o (sum_of (map product_of nss0) + product_of ns)) as [Hlt|Hge];
        destruct (N.ltb_spec (o - sum_of (map product_of nss0)) (product_of ns)) as [Hlt2|Hge2]; try lia.
      + unfold struct_made. rewrite (no_zero thing Hv). destruct (N.eqb_spec (product_of ns) 0); [lia|].
        pose proof (@run_block_owned_is _ _ boom thing M (field_vars (v_fields v)) (field_types (v_fields v)) ns (RSub ROrdinalVar e0) o
          (o - sum_of (map product_of nss0)) block log mm Hv Ha1 (field_vars_length _)) as R.
        specialize (R ltac:(apply product_pos_inv; lia) B1 ltac:(cbn [eval]; rewrite E0'; cbn [bind]; apply usub_ok; [exact Ho|lia])).
        destruct (fields_made boom log _ [] _) as [l x].
        exact (agrees_map (inj := inl) (g := pair i) (view' := enum_things thing i (field_types (v_fields v) :: variant_types rest)) (fun a => eq_refl) R).
      + specialize (IH (pre ++ [v]) (nss0 ++ [ns]) nss' bs' (S i) o log mm Hl' Ha' Hpre' Hfit').
        rewrite <- app_assoc in IH. cbn [app] in IH. rewrite app_length in IH.
        cbn [length] in IH. rewrite Nat.add_1_r in IH.
        specialize (IH B2 ltac:(rewrite Hsum; exact Hge)). rewrite Hsum in IH.
        replace (o - sum_of (map product_of nss0) - product_of ns) with (o - (sum_of (map product_of nss0) + product_of ns)) by lia.
        fold (variant_types rest). destruct (enum_made boom log _ (S i) _) as [l x].
        rewrite <- (made_same x).
        exact (agrees_map (inj := inr) (g := fun y => y) (view' := enum_things thing i (field_types (v_fields v) :: variant_types rest)) (fun a => eq_refl) IH).
  Qed.

  Lemma enum_none log o i vs : sum_of (map (fun fs => fold_right N.mul 1 (map fst fs)) vs) <= o -> enum_made boom log o i vs = (log, Some (Seen None)).
  Proof.
    revert o i. induction vs as [|fs vs IH]; intros o i H; [reflexivity|]. cbn [map] in H. rewrite sum_of_cons in H. cbn [enum_made].
    destruct (N.ltb_spec o (fold_right N.mul 1 (map fst fs))); [lia|]. apply IH. lia.
  Qed.
  Lemma variant_sizes vs nss : vsizes vs nss ->
    map (fun fs => fold_right N.mul 1 (map fst fs)) (map (map (as_field thing)) (variant_types vs)) = map product_of nss.
  Proof. induction 1 as [|v ns vs nss Hv H IH]; [reflexivity|]. cbn [variant_types map]. rewrite (sizes_product Hv). f_equal. exact IH. Qed.

  Lemma enum_owned vs nss n o log (mm : M) :
    vsizes vs nss -> Forall (Forall answers) (variant_types vs) -> ORDINAL_SIZE (derive_enum vs) = Val n ->
    agrees (enum_things thing 0 (variant_types vs)) (from_ordinal (derive_enum vs) o) mm (enum_from_owned boom thing vs o (log, mm))
      (enum_made boom log o 0 (map (map (as_field thing)) (variant_types vs))) /\ n = sum_of (map product_of nss).
  Proof.
    intros Hs Ha Hn. unfold derive_enum, enum_from_owned, enum_size in *. rewrite first_variants_form, firstn_all in *.
    destruct (sum (map vform vs)) as [s| | | |] eqn:E1; cbn [bind] in *; try discriminate Hn.
    destruct (expr s) as [size| | | |] eqn:E2; try discriminate Hn.
    destruct (enum_arms vs 0 vs) as [arms| | | |] eqn:E3; try discriminate Hn.
    destruct (enum_branches vs 0 vs) as [bs| | | |] eqn:E4; try discriminate Hn.
    destruct (branches_resolve vs bs); try discriminate Hn. cbn [ORDINAL_SIZE from_ordinal] in *.
    destruct (enum_total_inv Hs E1 E2 Hn) as [-> Hfit]. split; [|reflexivity].
    unfold abind at 1, look at 1. rewrite Hn. cbn [bind ending_of].
    destruct (N.eqb_spec (sum_of (map product_of nss)) 0) as [Z|Z].
    - rewrite enum_none by (rewrite (variant_sizes Hs); lia). split; [reflexivity|]. cbn. auto.
    - pose proof (@branches_owned vs [] [] nss bs 0%nat o log mm Hs Ha (Forall2_nil _) Hfit E4 ltac:(cbn; lia)) as R.
      cbn [map sum_of fold_right] in R. rewrite N.sub_0_r in R. exact R.
  Qed.
End Enums.

(** ** The statements of PropDeriveLife.v *)
Section Final.
  Context {cfg : Config} {T : Type} (boom : list T -> T -> option panic) (thing : forall f : ftype, ft_T f -> T) {M : Type}.

  Lemma agrees_shape A B (view : A -> B) r (mm : M) got (want : list T * option (seen (option B))) : agrees view r mm got want ->
    let '(log', x) := want in
    exists e, got = ((log', mm), e) /\
      match x with
      | Some (Seen (Some ts)) => exists t, e = Ended (Some t) /\ view t = ts /\ r = Val (Some t)
      | Some (Seen None) => e = Ended None /\ r = Val None
      | Some (Caught w) => e = Unwinds w /\ (r = Panic w \/ r = Val None)
      | None => e = Aborts /\ (r = Val None \/ exists w, r = Panic w)
      end.
  Proof. intros [E1 E2]. destruct want as [l x], got as [s e]. cbn [fst snd] in *. subst s. eauto. Qed.

  Lemma struct_exact f ns n o log (mm : M) :
    has_sizes (field_types f) ns -> Forall answers (field_types f) -> ORDINAL_SIZE (derive_struct f) = Val n ->
    let '(log', x) := struct_made boom log o (map (as_field thing) (field_types f)) in
    exists e, struct_from_owned boom thing f o (log, mm) = ((log', mm), e) /\
      match x with
      | Some (Seen (Some ts)) => exists t, e = Ended (Some t) /\ tuple_things thing _ t = ts /\ from_ordinal (derive_struct f) o = Val (Some t)
      | Some (Seen None) => e = Ended None /\ from_ordinal (derive_struct f) o = Val None
      | Some (Caught w) => e = Unwinds w /\ (from_ordinal (derive_struct f) o = Panic w \/ from_ordinal (derive_struct f) o = Val None)
      | None => e = Aborts /\ (from_ordinal (derive_struct f) o = Val None \/ exists w, from_ordinal (derive_struct f) o = Panic w)
      end.
  Proof. intros H1 H2 H3. exact (agrees_shape (struct_owned boom thing o log mm H1 H2 H3)). Qed.
  Lemma tuple_exact tys ns n o log (mm : M) :
    has_sizes tys ns -> Forall answers tys -> ORDINAL_SIZE (impl_ordinal_for_tuple_n tys) = Val n ->
    let '(log', x) := struct_made boom log o (map (as_field thing) tys) in
    exists e, tuple_from_owned boom thing tys o (log, mm) = ((log', mm), e) /\
      match x with
      | Some (Seen (Some ts)) => exists t, e = Ended (Some t) /\ tuple_things thing _ t = ts /\ from_ordinal (impl_ordinal_for_tuple_n tys) o = Val (Some t)
      | Some (Seen None) => e = Ended None /\ from_ordinal (impl_ordinal_for_tuple_n tys) o = Val None
      | Some (Caught w) => e = Unwinds w /\ (from_ordinal (impl_ordinal_for_tuple_n tys) o = Panic w \/ from_ordinal (impl_ordinal_for_tuple_n tys) o = Val None)
      | None => e = Aborts /\ (from_ordinal (impl_ordinal_for_tuple_n tys) o = Val None \/ exists w, from_ordinal (impl_ordinal_for_tuple_n tys) o = Panic w)
      end.
  Proof. intros H1 H2 H3. exact (agrees_shape (tuple_owned boom thing o log mm H1 H2 H3)). Qed.
  Lemma variants_sizes vs nss : Forall2 has_sizes (variant_types vs) nss -> vsizes vs nss.
  Proof.
    revert nss. induction vs as [|v vs IH]; intros nss H; cbn [variant_types map] in H; inversion H; subst; constructor; auto. now apply IH.
  Qed.
  Lemma enum_exact vs nss n o log (mm : M) :
    Forall2 has_sizes (variant_types vs) nss -> Forall (Forall answers) (variant_types vs) -> ORDINAL_SIZE (derive_enum vs) = Val n ->
    let '(log', x) := enum_made boom log o 0 (map (map (as_field thing)) (variant_types vs)) in
    exists e, enum_from_owned boom thing vs o (log, mm) = ((log', mm), e) /\
      match x with
      | Some (Seen (Some ts)) => exists t, e = Ended (Some t) /\ enum_things thing 0 _ t = ts /\ from_ordinal (derive_enum vs) o = Val (Some t)
      | Some (Seen None) => e = Ended None /\ from_ordinal (derive_enum vs) o = Val None
      | Some (Caught w) => e = Unwinds w /\ (from_ordinal (derive_enum vs) o = Panic w \/ from_ordinal (derive_enum vs) o = Val None)
      | None => e = Aborts /\ (from_ordinal (derive_enum vs) o = Val None \/ exists w, from_ordinal (derive_enum vs) o = Panic w)
      end.
  Proof. intros H1 H2 H3. exact (agrees_shape (proj1 (enum_owned boom thing o log mm (variants_sizes H1) H2 H3))). Qed.

  (** Lawful fields. *)
  Lemma struct_in_range f ns n o log (mm : M) : fields_lawful (field_types f) ns -> ORDINAL_SIZE (derive_struct f) = Val n -> o < n ->
    exists t, from_ordinal (derive_struct f) o = Val (Some t) /\ struct_from_owned boom thing f o (log, mm) = ((log, mm), Ended (Some t)).
  Proof.
    intros H Hn Ho. destruct (derive_struct_lawful _ H Hn) as [_ [L _]]. destruct (@bij_from _ _ _ _ L o Ho) as (t & E & _).
    exists t. split; [exact E|]. eapply in_range; [exact E|]. exact (struct_owned boom thing o log mm (lawful_sizes H) (lawful_answers H) Hn).
  Qed.
  Lemma tuple_in_range tys ns n o log (mm : M) : fields_lawful tys ns -> ORDINAL_SIZE (impl_ordinal_for_tuple_n tys) = Val n -> o < n ->
    exists t, from_ordinal (impl_ordinal_for_tuple_n tys) o = Val (Some t) /\ tuple_from_owned boom thing tys o (log, mm) = ((log, mm), Ended (Some t)).
  Proof.
    intros H Hn Ho. destruct (tuple_law H Hn) as [L _]. destruct (@bij_from _ _ _ _ L o Ho) as (t & E & _).
    exists t. split; [exact E|]. eapply in_range; [exact E|]. exact (tuple_owned boom thing o log mm (lawful_sizes H) (lawful_answers H) Hn).
  Qed.

  Lemma beyond fs ns n (O : Ordinal (tuple fs)) got o log (mm : M) : fields_lawful fs ns -> n = product_of ns -> ordinal_bijection O n ->
    (forall t ds, tuple_digits fs t ds -> ordinal O t = Val (mixed_radix ns ds)) ->
    agrees (tuple_things thing fs) (from_ordinal O o) mm got (struct_made boom log o (map (as_field thing) fs)) ->
    0 < n -> n <= o ->
    exists t, from_ordinal O (o mod n) = Val (Some t) /\
      got = let '(log', p) := destroyed_all boom None log (tuple_things thing fs t) in
        ((log', mm), match p with Some None => Ended None | Some (Some w) => Unwinds w | None => Aborts end).
  Proof.
    intros H -> L D A Hpos Ho. destruct (@bij_from _ _ _ _ L (o mod product_of ns) ltac:(apply N.mod_lt; lia)) as (t & E & E').
    exists t. split; [exact E|]. destruct (digits_exist t H) as (ds & Hd & _). rewrite (D t ds Hd) in E'. injection E' as E'.
    rewrite (@out_of_range _ _ boom thing M fs ns t ds log o mm H Hpos Ho Hd E') in A.
    destruct (destroyed_all boom None log (tuple_things thing fs t)) as [l p]. destruct A as [A1 A2], got as [s e]. cbn [fst snd] in *. subst s.
    destruct p as [[w|]|]; cbn [opt_map shown] in A2; destruct A2 as [-> _]; reflexivity.
  Qed.
  Lemma struct_beyond f ns n o log (mm : M) : fields_lawful (field_types f) ns -> ORDINAL_SIZE (derive_struct f) = Val n -> 0 < n -> n <= o ->
    exists t, from_ordinal (derive_struct f) (o mod n) = Val (Some t) /\
      struct_from_owned boom thing f o (log, mm) = let '(log', p) := destroyed_all boom None log (tuple_things thing _ t) in
        ((log', mm), match p with Some None => Ended None | Some (Some w) => Unwinds w | None => Aborts end).
  Proof.
    intros H Hn Hpos Ho. destruct (derive_struct_lawful _ H Hn) as [Hp [L _]].
    eapply beyond; eauto.
    - intros t ds Hd. eapply derive_struct_number; eauto.
    - exact (struct_owned boom thing o log mm (lawful_sizes H) (lawful_answers H) Hn).
  Qed.
  Lemma tuple_beyond tys ns n o log (mm : M) : fields_lawful tys ns -> ORDINAL_SIZE (impl_ordinal_for_tuple_n tys) = Val n -> 0 < n -> n <= o ->
    exists t, from_ordinal (impl_ordinal_for_tuple_n tys) (o mod n) = Val (Some t) /\
      tuple_from_owned boom thing tys o (log, mm) = let '(log', p) := destroyed_all boom None log (tuple_things thing _ t) in
        ((log', mm), match p with Some None => Ended None | Some (Some w) => Unwinds w | None => Aborts end).
  Proof.
    intros H Hn Hpos Ho. destruct (tuple_inv _ Hn) as (size & ord & block & P & E).
    assert (Hn' : run_size size = Val n) by (rewrite E in Hn; exact Hn).
    destruct (product_impl_lawful P H Hn') as [Hp [L _]].
    eapply beyond; eauto.
    - rewrite E. exact L.
    - intros t ds Hd. rewrite E. eapply product_impl_number; eauto.
    - exact (tuple_owned boom thing o log mm (lawful_sizes H) (lawful_answers H) Hn).
  Qed.
  Lemma enum_made_in log o i vs ts : snd (enum_made boom log o i vs) = Some (Seen (Some ts)) -> fst (enum_made boom log o i vs) = log.
  Proof.
    revert o i. induction vs as [|fs vs IH]; intros o i; cbn [enum_made]; [discriminate|].
    destruct (o <? _); [|apply IH]. pose proof (@struct_made_in T boom fs log o) as L.
    destruct (struct_made boom log o fs) as [l [[[y|]|w]|]]; cbn [fst snd] in *; try discriminate. intros _. exact (L y eq_refl).
  Qed.
  Lemma variants_answer vs nss : variants_lawful vs nss -> Forall2 has_sizes vs nss /\ Forall (Forall answers) vs.
  Proof.
    induction 1 as [|v ns vs nss H HF [I1 I2]]; [split; constructor|].
    split; constructor; try assumption; [exact (lawful_sizes H)|exact (lawful_answers H)].
  Qed.
  Lemma enum_in_range vs nss n o log (mm : M) : variants_lawful (variant_types vs) nss -> ORDINAL_SIZE (derive_enum vs) = Val n -> o < n ->
    exists t, from_ordinal (derive_enum vs) o = Val (Some t) /\ enum_from_owned boom thing vs o (log, mm) = ((log, mm), Ended (Some t)).
  Proof.
    intros H Hn Ho. destruct (@enum_law _ _ _ _ H Hn) as [L _]. destruct (@bij_from _ _ _ _ L o Ho) as (t & E & _).
    exists t. split; [exact E|]. destruct (variants_answer H) as [H1 H2].
    destruct (enum_owned boom thing o log mm (variants_sizes H1) H2 Hn) as [[E1 E2] _].
    pose proof (@enum_made_in log o 0%nat (map (map (as_field thing)) (variant_types vs))) as Q. rewrite E in E2.
    destruct (enum_made boom log o 0 _) as [l x]. destruct (enum_from_owned boom thing vs o (log, mm)) as [s e]. cbn [fst snd] in *. subst s.
    destruct x as [[[ts|]|w]|].
    - destruct E2 as (t' & -> & _ & E3). injection E3 as ->. now rewrite (Q ts eq_refl).
    - destruct E2 as [_ E3]. discriminate E3.
    - destruct E2 as [_ [E3|E3]]; discriminate E3.
    - destruct E2 as [_ [E3|[w E3]]]; discriminate E3.
  Qed.
  Lemma enum_beyond vs nss n o log (mm : M) : Forall2 has_sizes (variant_types vs) nss -> Forall (Forall answers) (variant_types vs) ->
    ORDINAL_SIZE (derive_enum vs) = Val n -> n <= o ->
    enum_from_owned boom thing vs o (log, mm) = ((log, mm), Ended None).
  Proof.
    intros H1 H2 Hn Ho. destruct (enum_owned boom thing o log mm (variants_sizes H1) H2 Hn) as [A ->].
    rewrite enum_none in A by (rewrite (variant_sizes thing (variants_sizes H1)); exact Ho).
    destruct A as [E1 E2], (enum_from_owned boom thing vs o (log, mm)) as [s e]. cbn [fst snd] in *. destruct E2 as [-> _]. now subst s.
  Qed.
End Final.
