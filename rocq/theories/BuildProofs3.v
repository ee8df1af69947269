(** * BuildProofs3: what sets do on two targets, or in two builds. *)
From Verif Require Import Base BaseProofs Spec SpecSet SpecCatch ArrayProofs BitProofs ModelOrdinal ModelValues
  ModelArrayBuilder ModelSet ModelCatch SetMachine CatchProofs3 BuildProofs2.
From Coq Require Import List Lia. Import ListNotations.
Set Implicit Arguments.
Unset Strict Implicit.

Section Two.
  Context (c d : Config) (bad : panic -> Prop).

  (** The first result is a panic in [bad], or the second is the same. *)
  Definition up {A} (r s : res A) : Prop := (exists w, bad w /\ r = Panic w) \/ r = s.
  Lemma up_refl A (r : res A) : up r r.
  Proof. now right. Qed.
  Lemma up_bind A B (r s : res A) (f g : A -> res B) : up r s -> (forall a, r = Val a -> up (f a) (g a)) -> up (bind r f) (bind s g).
  Proof.
    intros [(w & H & ->)| <-] G; [left; now exists w|]. destruct r as [a|w| | |]; cbn; try (now right). now apply G.
  Qed.
  Definition up_act {M A} (I : M -> Prop) (a b : act M A) : Prop :=
    forall m, I m -> (exists m' w, bad w /\ a m = (m', Unwinds w)) \/ a m = b m.
  Lemma up_replaces M A (I : M -> Prop) (f g : M -> res (A * M)) : (forall m, I m -> up (f m) (g m)) -> up_act I (replaces f) (replaces g).
  Proof.
    intros H m Hm. unfold replaces, abind, look. destruct (H m Hm) as [(w & B & ->)| <-]; [left; now exists m, w|now right].
  Qed.
  Lemma up_abind M A B (I : M -> Prop) (x y : act M A) (f : A -> act M B) :
    up_act I x y -> up_act I (abind x f) (abind y f).
  Proof.
    intros H m Hm. unfold abind. destruct (H m Hm) as [(m' & w & B' & ->)| <-]; [left; now exists m', w|now right].
  Qed.
  Lemma up_run Op M Out (I : M -> Prop) (P : Op -> Prop) (f g : Op -> act M Out) :
    (forall op, P op -> up_act I (f op) (g op)) -> (forall op, P op -> keeps I (f op)) ->
    forall ops m outs m', Forall P ops -> I m -> catch_run f ops m = Some (outs, m') ->
    (forall w, In (Caught w) outs -> ~ bad w) -> catch_run g ops m = Some (outs, m').
  Proof.
    intros H G. induction ops as [|op ops IH]; intros m outs m' Ho Hm; cbn; [trivial|]. inversion Ho as [|? ? H1 H2]; subst.
    pose proof (G op H1 m Hm) as L. destruct (H op H1 m Hm) as [(m1 & w & B & E)|E].
    - rewrite E. destruct (catch_run f ops m1) as [[l m2]|]; [|discriminate]. intros [= <- <-] N. elim (N w); [now left|exact B].
    - rewrite <- E. destruct (f op m) as [m1 [o|w| |]]; cbn in L; try discriminate.
      + destruct (catch_run f ops m1) as [[l m2]|] eqn:E1; [|discriminate]. intros [= <- <-] N.
        rewrite (IH m1 l m2 H2 L E1); [reflexivity|]. intros w Hw. apply N. now right.
      + destruct (catch_run f ops m1) as [[l m2]|] eqn:E1; [|discriminate]. intros [= <- <-] N.
        rewrite (IH m1 l m2 H2 L E1); [reflexivity|]. intros w' Hw. apply N. now right.
  Qed.

  (** When a check gives the same on both sides. *)
  Definition shift_ok (i : N) : Prop :=
    i < 64 \/ @overflow_checks c = @overflow_checks d \/ bad POverflow /\ @overflow_checks c = true.
  Definition debug_ok (b : bool) : Prop :=
    b = true \/ @debug_assertions c = @debug_assertions d \/ bad PDebugAssert /\ @debug_assertions c = true.

  Lemma up_shl a i : shift_ok i -> up (@u64_shl c a i) (@u64_shl d a i).
  Proof.
    intros H. unfold u64_shl. destruct (N.ltb_spec i 64) as [L|L]; [now right|]. destruct H as [H|[-> |[H ->]]]; [lia|now right|].
    left. now exists POverflow.
  Qed.
  Lemma same_shl a i : i < 64 -> @u64_shl c a i = @u64_shl d a i.
  Proof. intros H. unfold u64_shl. now destruct (N.ltb_spec i 64); [|lia]. Qed.
  Lemma up_debug b : debug_ok b -> up (@debug_assert c b) (@debug_assert d b).
  Proof.
    intros H. unfold debug_assert. destruct b.
    - right. now destruct (@debug_assertions c), (@debug_assertions d).
    - destruct H as [H|[-> |[H ->]]]; [discriminate|now right|]. left. now exists PDebugAssert.
  Qed.
End Two.

(** How many words hold [n] bits. *)
Definition words_for (n : N) : N := n / 64 + (if 0 <? n mod 64 then 1 else 0).

Section Sets.
  Context (c d : Config) (bad : panic -> Prop) {T : Type} (O : Ordinal T) (n : N) (Hn : ORDINAL_SIZE O = Val n)
    (Hc : n <= @usize_max c) (Hd : n <= @usize_max d).
  Local Notation words := (words_for n).

  Lemma max_big (e : Config) : 64 <= @usize_max e.
  Proof using. clear. unfold usize_max. destruct usize_width; cbn; lia. Qed.
  Lemma words_of (e : Config) : n <= @usize_max e -> @ordinal_array_set_s e T O = Val words.
  Proof using Hn.
    clear - Hn. intros H. unfold ordinal_array_set_s, cdiv_ceil, words_for. rewrite Hn. cbn [bind]. cbn. destruct (0 <? n mod 64) eqn:E; [|f_equal; lia].
    unfold cadd, usize_const.
    assert (n / 64 + 1 <= @usize_max e).
    { pose proof (@max_big e). pose proof (N.div_mod n 64). pose proof (N.mod_lt n 64). lia. }
    destruct ((0 <=? Z.of_N (n / 64) + Z.of_N 1) && (Z.of_N (n / 64) + Z.of_N 1 <=? Z.of_N usize_max))%Z eqn:E1; [f_equal; lia|lia].
  Qed.
  Lemma words_pos : n <> 0 -> words <> 0.
  Proof using. clear. intros H. unfold words_for. pose proof (N.div_mod n 64). pose proof (N.mod_lt n 64). destruct (0 <? n mod 64) eqn:E; [lia|]. lia. Qed.
  Lemma words_up : (n + 63) / 64 = words.
  Proof using.
    clear. unfold words_for. pose proof (N.div_mod n 64). pose proof (N.mod_lt n 64). destruct (0 <? n mod 64) eqn:E.
    - symmetry. apply (N.div_unique _ 64 _ (n mod 64 - 1)); lia.
    - symmetry. apply (N.div_unique _ 64 _ 63); lia.
  Qed.

  Lemma same_contains r t : @OrdinalSetRef_contains c T O r t = @OrdinalSetRef_contains d T O r t.
  Proof using.
    clear. unfold OrdinalSetRef_contains. destruct (ordinal O t) as [i|w| | |]; cbn; try reflexivity.
    destruct (slice_get r (i / 64)) as [w|]; [|reflexivity]. rewrite (@same_shl c d); [reflexivity|]. apply N.mod_lt. lia.
  Qed.
  Lemma same_set_loop step set fuel : forall it, @set_loop c T O step set fuel it = @set_loop d T O step set fuel it.
  Proof using.
    clear. induction fuel as [|fuel IH]; intros it; cbn [set_loop]; [reflexivity|].
    destruct (step it) as [[[t|] it']|w| | |]; cbn; try reflexivity. rewrite same_contains.
    destruct (@OrdinalSetRef_contains d T O set t) as [[]|w| | |]; cbn; try reflexivity. apply IH.
  Qed.
  Lemma same_iter_step r s : @SetIter_step c T O r s = @SetIter_step d T O r s.
  Proof using. clear. unfold SetIter_step. now rewrite same_set_loop. Qed.
  Lemma same_drive St A (f g : dir -> St -> res (option A * St)) : (forall r s, f r s = g r s) ->
    forall sched s, drive f sched s = drive g sched s.
  Proof using.
    clear. intros H. induction sched as [|r rs IH]; intros s; cbn; [reflexivity|]. rewrite H.
    destruct (g r s) as [[o s1]|w| | |]; cbn; try reflexivity. now rewrite IH.
  Qed.
  Lemma same_collect St A (f g : St -> res (option A * St)) : (forall s, f s = g s) ->
    forall fuel s, collect f fuel s = collect g fuel s.
  Proof using.
    clear. intros H. induction fuel as [|fuel IH]; intros s; cbn; [reflexivity|]. rewrite H.
    destruct (g s) as [[[a|] s1]|w| | |]; cbn; try reflexivity. now rewrite IH.
  Qed.
  Lemma same_ref_debug r : @OrdinalSetRef_debug c T O r = @OrdinalSetRef_debug d T O r.
  Proof using.
    clear. unfold OrdinalSetRef_debug. destruct (OrdinalSetRef_iter O (OrdinalSetRef_clone r)) as [it|w| | |]; cbn [bind]; try reflexivity.
    now rewrite (@same_collect _ _ (@SetIter_step c T O Front) (@SetIter_step d T O Front) (same_iter_step Front)).
  Qed.

  Definition word_count (ws : list N) : Prop := llen ws = words.
  Local Notation up := (up bad).
  Local Notation debug_ok := (debug_ok c d bad).

  Lemma up_ref_new ws : debug_ok ((llen ws =? 0) || (llen ws =? words)) -> up (@OrdinalSetRef_new c T O ws) (@OrdinalSetRef_new d T O ws).
  Proof using Hn Hc Hd.
    intros H. unfold OrdinalSetRef_new. rewrite (words_of Hc), (words_of Hd). cbn [bind]. apply up_bind; [now apply up_debug|].
    intros. apply up_refl.
  Qed.
  Lemma up_mut_new ws : debug_ok (llen ws =? words) -> up (@OrdinalSetMut_new c T O ws) (@OrdinalSetMut_new d T O ws).
  Proof using Hn Hc Hd.
    intros H. unfold OrdinalSetMut_new. rewrite (words_of Hc), (words_of Hd). cbn [bind]. apply up_bind; [now apply up_debug|].
    intros. apply up_refl.
  Qed.
  Lemma debug_or a b : debug_ok b -> debug_ok (a || b).
  Proof using. clear. intros [-> |H]; [left; now destruct a|now right]. Qed.
  Lemma up_mut_insert ws t : debug_ok (llen ws =? words) -> up (@OrdinalSetMut_insert c T O ws t) (@OrdinalSetMut_insert d T O ws t).
  Proof using Hn Hc Hd.
    intros H. unfold OrdinalSetMut_insert. apply up_bind; [apply up_ref_new; now apply debug_or|]. intros r _. rewrite same_contains.
    destruct (@OrdinalSetRef_contains d T O r t) as [p|w| | |]; try apply up_refl. cbn [bind].
    destruct (ordinal O t) as [i|w| | |]; try apply up_refl. cbn [bind]. destruct (urem i 64) as [m|w| | |] eqn:E; try apply up_refl. cbn [bind].
    rewrite (@same_shl c d); [apply up_refl|]. injection E as <-. apply N.mod_lt. lia.
  Qed.
  Lemma up_insert_words ws t : debug_ok (llen ws =? words) ->
    up (ws <- @OrdinalSetMut_new c T O ws ;; @OrdinalSetMut_insert c T O ws t)
       (ws <- @OrdinalSetMut_new d T O ws ;; @OrdinalSetMut_insert d T O ws t).
  Proof using Hn Hc Hd.
    intros H. apply up_bind; [now apply up_mut_new|]. intros w E. unfold OrdinalSetMut_new in E. rewrite (words_of Hc) in E. cbn [bind] in E.
    destruct (debug_assert (llen ws =? words)) as [[]|v| | |]; try discriminate. injection E as <-. now apply up_mut_insert.
  Qed.
  Lemma up_words_act t : up_act bad (fun ws => debug_ok (llen ws =? words)) (@OrdinalSetMut_insert_act c T O t) (@OrdinalSetMut_insert_act d T O t).
  Proof using Hn Hc Hd.
    intros ws H. rewrite !words_act. destruct (up_insert_words t H) as [(w & B & E)| <-]; [|now right].
    rewrite E. left. now exists ws, w.
  Qed.
  Lemma mut_insert_len (e : Config) ws t b ws' : @OrdinalSetMut_insert e T O ws t = Val (b, ws') -> length ws' = length ws.
  Proof using.
    clear. unfold OrdinalSetMut_insert. destruct (OrdinalSetRef_new O ws) as [r|w| | |]; cbn [bind]; try discriminate.
    destruct (OrdinalSetRef_contains O r t) as [p|w| | |]; cbn [bind]; try discriminate.
    destruct (ordinal O t) as [i|w| | |]; cbn [bind]; try discriminate. cbn [urem udiv N.eqb bind].
    destruct (u64_shl 1 (i mod 64)) as [x|w| | |]; cbn [bind]; try discriminate.
    destruct (index ws (i / 64)) as [y|w| | |]; cbn [bind]; try discriminate. intros [= _ <-]. apply MapLib.store_at_length.
  Qed.
  Lemma words_act_len (e : Config) t ws : length (fst (@OrdinalSetMut_insert_act e T O t ws)) = length ws.
  Proof using.
    clear. rewrite words_act. destruct (OrdinalSetMut_new O ws) as [x|w| | |] eqn:E; cbn [bind]; try reflexivity.
    assert (x = ws) as ->.
    { unfold OrdinalSetMut_new in E. destruct (ordinal_array_set_s O) as [k|w| | |]; cbn in E; try discriminate.
      destruct (debug_assert (llen ws =? k)); cbn in E; try discriminate. now injection E as <-. }
    destruct (OrdinalSetMut_insert O ws t) as [[b ws']|w| | |] eqn:E1; try reflexivity. exact (mut_insert_len E1).
  Qed.

  (** *** OrdinalSet *)
  Section Heap.
    Hypothesis Hdebug : n <> 0 \/ forall b, debug_ok b.
    Hypothesis Hroom : 64 < n -> @checked_add c n 64 = @checked_add d n 64.

    Definition fit (s : OrdinalSet) : Prop := match s with Small _ => True | Large ws => ws = [] \/ llen ws = words end.

    Lemma small_words : n <= 64 -> n <> 0 -> words = 1.
    Proof using.
      clear. intros H H0. unfold words_for. destruct (N.eq_dec n 64) as [-> |H1]; [reflexivity|].
      rewrite N.div_small, N.mod_small by lia. now destruct (N.ltb_spec 0 n); [|lia].
    Qed.
    Lemma is_small : IS_SMALL O = Val (n <=? 64).
    Proof using Hn. clear - Hn. unfold IS_SMALL. now rewrite Hn. Qed.
    Lemma debug_one w : n <= 64 -> debug_ok (llen [w : N] =? words).
    Proof using Hdebug. clear - Hdebug. intros H. destruct Hdebug as [H0|H0]; [|apply H0]. left. now rewrite small_words. Qed.
    Lemma up_as_ref s : fit s -> up (@OrdinalSet_as_ref c T O s) (@OrdinalSet_as_ref d T O s).
    Proof using Hn Hc Hd Hdebug.
      intros H. unfold OrdinalSet_as_ref. rewrite is_small. cbn [bind]. destruct (N.leb_spec n 64) as [L|L], s as [w|ws]; try apply up_refl.
      - apply up_ref_new, debug_or, debug_one, L.
      - apply up_ref_new. left. destruct H as [-> | ->]; [reflexivity|]. rewrite N.eqb_refl. apply orb_true_r.
    Qed.
    Lemma room_same : 64 < n ->
      (a <- unwrap (@checked_add c n 64) ;; b <- @usub c a 1 ;; udiv b 64) =
      (a <- unwrap (@checked_add d n 64) ;; b <- @usub d a 1 ;; udiv b 64).
    Proof using Hroom Hc Hd.
      clear Hdebug. intros L. pose proof (Hroom L) as E1. rewrite E1. destruct (@checked_add d n 64) as [a|] eqn:E; [|reflexivity].
      unfold checked_add in E, E1. destruct (n + 64 <=? @usize_max c) eqn:F; [|discriminate].
      destruct (n + 64 <=? @usize_max d) eqn:G; [|discriminate]. injection E as <-. cbn [unwrap bind].
      now rewrite !usub_ok by lia.
    Qed.
    Lemma room_words (e : Config) x :
      (a <- unwrap (@checked_add e n 64) ;; b <- @usub e a 1 ;; udiv b 64) = Val x -> x = words.
    Proof using.
      clear. destruct (unwrap (@checked_add e n 64)) as [a|w| | |] eqn:E1; cbn [bind]; try discriminate.
      destruct (@usub e a 1) as [b|w| | |] eqn:E2; cbn [bind]; try discriminate. intros E3. rewrite (alloc_words E1 E2 E3). exact words_up.
    Qed.
    Lemma empty_list (ws : list N) : llen ws =? 0 = true -> ws = [].
    Proof using. clear. destruct ws; [reflexivity|]. unfold llen. cbn. discriminate. Qed.

    (** The words an insertion works on. *)
    Definition alloc (e : Config) (ws : list N) : res (list N) :=
      if llen ws =? 0 then
        len <- (a <- unwrap (@checked_add e n 64) ;; b <- @usub e a 1 ;; udiv b 64) ;; Val (repeat 0 (N.to_nat len))
      else Val ws.
    Lemma alloc_same ws : 64 < n -> alloc c ws = alloc d ws.
    Proof using Hroom Hc Hd. intros L. unfold alloc. now rewrite room_same. Qed.
    Lemma alloc_len (e : Config) ws ws' : ws = [] \/ llen ws = words -> alloc e ws = Val ws' -> llen ws' = words.
    Proof using.
      clear. intros H. unfold alloc. destruct (llen ws =? 0) eqn:E.
      - destruct (a <- unwrap (checked_add n 64) ;; b <- usub a 1 ;; udiv b 64) as [x|w| | |] eqn:E1; cbn [bind]; try discriminate.
        intros [= <-]. unfold llen. rewrite repeat_length, N2Nat.id. exact (room_words E1).
      - intros [= <-]. destruct H as [-> |H]; [discriminate E|exact H].
    Qed.
    Lemma insert_eq (e : Config) s t : @OrdinalSet_insert e T O s t =
      match (n <=? 64), s with
      | true, Small w => '(r, ws') <- (ws <- @OrdinalSetMut_new e T O [w] ;; @OrdinalSetMut_insert e T O ws t) ;;
                         match ws' with [w'] => Val (r, Small w') | _ => UB end
      | false, Large ws => ws <- alloc e ws ;;
                           '(r, ws') <- (ws <- @OrdinalSetMut_new e T O ws ;; @OrdinalSetMut_insert e T O ws t) ;; Val (r, Large ws')
      | _, _ => Panic PUnreachable
      end.
    Proof using Hn.
      clear - Hn. unfold OrdinalSet_insert. rewrite is_small. cbn [bind]. destruct (n <=? 64), s as [w|ws]; try reflexivity.
      - destruct (@OrdinalSetMut_new e T O [w]); reflexivity.
      - unfold alloc. destruct (llen ws =? 0).
        + rewrite Hn. cbn [bind]. destruct (unwrap (checked_add n 64)) as [a|w| | |]; cbn [bind]; try reflexivity.
          destruct (usub a 1) as [b|w| | |]; cbn [bind]; try reflexivity. destruct (udiv b 64) as [x|w| | |]; cbn [bind]; try reflexivity.
          destruct (@OrdinalSetMut_new e T O (repeat 0 (N.to_nat x))); reflexivity.
        + cbn [bind]. destruct (@OrdinalSetMut_new e T O ws); reflexivity.
    Qed.
    Lemma up_insert s t : fit s -> up (@OrdinalSet_insert c T O s t) (@OrdinalSet_insert d T O s t).
    Proof using Hn Hc Hd Hdebug Hroom.
      intros H. rewrite !insert_eq. destruct (N.leb_spec n 64) as [L|L], s as [w|ws]; try apply up_refl.
      - apply up_bind; [apply up_insert_words, debug_one, L|]. intros [r ws'] _. apply up_refl.
      - rewrite (alloc_same ws L). apply up_bind; [apply up_refl|]. intros ws1 E. apply (alloc_len H) in E.
        apply up_bind; [|intros [r ws'] _; apply up_refl]. apply up_insert_words. left. now rewrite E, N.eqb_refl.
    Qed.
    Lemma fit_insert (e : Config) s t b s' : fit s -> @OrdinalSet_insert e T O s t = Val (b, s') -> fit s'.
    Proof using Hn.
      clear - Hn. intros H. rewrite insert_eq. destruct (n <=? 64), s as [w|ws]; try discriminate.
      - destruct (ws <- @OrdinalSetMut_new e T O [w] ;; @OrdinalSetMut_insert e T O ws t) as [[r [|x [|]]]|v| | |]; cbn; try discriminate.
        now intros [= _ <-].
      - destruct (alloc e ws) as [ws1|w| | |] eqn:E; cbn [bind]; try discriminate. apply (alloc_len H) in E.
        pose proof (words_act_len e t ws1) as L. rewrite words_act in L.
        destruct (ws <- @OrdinalSetMut_new e T O ws1 ;; @OrdinalSetMut_insert e T O ws t) as [[r ws']|v| | |]; cbn; try discriminate.
        intros [= _ <-]. right. cbn in L. unfold llen in *. now rewrite L.
    Qed.
    Lemma up_insert_all l : forall s, fit s -> up (@OrdinalSet_insert_all c T O l s) (@OrdinalSet_insert_all d T O l s).
    Proof using Hn Hc Hd Hdebug Hroom.
      induction l as [|t l IH]; intros s H; cbn [OrdinalSet_insert_all]; [apply up_refl|].
      apply up_bind; [now apply up_insert|]. intros [b s'] E. apply IH. exact (fit_insert H E).
    Qed.
    Lemma fit_insert_all (e : Config) l : forall s s', fit s -> @OrdinalSet_insert_all e T O l s = Val s' -> fit s'.
    Proof using Hn.
      clear - Hn. induction l as [|t l IH]; intros s s' H; cbn [OrdinalSet_insert_all]; [now intros [= <-]|].
      destruct (@OrdinalSet_insert e T O s t) as [[b s1]|w| | |] eqn:E; cbn [bind]; try discriminate. apply IH. exact (fit_insert H E).
    Qed.
    Lemma fit_new s : OrdinalSet_new O = Val s -> fit s.
    Proof using Hn. clear - Hn. unfold OrdinalSet_new. rewrite is_small. cbn. intros [= <-]. destruct (n <=? 64); [exact I|now left]. Qed.
    Lemma up_set_step op s : fit s -> up (@set_step c T O op s) (@set_step d T O op s).
    Proof using Hn Hc Hd Hdebug Hroom.
      intros H. destruct op; cbn [set_step]; try apply up_refl.
      - apply up_bind; [now apply up_insert|]. intros [b s'] _. apply up_refl.
      - unfold OrdinalSet_contains. apply up_bind; [|intros; apply up_refl]. apply up_bind; [now apply up_as_ref|].
        intros r _. rewrite same_contains. apply up_refl.
      - apply up_bind; [unfold OrdinalSet_iter; apply up_bind; [now apply up_as_ref|intros; apply up_refl]|].
        intros it _. rewrite (same_drive same_iter_step). apply up_refl.
      - apply up_bind; [|intros; apply up_refl]. unfold OrdinalSet_from_iter. apply up_bind; [apply up_refl|].
        intros s0 E. apply up_insert_all. exact (fit_new E).
      - apply up_bind; [|intros; apply up_refl]. unfold OrdinalSet_debug. apply up_bind; [now apply up_as_ref|].
        intros r _. rewrite same_ref_debug. apply up_refl.
    Qed.
    Lemma insert_act_eq (e : Config) s t : fst (OrdinalSet_insert_act (cfg := e) O t s) =
      match (n <=? 64), s with
      | true, Small w => fst (@OrdinalSet_insert_act e T O t (Small w))
      | false, Large ws => fst (@OrdinalSet_insert_act e T O t (Large ws))
      | _, _ => s
      end.
    Proof using Hn.
      clear - Hn. unfold OrdinalSet_insert_act, abind, look. rewrite is_small. cbn. now destruct (n <=? 64), s.
    Qed.
    Lemma up_insert_act t : up_act bad fit (@OrdinalSet_insert_act c T O t) (@OrdinalSet_insert_act d T O t).
    Proof using Hn Hc Hd Hdebug Hroom.
      intros s H. unfold OrdinalSet_insert_act, abind, look, put, ret. rewrite is_small. cbn [ending_of].
      destruct (N.leb_spec n 64) as [L|L], s as [w|ws]; try (now right).
      - unfold on_words. destruct (up_words_act t (m := [w]) (debug_one w L)) as [(m' & v & B & E)|E].
        + pose proof (words_act_len c t [w]) as Ln. rewrite E in Ln |- *. destruct m' as [|x [|]]; try discriminate. left. now exists (Small x), v.
        + rewrite E. now right.
      - destruct (llen ws =? 0) eqn:E0.
        + rewrite Hn. cbn [bind]. rewrite (room_same L).
          destruct (a <- unwrap (@checked_add d n 64) ;; b <- @usub d a 1 ;; udiv b 64) as [x|w| | |] eqn:E1; try (now right).
          cbn [ending_of]. unfold on_words.
          assert (Hok : debug_ok (llen (repeat 0 (N.to_nat x)) =? words)).
          { left. unfold llen. rewrite repeat_length, N2Nat.id, (room_words E1). apply N.eqb_refl. }
          destruct (up_words_act t Hok) as [(m' & v & B & E)|E]; rewrite E; [|now right]. left. now exists (Large m'), v.
        + cbn [ending_of]. unfold on_words.
          assert (Hok : debug_ok (llen ws =? words)).
          { left. destruct H as [-> | ->]; [discriminate E0|apply N.eqb_refl]. }
          destruct (up_words_act t Hok) as [(m' & v & B & E)|E]; rewrite E; [|now right]. left. now exists (Large m'), v.
    Qed.
    Lemma fit_insert_act (e : Config) t : keeps fit (@OrdinalSet_insert_act e T O t).
    Proof using Hn.
      clear - Hn. intros s H. unfold OrdinalSet_insert_act, abind, look, put, ret. rewrite is_small. cbn [ending_of].
      destruct (N.leb_spec n 64) as [L|L], s as [w|ws]; try exact H.
      - unfold on_words. pose proof (words_act_len e t [w]) as Ln. destruct (@OrdinalSetMut_insert_act e T O t [w]) as [[|x [|]] v]; exact I.
      - destruct (llen ws =? 0) eqn:E0.
        + rewrite Hn. cbn [bind].
          destruct (a <- unwrap (@checked_add e n 64) ;; b <- @usub e a 1 ;; udiv b 64) as [x|w| | |] eqn:E1; try exact H.
          cbn [ending_of]. unfold on_words. pose proof (words_act_len e t (repeat 0 (N.to_nat x))) as Ln.
          destruct (@OrdinalSetMut_insert_act e T O t (repeat 0 (N.to_nat x))) as [ws' v]. cbn [fst] in *. right.
          unfold llen. rewrite Ln, repeat_length, N2Nat.id. exact (room_words E1).
        + cbn [ending_of]. unfold on_words. pose proof (words_act_len e t ws) as Ln.
          destruct (@OrdinalSetMut_insert_act e T O t ws) as [ws' v]. cbn [fst] in *. right.
          unfold llen in *. rewrite Ln. destruct H as [-> |H]; [discriminate E0|exact H].
    Qed.
    Lemma up_set_act op : up_act bad fit (@set_act c T O op) (@set_act d T O op).
    Proof using Hn Hc Hd Hdebug Hroom.
      destruct op; cbn [set_act]; try (apply up_replaces; intros s H; now apply up_set_step). apply up_abind. apply up_insert_act.
    Qed.
    Lemma fit_set_act (e : Config) op : keeps fit (@set_act e T O op).
    Proof using Hn.
      clear - Hn. destruct op; cbn [set_act].
      - apply keeps_bind; [apply fit_insert_act|intros; apply keeps_ret].
      - apply keeps_replaces. intros s a s' H. cbn [set_step]. destruct (OrdinalSet_contains O s t) as [b|w| | |]; cbn; try discriminate. now intros [= _ <-].
      - apply keeps_replaces. intros s a s' H. cbn [set_step]. destruct (OrdinalSet_iter O s) as [it|w| | |]; cbn; try discriminate.
        destruct (drive (SetIter_step O) sched it) as [[x y]|w| | |]; cbn; try discriminate. now intros [= _ <-].
      - apply keeps_replaces. intros s a s' H. cbn [set_step]. unfold OrdinalSet_from_iter.
        destruct (OrdinalSet_new O) as [s0|w| | |] eqn:E; cbn [bind]; try discriminate.
        destruct (OrdinalSet_insert_all O l s0) as [s1|w| | |] eqn:E1; cbn [bind]; try discriminate. intros [= _ <-].
        exact (fit_insert_all (fit_new E) E1).
      - apply keeps_replaces. intros s a s' H [= _ <-]. now destruct s.
      - apply keeps_replaces. intros s a s' H. cbn [set_step]. destruct (OrdinalSet_debug O s) as [b|w| | |]; cbn; try discriminate. now intros [= _ <-].
    Qed.
  End Heap.

  (** *** OrdinalSet64 *)
  Section Small.
    Hypothesis Hdebug : n <> 0 \/ forall b, debug_ok b.
    Hypothesis Hshift : forall t i, ordinal O t = Val i -> shift_ok c d bad i.

    Lemma up_bit t (A : Type) (f : N -> res A) : up (i <- ordinal O t ;; b <- @u64_shl c 1 i ;; f b) (i <- ordinal O t ;; b <- @u64_shl d 1 i ;; f b).
    Proof using Hshift.
      apply up_bind; [apply up_refl|]. intros i E. apply up_bind; [apply up_shl; exact (Hshift E)|]. intros. apply up_refl.
    Qed.
    Lemma up_contains64 s t : up (@OrdinalSet64_contains c T O s t) (@OrdinalSet64_contains d T O s t).
    Proof using Hshift. unfold OrdinalSet64_contains. apply up_bind; [apply up_refl|]. intros _ _. apply up_bit. Qed.
    Lemma up_or_all l : forall s, up (@OrdinalSet64_or_all c T O l s) (@OrdinalSet64_or_all d T O l s).
    Proof using Hshift.
      induction l as [|t l IH]; intros s; cbn [OrdinalSet64_or_all]; [apply up_refl|].
      apply up_bind; [apply up_refl|]. intros i E. apply up_bind; [apply up_shl; exact (Hshift E)|]. intros. apply IH.
    Qed.
    Definition wide (s : OrdinalSet64) : Prop := forall k, N.testbit s k = true -> k < 64.
    Lemma wide_land s x : wide s -> wide (N.land s x).
    Proof using. clear. intros H k. rewrite N.land_spec. intros E. apply H. now destruct (N.testbit s k). Qed.
    Lemma wide_lor s x : wide s -> wide x -> wide (N.lor s x).
    Proof using. clear. intros H G k. rewrite N.lor_spec. intros E. destruct (N.testbit s k) eqn:F; [now apply H|now apply G]. Qed.
    Lemma wide_shl (e : Config) i x : @u64_shl e 1 i = Val x -> wide x.
    Proof using.
      clear. unfold u64_shl. intros H k.
      assert (G : exists j, x = N.land (N.shiftl 1 j) u64_max).
      { revert H. destruct (i <? 64); [intros H; exists i; congruence|]. destruct (@overflow_checks e); [discriminate|].
        intros H. exists (i mod 64). congruence. }
      destruct G as [j ->]. rewrite N.land_spec, u64_max_bit. intros E. apply andb_prop in E. lia.
    Qed.
    Lemma same_iter64 r s : wide s -> @Iter64_step c T O r s = @Iter64_step d T O r s.
    Proof using.
      clear. intros H. destruct r; cbn [Iter64_step]; [unfold Iter64_next|unfold Iter64_next_back]; cbv zeta.
      - pose proof (trailing_zeros_bits H) as G. destruct (trailing_zeros s =? 64); [reflexivity|]. destruct G as [G _].
        now rewrite (@same_shl c d).
      - pose proof (leading_zeros_bits H) as G. destruct (checked_sub (64 - 1) (leading_zeros s)) as [i|]; [|reflexivity].
        destruct G as [G _]. now rewrite (@same_shl c d).
    Qed.
    Lemma wide_step (e : Config) r s o s' : wide s -> @Iter64_step e T O r s = Val (o, s') -> wide s'.
    Proof using.
      clear. intros H. destruct r; cbn [Iter64_step]; [unfold Iter64_next|unfold Iter64_next_back]; cbv zeta.
      - destruct (trailing_zeros s =? 64); [intros E; injection E as _ E; now subst s'|].
        destruct (u64_shl 1 (trailing_zeros s)) as [b|w| | |]; cbn [bind]; try discriminate.
        destruct (from_ordinal O (trailing_zeros s)) as [[t|]|w| | |]; cbn; try discriminate. intros E; injection E as _ E. subst s'. now apply wide_land.
      - destruct (checked_sub (64 - 1) (leading_zeros s)) as [i|]; [|intros E; injection E as _ E; now subst s'].
        destruct (u64_shl 1 i) as [b|w| | |]; cbn [bind]; try discriminate.
        destruct (from_ordinal O i) as [[t|]|w| | |]; cbn; try discriminate. intros E; injection E as _ E. subst s'. now apply wide_land.
    Qed.
    Lemma same_drive64 sched : forall s, wide s -> drive (@Iter64_step c T O) sched s = drive (@Iter64_step d T O) sched s.
    Proof using.
      clear. induction sched as [|r rs IH]; intros s H; cbn [drive]; [reflexivity|]. rewrite (same_iter64 r H).
      destruct (@Iter64_step d T O r s) as [[o s1]|w| | |] eqn:E; cbn [bind]; try reflexivity. now rewrite (IH s1 (wide_step H E)).
    Qed.
    Hypothesis Hsmall : n <= 64.
    Lemma up_set64_step op s : wide s -> up (@set64_step c T O op s) (@set64_step d T O op s).
    Proof using Hn Hc Hd Hdebug Hshift Hsmall.
      intros H. destruct op; cbn [set64_step]; try apply up_refl.
      - unfold OrdinalSet64_insert. apply up_bind; [|intros [b s'] _; apply up_refl]. apply up_bind; [apply up_refl|]. intros _ _.
        apply up_bind; [apply up_contains64|]. intros b _. apply (up_bit t (fun b0 => Val (negb b, N.lor s b0))).
      - apply up_bind; [apply up_contains64|]. intros. apply up_refl.
      - apply up_bind; [apply up_refl|]. intros it E. assert (it = s) as ->.
        { unfold OrdinalSet64_iter in E. destruct (Set64_ASSERT O); cbn in E; try discriminate. now injection E as <-. }
        rewrite (same_drive64 sched H). apply up_refl.
      - apply up_bind; [|intros; apply up_refl]. apply up_bind; [apply up_refl|]. intros. apply up_or_all.
      - apply up_bind; [|intros; apply up_refl]. apply up_bind; [apply up_ref_new, debug_or, debug_one; assumption|].
        intros r _. rewrite same_ref_debug. apply up_refl.
    Qed.
    Lemma up_look A B (f g : OrdinalSet64 -> res A) (k l : A -> act OrdinalSet64 B) :
      (forall s, wide s -> up (f s) (g s)) ->
      (forall s a, wide s -> f s = Val a -> (exists m' w, bad w /\ k a s = (m', Unwinds w)) \/ k a s = l a s) ->
      up_act bad wide (abind (look f) k) (abind (look g) l).
    Proof using.
      clear. intros H G s Hs. unfold abind, look. destruct (H s Hs) as [(w & B0 & ->)|E]; [left; now exists s, w|]. rewrite <- E.
      destruct (f s) as [a|w| | |] eqn:E1; cbn [ending_of]; try (now right). now apply G.
    Qed.
    Lemma up_insert64_act t : up_act bad wide (@OrdinalSet64_insert_act c T O t) (@OrdinalSet64_insert_act d T O t).
    Proof using Hshift.
      unfold OrdinalSet64_insert_act. apply up_look; [intros; apply up_refl|]. intros s [] Hs _. revert s Hs.
      apply up_look; [intros; apply up_contains64|]. intros s b Hs _. revert s Hs.
      apply up_look; [intros; apply up_refl|]. intros s i Hs E. revert s Hs E. intros s Hs E.
      refine (@up_look _ _ (fun _ => @u64_shl c 1 i) (fun _ => @u64_shl d 1 i) _ _ _ _ s Hs).
      - intros. apply up_shl. exact (Hshift E).
      - intros. now right.
    Qed.
    Lemma wide_insert64_act (e : Config) t : keeps wide (@OrdinalSet64_insert_act e T O t).
    Proof using.
      clear. intros s H. unfold OrdinalSet64_insert_act, abind, look, put, ret.
      destruct (Set64_ASSERT O); cbn [ending_of]; try exact H.
      destruct (OrdinalSet64_contains O s t); cbn [ending_of]; try exact H.
      destruct (ordinal O t) as [i|w| | |]; cbn [ending_of]; try exact H.
      destruct (u64_shl 1 i) eqn:E; cbn [ending_of]; try exact H. cbn [fst]. apply wide_lor; [exact H|exact (wide_shl E)].
    Qed.
    Lemma wide_or_all (e : Config) l : forall s s', wide s -> @OrdinalSet64_or_all e T O l s = Val s' -> wide s'.
    Proof using.
      clear. induction l as [|t l IH]; intros s s' H; cbn [OrdinalSet64_or_all]; [now intros [= <-]|].
      destruct (ordinal O t) as [i|w| | |]; cbn [bind]; try discriminate.
      destruct (u64_shl 1 i) as [x|w| | |] eqn:E; cbn [bind]; try discriminate. apply IH. apply wide_lor; [exact H|exact (wide_shl E)].
    Qed.
    Lemma up_set64_act op : up_act bad wide (@set64_act c T O op) (@set64_act d T O op).
    Proof using Hn Hc Hd Hdebug Hshift Hsmall.
      destruct op; cbn [set64_act]; try (apply up_replaces; intros s H; now apply up_set64_step). apply up_abind. apply up_insert64_act.
    Qed.
    Lemma wide_set64_act (e : Config) op : keeps wide (@set64_act e T O op).
    Proof using.
      clear. destruct op; cbn [set64_act].
      - apply keeps_bind; [apply wide_insert64_act|intros; apply keeps_ret].
      - apply keeps_replaces. intros s a s' H. cbn [set64_step]. destruct (OrdinalSet64_contains O s t) as [b|w| | |]; cbn; try discriminate. now intros [= _ <-].
      - apply keeps_replaces. intros s a s' H. cbn [set64_step]. destruct (OrdinalSet64_iter O s) as [it|w| | |]; cbn; try discriminate.
        destruct (drive (Iter64_step O) sched it) as [[x y]|w| | |]; cbn; try discriminate. now intros [= _ <-].
      - apply keeps_replaces. intros s a s' H. cbn [set64_step]. unfold OrdinalSet64_from_iter, OrdinalSet64_new.
        destruct (Set64_ASSERT O); cbn [bind]; try discriminate.
        destruct (OrdinalSet64_or_all O l 0) as [s1|w| | |] eqn:E1; cbn [bind]; try discriminate. intros [= _ <-].
        apply (wide_or_all (s := 0)) in E1; [exact E1|]. intros k. rewrite N.bits_0. discriminate.
      - apply keeps_replaces. intros s a s' H [= _ <-]. exact H.
      - apply keeps_replaces. intros s a s' H. cbn [set64_step]. destruct (OrdinalSet64_debug O s) as [b|w| | |]; cbn; try discriminate. now intros [= _ <-].
    Qed.
  End Small.

  (** *** OrdinalArraySet *)
  Section Array.
    Context (S : nat).
    Lemma same_assert : @ArraySet_ASSERT c T O S = @ArraySet_ASSERT d T O S.
    Proof using Hn Hc Hd. unfold ArraySet_ASSERT. now rewrite (words_of Hc), (words_of Hd). Qed.
    Lemma assert_words (e : Config) : n <= @usize_max e -> @ArraySet_ASSERT e T O S = Val tt -> N.of_nat S = words.
    Proof using Hn.
      clear - Hn. intros H. unfold ArraySet_ASSERT. rewrite (words_of H). cbn. unfold assert_const.
      destruct (N.eqb_spec (N.of_nat S) words); [trivial|discriminate].
    Qed.
    Lemma array_insert_eq (e : Config) (s : OrdinalArraySet S) t : @OrdinalArraySet_insert e T O S s t =
      (@ArraySet_ASSERT e T O S ;;;
       '(r, ws') <- (ws <- @OrdinalSetMut_new e T O (arr_list s) ;; @OrdinalSetMut_insert e T O ws t) ;;
       a <- as_array S ws' ;; Val (r, a)).
    Proof using.
      clear. unfold OrdinalArraySet_insert. destruct (ArraySet_ASSERT O S); cbn [bind]; try reflexivity.
      now destruct (OrdinalSetMut_new O (arr_list s)).
    Qed.
    Lemma up_array_insert (s : OrdinalArraySet S) t : up (@OrdinalArraySet_insert c T O S s t) (@OrdinalArraySet_insert d T O S s t).
    Proof using Hn Hc Hd.
      rewrite !array_insert_eq, same_assert. apply up_bind; [apply up_refl|]. intros [] E.
      apply (assert_words Hd) in E. apply up_bind; [|intros [r ws'] _; apply up_refl]. apply up_insert_words.
      left. unfold llen. now rewrite arr_length, E, N.eqb_refl.
    Qed.
    Lemma up_array_insert_all l : forall s, up (@OrdinalArraySet_insert_all c T O S l s) (@OrdinalArraySet_insert_all d T O S l s).
    Proof using Hn Hc Hd.
      induction l as [|t l IH]; intros s; cbn [OrdinalArraySet_insert_all]; [apply up_refl|].
      apply up_bind; [apply up_array_insert|]. intros [b s'] _. apply IH.
    Qed.
    Lemma up_array_ref (s : OrdinalArraySet S) : up (@OrdinalArraySet_as_ref c T O S s) (@OrdinalArraySet_as_ref d T O S s).
    Proof using Hn Hc Hd.
      unfold OrdinalArraySet_as_ref. rewrite same_assert. apply up_bind; [apply up_refl|]. intros [] E.
      rewrite <- same_assert in E. apply (assert_words Hc) in E. apply up_ref_new, debug_or. left.
      unfold llen. now rewrite arr_length, E, N.eqb_refl.
    Qed.
    Lemma up_array_set_step op s : up (@array_set_step c T O S op s) (@array_set_step d T O S op s).
    Proof using Hn Hc Hd.
      destruct op; cbn [array_set_step]; try apply up_refl.
      - apply up_bind; [apply up_array_insert|]. intros [b s'] _. apply up_refl.
      - apply up_bind; [|intros; apply up_refl]. apply up_bind; [apply up_array_ref|]. intros r _. rewrite same_contains. apply up_refl.
      - apply up_bind; [|intros; apply up_refl]. unfold OrdinalArraySet_from_iter, OrdinalArraySet_new. rewrite same_assert.
        apply up_bind; [apply up_refl|]. intros. apply up_array_insert_all.
      - apply up_bind; [|intros; apply up_refl]. apply up_bind; [apply up_array_ref|]. intros r _. rewrite same_ref_debug. apply up_refl.
    Qed.
    Lemma up_array_set_act op : up_act bad (fun _ => True) (@array_set_act c T O S op) (@array_set_act d T O S op).
    Proof using Hn Hc Hd.
      destruct op; cbn [array_set_act]; try (apply up_replaces; intros s H; now apply up_array_set_step). apply up_abind.
      intros s _. unfold OrdinalArraySet_insert_act, abind, look. rewrite same_assert.
      destruct (@ArraySet_ASSERT d T O S) as [[]|w| | |] eqn:E; cbn [ending_of]; try (now right).
      apply (assert_words Hd) in E. unfold on_words.
      assert (G : debug_ok (llen (arr_list s) =? words)).
      { left. unfold llen. now rewrite arr_length, E, N.eqb_refl. }
      destruct (up_words_act t G) as [(m' & v & B & U)|U]; rewrite U; [|now right].
      pose proof (words_act_len c t (arr_list s)) as L. rewrite U in L. cbn [fst] in L. rewrite arr_length in L.
      destruct (try_arr_ok _ L) as (a & Ha & _). rewrite Ha. left. now exists a, v.
    Qed.
  End Array.
End Sets.
