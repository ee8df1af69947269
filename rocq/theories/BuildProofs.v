(** * BuildProofs: what maps do does not depend on the target or the build settings. *)
From Verif Require Import Base BaseProofs Spec SpecMap SpecTotal SpecCatch ModelOrdinal ModelValues
  ModelArrayBuilder ModelIter ModelTotal ModelMap ModelResume ModelUnwind ModelCatch MapMachine TotalMachine MapLib ArrayProofs.
From Coq Require Import List Lia. Import ListNotations.
Set Implicit Arguments.
Unset Strict Implicit.

Lemma pop_front_len A (l : list A) x r : pop_front l = Some (x, r) -> llen l = llen r + 1.
Proof. destruct l as [|y l]; [discriminate|]. cbn. intros [= <- <-]. unfold llen. cbn [length]. lia. Qed.
Lemma pop_back_len A (l : list A) : forall x r, pop_back l = Some (x, r) -> llen l = llen r + 1.
Proof.
  induction l as [|y l IH]; cbn; intros x r H; [discriminate|].
  destruct (pop_back l) as [[z s]|] eqn:E; injection H as <- <-.
  - specialize (IH _ _ eq_refl). unfold llen in *. cbn [length] in *. lia.
  - destruct l as [|w l]; [reflexivity|]. cbn in E. destruct (pop_back l) as [[? ?]|]; discriminate.
Qed.
Lemma llen_slots A (l : list A) : llen (slots (length l)) = llen l.
Proof. unfold llen, slots. now rewrite map_length, seq_length. Qed.

(** Two functions that agree where [I] holds, and keep it. *)
Definition alike {S A} (I : S -> Prop) (f g : S -> res (A * S)) : Prop :=
  forall s, I s -> f s = g s /\ forall a s', f s = Val (a, s') -> I s'.

Lemma alike_drive S A (I : S -> Prop) (f g : dir -> S -> res (option A * S)) : (forall d, alike I (f d) (g d)) ->
  forall sched, alike I (drive f sched) (drive g sched).
Proof.
  intros H. induction sched as [|d ds IH]; intros s Hs; cbn.
  - split; [reflexivity|]. now intros a s' [= _ <-].
  - destruct (H d s Hs) as [E P]. rewrite <- E. destruct (f d s) as [[o s1]|w| | |]; cbn; try (split; [reflexivity|discriminate]).
    destruct (IH s1 (P _ _ eq_refl)) as [E1 P1]. rewrite <- E1.
    destruct (drive f ds s1) as [[os s2]|w| | |]; cbn; try (split; [reflexivity|discriminate]).
    split; [reflexivity|]. intros a s' [= _ <-]. exact (P1 _ _ eq_refl).
Qed.
Lemma alike_collect S A (I : S -> Prop) (f g : S -> res (option A * S)) : alike I f g ->
  forall fuel, alike I (collect f fuel) (collect g fuel).
Proof.
  intros H. induction fuel as [|fuel IH]; intros s Hs; cbn; [split; [reflexivity|discriminate]|].
  destruct (H s Hs) as [E P]. rewrite <- E. destruct (f s) as [[o s1]|w| | |]; cbn; try (split; [reflexivity|discriminate]).
  destruct o as [a|]; [|split; [reflexivity|intros b s' [= _ <-]; exact (P _ _ eq_refl)]].
  destruct (IH s1 (P _ _ eq_refl)) as [E1 P1]. rewrite <- E1.
  destruct (collect f fuel s1) as [[os s2]|w| | |]; cbn; try (split; [reflexivity|discriminate]).
  split; [reflexivity|]. intros b s' [= _ <-]. exact (P1 _ _ eq_refl).
Qed.

Section Two.
  Context (c d : Config) (M : N) (Hc : M <= @usize_max c) (Hd : M <= @usize_max d).

  Lemma add_c a b : a + b <= M -> @uadd c a b = Val (a + b).
  Proof using Hc. clear d Hd. intros H. apply uadd_ok. lia. Qed.
  Lemma add_d a b : a + b <= M -> @uadd d a b = Val (a + b).
  Proof using Hd. clear c Hc. intros H. apply uadd_ok. lia. Qed.

  Definition fits {A} (s : enumerate A) : Prop := e_next s + llen (e_items s) <= M.

  Section Iter.
    Context {K : Type} (O : Ordinal K).

    Lemma alike_enum A r : alike (@fits A) (@enumerate_step c K O A r) (@enumerate_step d K O A r).
    Proof using Hc Hd.
      intros s Hs. unfold fits in *. destruct r; cbn [enumerate_step]; unfold enumerate_next, enumerate_next_back.
      - destruct (pop_front (e_items s)) as [[v rest]|] eqn:E; [|split; [reflexivity|]; intros a s' [= _ <-]; exact Hs].
        apply pop_front_len in E. rewrite add_c, add_d by lia. split; [reflexivity|].
        destruct (from_ordinal O (e_next s)) as [[k|]|w| | |]; cbn; try discriminate.
        intros a s' [= _ <-]. cbn. lia.
      - destruct (pop_back (e_items s)) as [[v rest]|] eqn:E; [|split; [reflexivity|]; intros a s' [= _ <-]; exact Hs].
        apply pop_back_len in E. rewrite add_c, add_d by lia. split; [reflexivity|]. cbn.
        destruct (from_ordinal O (e_next s + llen rest)) as [[k|]|w| | |]; cbn; try discriminate.
        intros a s' [= _ <-]. cbn. lia.
    Qed.
    Lemma alike_sparse A B (f g : enumerate A -> res (option (K * A) * enumerate A)) (sel : A -> res (option B)) :
      alike fits f g -> forall fuel, alike fits (sparse_loop f sel fuel) (sparse_loop g sel fuel).
    Proof.
      intros H. induction fuel as [|fuel IH]; intros s Hs; cbn [sparse_loop]; [split; [reflexivity|discriminate]|].
      destruct (H s Hs) as [E P]. rewrite <- E. destruct (f s) as [[o s1]|w| | |]; cbn; try (split; [reflexivity|discriminate]).
      destruct o as [[k a]|]; [|split; [reflexivity|intros b s' [= _ <-]; exact (P _ _ eq_refl)]].
      destruct (sel a) as [[v|]|w| | |]; cbn; try (split; [reflexivity|discriminate]).
      - split; [reflexivity|]. intros b s' [= _ <-]. exact (P _ _ eq_refl).
      - exact (IH s1 (P _ _ eq_refl)).
    Qed.
    Lemma alike_iter V r : alike fits (@Iter_step c K O V r) (@Iter_step d K O V r).
    Proof using Hc Hd. intros s Hs. exact (alike_sparse _ (@alike_enum _ r) _ Hs). Qed.
    Lemma alike_iter_mut V st r : alike fits (@IterMut_step c K O V st r) (@IterMut_step d K O V st r).
    Proof using Hc Hd. intros s Hs. exact (alike_sparse _ (@alike_enum _ r) _ Hs). Qed.
    Lemma alike_map S A B (I : S -> Prop) (f g : S -> res (A * S)) (h : A -> B) : alike I f g ->
      alike I (fun s => '(o, s') <- f s ;; Val (h o, s')) (fun s => '(o, s') <- g s ;; Val (h o, s')).
    Proof.
      intros H s Hs. destruct (H s Hs) as [E P]. rewrite <- E. split; [reflexivity|].
      destruct (f s) as [[a s1]|w| | |]; cbn; try discriminate. intros b s' [= _ <-]. exact (P _ _ eq_refl).
    Qed.
    Lemma alike_count V fuel : forall (s : @Iter V) n, fits s -> n + llen (e_items s) <= M ->
      @Iter_count_loop c K O V fuel s n = @Iter_count_loop d K O V fuel s n.
    Proof using Hc Hd.
      induction fuel as [|fuel IH]; intros s n Hs Hn; cbn [Iter_count_loop]; [reflexivity|].
      destruct (alike_iter Front Hs) as [E P]. rewrite <- E.
      destruct (@Iter_step c K O V Front s) as [[[p|] s1]|w| | |] eqn:E1; cbn; try reflexivity.
      assert (L : llen (e_items s1) + 1 <= llen (e_items s)); [|rewrite add_c, add_d by lia; apply IH; [exact (P _ _ eq_refl)|lia]].
      clear - E1. unfold Iter_step in E1. revert E1. generalize (S (length (e_items s))) as f. intros f. revert s.
      induction f as [|f IH]; intros s; cbn [sparse_loop]; [discriminate|].
      unfold TIter_step, enumerate_step, enumerate_next. destruct (pop_front (e_items s)) as [[v rest]|] eqn:Ep; [|discriminate].
      apply pop_front_len in Ep.
      destruct (from_ordinal O (e_next s)) as [[k|]|w| | |]; cbn; try discriminate.
      destruct (uadd (e_next s) 1) as [nx|w| | |]; cbn; try discriminate. destruct v as [v|].
      - intros [= _ <-]. cbn. lia.
      - intros E. apply IH in E. cbn in E. lia.
    Qed.
    Lemma same_count V (s : @Iter V) : fits s -> e_next s = 0 -> @Iter_count c K O V s = @Iter_count d K O V s.
    Proof using Hc Hd. intros H E. apply alike_count; [exact H|]. unfold fits in H. lia. Qed.

    Lemma alike_drain_loop V r fuel : alike (fun s : @Drain V => fits (snd s)) (@Drain_loop c K O V r fuel) (@Drain_loop d K O V r fuel).
    Proof using Hc Hd.
      induction fuel as [|fuel IH]; intros [st it] Hs; cbn [Drain_loop]; [split; [reflexivity|discriminate]|].
      destruct (@alike_enum _ r it Hs) as [E P]. unfold TIterMut_step. rewrite <- E.
      destruct (@enumerate_step c K O N r it) as [[[[k i]|] it1]|w| | |]; cbn; try (split; [reflexivity|discriminate]).
      - destruct (deref st i) as [[v|]|w| | |]; cbn; try (split; [reflexivity|discriminate]).
        + split; [reflexivity|]. intros b s' [= _ <-]. exact (P _ _ eq_refl).
        + apply IH. exact (P _ _ eq_refl).
      - split; [reflexivity|]. intros b s' [= _ <-]. exact (P _ _ eq_refl).
    Qed.
    Lemma alike_drain V r : alike (fun s : @Drain V => fits (snd s)) (@Drain_step c K O V r) (@Drain_step d K O V r).
    Proof using Hc Hd. intros s Hs. exact (@alike_drain_loop V r _ s Hs). Qed.
  End Iter.

  (** The steps of ModelResume, which give the state left behind in every case. *)
  Section Resume.
    Context {U T : Type} (from : U -> N -> U * res (option T)).

    Definition akin {S A} (I : S -> Prop) (f g : U * S -> (U * S) * res A) : Prop :=
      forall u s, I s -> f (u, s) = g (u, s) /\ I (snd (fst (f (u, s)))).

    Lemma akin_enum A r : akin (@fits A) (@enumerate_resume c U T from A r) (@enumerate_resume d U T from A r).
    Proof using Hc Hd.
      intros u s Hs. unfold fits in *. destruct r; cbn [enumerate_resume enumerate_resume_next enumerate_resume_back].
      - destruct (pop_front (e_items s)) as [[v rest]|] eqn:E; [|now split].
        apply pop_front_len in E. destruct (ask from u (e_next s)) as [u' [k|w| | |]]; try (split; [reflexivity|cbn; lia]).
        rewrite add_c, add_d by lia. split; [reflexivity|]. cbn. lia.
      - destruct (pop_back (e_items s)) as [[v rest]|] eqn:E; [|now split].
        apply pop_back_len in E. rewrite add_c, add_d by lia.
        destruct (ask from u (e_next s + llen rest)) as [u' q]. split; [reflexivity|]. cbn. lia.
    Qed.
    Lemma akin_sparse V r fuel : akin (@fits (option V)) (@sparse_resume c U T from V r fuel) (@sparse_resume d U T from V r fuel).
    Proof using Hc Hd.
      induction fuel as [|fuel IH]; intros u s Hs; cbn [sparse_resume]; [now split|].
      destruct (@akin_enum _ r u s Hs) as [E P]. rewrite <- E. destruct (@enumerate_resume c U T from _ r (u, s)) as [[u1 s1] q].
      cbn [fst snd] in P. destruct q as [[[k [v|]]|]|w| | |]; try (now split). exact (IH u1 s1 P).
    Qed.
    Lemma akin_iter_mut V st r fuel : akin (@fits N) (@iter_mut_resume c U T V from st r fuel) (@iter_mut_resume d U T V from st r fuel).
    Proof using Hc Hd.
      induction fuel as [|fuel IH]; intros u s Hs; cbn [iter_mut_resume]; [now split|].
      destruct (@akin_enum _ r u s Hs) as [E P]. rewrite <- E. destruct (@enumerate_resume c U T from _ r (u, s)) as [[u1 s1] q].
      cbn [fst snd] in P. destruct q as [[[k i]|]|w| | |]; try (now split).
      destruct (deref st i) as [[v|]|w| | |]; try (now split). exact (IH u1 s1 P).
    Qed.
    Lemma akin_drain V r fuel : akin (fun s : @Drain V => fits (snd s)) (@drain_resume c U T from V r fuel) (@drain_resume d U T from V r fuel).
    Proof using Hc Hd.
      induction fuel as [|fuel IH]; intros u [st it] Hs; cbn [drain_resume]; [now split|]. unfold Drain, TIterMut in *.
      destruct (@akin_enum _ r u it Hs) as [E P]. rewrite <- E. destruct (@enumerate_resume c U T from _ r (u, it)) as [[u1 s1] q].
      cbn [fst snd] in P. destruct q as [[[k i]|]|w| | |]; try (now split).
      destruct (deref st i) as [[v|]|w| | |]; try (now split). exact (IH u1 (store_at st i None, s1) P).
    Qed.
    Lemma akin_drain_step V r : akin (fun s : @Drain V => fits (snd s)) (@drain_resume_step c U T from V r) (@drain_resume_step d U T from V r).
    Proof using Hc Hd. intros u s Hs. exact (@akin_drain V r _ u s Hs). Qed.
    Lemma same_caught S A (I : S -> Prop) (f g : dir -> U * S -> (U * S) * res A) : (forall r, akin I (f r) (g r)) ->
      forall sched u s, I s -> run_caught f sched (u, s) = run_caught g sched (u, s).
    Proof.
      intros H. induction sched as [|r rs IH]; intros u s Hs; cbn; [reflexivity|].
      destruct (H r u s Hs) as [E P]. rewrite <- E. destruct (f r (u, s)) as [[u1 s1] q]. cbn in P. now rewrite (IH u1 s1 P).
    Qed.
    Lemma same_calls V sched : forall u (s : @Drain V), fits (snd s) ->
      @drain_calls c U T V from sched (u, s) = @drain_calls d U T V from sched (u, s) /\
      fits (snd (snd (snd (fst (@drain_calls c U T V from sched (u, s)))))).
    Proof using Hc Hd.
      induction sched as [|r rs IH]; intros u s Hs; cbn [drain_calls]; [now split|].
      destruct (akin_drain_step r u Hs) as [E P]. rewrite <- E.
      destruct (@drain_resume_step c U T from V r (u, s)) as [[u1 s1] q]. cbn [fst snd] in P.
      destruct q as [o|w| | |]; try (now split). destruct (IH u1 s1 P) as [E1 P1]. rewrite <- E1.
      destruct (@drain_calls c U T V from rs (u1, s1)) as [[l st] q]. now split.
    Qed.
    Lemma same_drop V fuel : forall u (s : @Drain V), fits (snd s) ->
      @drain_drop_loop c U T V from fuel (u, s) = @drain_drop_loop d U T V from fuel (u, s).
    Proof using Hc Hd.
      induction fuel as [|fuel IH]; intros u s Hs; cbn [drain_drop_loop]; [reflexivity|].
      destruct (akin_drain_step Front u Hs) as [E P]. rewrite <- E.
      destruct (@drain_resume_step c U T from V Front (u, s)) as [[u1 s1] q]. cbn [fst snd] in P.
      destruct q as [[e|]|w| | |]; try reflexivity. now rewrite (IH u1 s1 P).
    Qed.
    Lemma same_use V sched u (s : @Drain V) : fits (snd s) ->
      @drain_use c U T V from sched (u, s) = @drain_use d U T V from sched (u, s).
    Proof using Hc Hd.
      intros Hs. unfold drain_use. destruct (same_calls sched u Hs) as [E P]. rewrite <- E.
      destruct (@drain_calls c U T V from sched (u, s)) as [[l [u1 s1]] q]. cbn [fst snd] in P.
      unfold drain_drop_resume. now rewrite (same_drop _ u1 P).
    Qed.
  End Resume.

  (** A map of a length both targets have. *)
  Definition short {A} (l : list A) : Prop := llen l <= M.
  Lemma fits_new A (l : list A) : short l -> fits (enumerate_new l 0).
  Proof. unfold fits, short. cbn. lia. Qed.
  Lemma fits_slots A (l : list A) : short l -> fits (enumerate_new (slots (length l)) 0).
  Proof. intros H. apply fits_new. unfold short. now rewrite llen_slots. Qed.

  Section Steps.
    Context {K V : Type} (O : Ordinal K).
    Notation Both f := (f c = f d).

    Lemma same_iter_drive sched (m : list (option V)) : short m ->
      drive (@Iter_step c K O V) sched (enumerate_new m 0) = drive (@Iter_step d K O V) sched (enumerate_new m 0).
    Proof using Hc Hd. intros H. apply (alike_drive (@alike_iter K O V)). now apply fits_new. Qed.
    Lemma same_keys_drive sched (m : list (option V)) : short m ->
      drive (@Keys_step c K O V) sched (enumerate_new m 0) = drive (@Keys_step d K O V) sched (enumerate_new m 0).
    Proof using Hc Hd. intros H. refine (proj1 (alike_drive (fun r => alike_map _ (@alike_iter K O V r)) _ _)). now apply fits_new. Qed.
    Lemma same_values_drive sched (m : list (option V)) : short m ->
      drive (@Values_step c K O V) sched (enumerate_new m 0) = drive (@Values_step d K O V) sched (enumerate_new m 0).
    Proof using Hc Hd. intros H. refine (proj1 (alike_drive (fun r => alike_map _ (@alike_iter K O V r)) _ _)). now apply fits_new. Qed.
    Lemma same_mut_drive sched (m : list (option V)) : short m ->
      drive (@IterMut_step c K O V m) sched (enumerate_new (slots (length m)) 0) =
      drive (@IterMut_step d K O V m) sched (enumerate_new (slots (length m)) 0).
    Proof using Hc Hd. intros H. apply (alike_drive (@alike_iter_mut K O V m)). now apply fits_slots. Qed.
    Lemma same_vmut_drive sched (m : list (option V)) : short m ->
      drive (@ValuesMut_step c K O V m) sched (enumerate_new (slots (length m)) 0) =
      drive (@ValuesMut_step d K O V m) sched (enumerate_new (slots (length m)) 0).
    Proof using Hc Hd. intros H. refine (proj1 (alike_drive (fun r => alike_map _ (@alike_iter_mut K O V m r)) _ _)). now apply fits_slots. Qed.
    Lemma same_drain sched (m : list (option V)) : short m ->
      drive (@Drain_step c K O V) sched (Drain_new m (TIterMut_new (slots (length m)))) =
      drive (@Drain_step d K O V) sched (Drain_new m (TIterMut_new (slots (length m)))) /\
      forall got s', drive (@Drain_step c K O V) sched (Drain_new m (TIterMut_new (slots (length m)))) = Val (got, s') ->
        @Drain_drop c K O V s' = @Drain_drop d K O V s'.
    Proof using Hc Hd.
      intros H. destruct (alike_drive (@alike_drain K O V) sched (s := Drain_new m (TIterMut_new (slots (length m))))) as [E P];
        [now apply fits_slots|].
      split; [exact E|]. intros got s' E1. unfold Drain_drop.
      now rewrite (proj1 (alike_collect (@alike_drain K O V Front) _ (P _ _ E1))).
    Qed.
    Lemma same_clear (m : list (option V)) : short m ->
      @Drain_drop c K O V (Drain_new m (TIterMut_new (slots (length m)))) =
      @Drain_drop d K O V (Drain_new m (TIterMut_new (slots (length m)))).
    Proof using Hc Hd.
      intros H. unfold Drain_drop.
      rewrite (proj1 (alike_collect (@alike_drain K O V Front) _ (s := Drain_new m (TIterMut_new (slots (length m)))) (fits_slots H))).
      reflexivity.
    Qed.
    Lemma same_debug fuel (m : list (option V)) : short m ->
      collect (@Iter_step c K O V Front) fuel (enumerate_new m 0) = collect (@Iter_step d K O V Front) fuel (enumerate_new m 0).
    Proof using Hc Hd. intros H. apply (alike_collect (@alike_iter K O V Front)). now apply fits_new. Qed.
    Lemma same_titer_drive sched (m : list V) : short m ->
      drive (@TIter_step c K O V) sched (enumerate_new m 0) = drive (@TIter_step d K O V) sched (enumerate_new m 0).
    Proof using Hc Hd. intros H. apply (alike_drive (@alike_enum K O V)). now apply fits_new. Qed.
    Lemma same_titer_mut_drive sched (m : list V) : short m ->
      drive (@TIterMut_step c K O) sched (enumerate_new (slots (length m)) 0) =
      drive (@TIterMut_step d K O) sched (enumerate_new (slots (length m)) 0).
    Proof using Hc Hd. intros H. apply (alike_drive (@alike_enum K O N)). now apply fits_slots. Qed.
    Lemma same_tdebug fuel (m : list V) : short m ->
      collect (@TIter_step c K O V Front) fuel (enumerate_new m 0) = collect (@TIter_step d K O V Front) fuel (enumerate_new m 0).
    Proof using Hc Hd. intros H. apply (alike_collect (@alike_enum K O V Front)). now apply fits_new. Qed.

    Lemma same_heap_step op (m : @OrdinalMap V) : short m -> @heap_step c K V O op m = @heap_step d K V O op m.
    Proof using Hc Hd.
      intros H. destruct op; cbn [heap_step]; try reflexivity.
      - unfold OrdinalMap_len. rewrite same_count by (first [now apply fits_new|reflexivity]). reflexivity.
      - unfold OrdinalMap_is_empty. change (OrdinalMap_iter m) with (enumerate_new m 0). now rewrite (proj1 (@alike_iter K O V Front _ (fits_new H))).
      - unfold OrdinalMap_clear, OrdinalMap_drain. now rewrite same_clear.
      - unfold OrdinalMap_drain. destruct (same_drain sched H) as [E P]. rewrite <- E.
        destruct (drive (@Drain_step c K O V) sched (Drain_new m (TIterMut_new (slots (length m))))) as [[got s']|w| | |]; try reflexivity.
        cbn. destruct leak; [reflexivity|]. now rewrite (P _ _ eq_refl).
      - change (OrdinalMap_iter m) with (enumerate_new m 0). now rewrite same_iter_drive.
      - change (OrdinalMap_keys m) with (enumerate_new m 0). now rewrite same_keys_drive.
      - change (OrdinalMap_values m) with (enumerate_new m 0). now rewrite same_values_drive.
      - change (OrdinalMap_iter_mut m) with (enumerate_new (slots (length m)) 0). now rewrite same_mut_drive.
      - change (OrdinalMap_values_mut m) with (enumerate_new (slots (length m)) 0). now rewrite same_vmut_drive.
      - unfold OrdinalMap_debug. change (OrdinalMap_iter m) with (enumerate_new m 0). now rewrite same_debug.
    Qed.
    Lemma same_drain_act sched leak (m : list (option V)) : short m ->
      @drain_act c K V O sched leak m = @drain_act d K V O sched leak m.
    Proof using Hc Hd.
      intros H. unfold drain_act. rewrite (proj1 (same_calls (pure_from O) sched tt (s := Drain_new m (TIterMut_new (slots (length m)))) (fits_slots H))).
      now rewrite (same_use (pure_from O) sched tt (s := Drain_new m (TIterMut_new (slots (length m)))) (fits_slots H)).
    Qed.
    Lemma same_clear_act (m : list (option V)) : short m -> @clear_act c K V O m = @clear_act d K V O m.
    Proof using Hc Hd.
      intros H. unfold clear_act, clear_map, drain_map.
      now rewrite (same_use (pure_from O) [] tt (s := Drain_new m (TIterMut_new (slots (length m)))) (fits_slots H)).
    Qed.
    Lemma same_replaces S A (f g : S -> res (A * S)) m : f m = g m -> replaces f m = replaces g m.
    Proof. intros E. unfold replaces, abind, look. now rewrite E. Qed.
    Lemma same_heap_act op (m : @OrdinalMap V) : short m -> @heap_act c K V O op m = @heap_act d K V O op m.
    Proof using Hc Hd.
      intros H. destruct op; cbn [heap_act]; try reflexivity; try (apply same_replaces; now apply same_heap_step).
      - now apply same_clear_act.
      - now apply same_drain_act.
    Qed.
    Lemma same_retain St (f : St -> K -> V -> St * V * res bool) fuel : forall storage (it : TIterMut) st, fits it ->
      @OrdinalArrayMap_retain_loop c K V O St f fuel storage it st = @OrdinalArrayMap_retain_loop d K V O St f fuel storage it st.
    Proof using Hc Hd.
      induction fuel as [|fuel IH]; intros storage it st Hs; cbn [OrdinalArrayMap_retain_loop]; [reflexivity|].
      destruct (@alike_enum K O _ Front it Hs) as [E P]. unfold TIterMut_step. rewrite <- E.
      destruct (@enumerate_step c K O N Front it) as [[[[k i]|] it1]|w| | |]; try reflexivity.
      destruct (deref storage i) as [[v|]|w| | |]; try reflexivity.
      - destruct (f st k v) as [[st' v'] [[]|w| | |]]; try reflexivity; exact (IH _ _ _ (P _ _ eq_refl)).
      - exact (IH _ _ _ (P _ _ eq_refl)).
    Qed.
    (** *** array maps *)
    Context (S : nat).
    Hypothesis HS : N.of_nat S <= M.
    Lemma short_arr A (a : arr A S) : short (arr_list a).
    Proof using HS. unfold short, llen. rewrite (arr_length a). exact HS. Qed.

    Lemma same_array_step op (m : @OrdinalArrayMap V S) : @array_step c K V O S op m = @array_step d K V O S op m.
    Proof using Hc Hd HS.
      assert (H : short (arr_list m)) by apply short_arr. destruct op; cbn [array_step]; try reflexivity.
      - unfold OrdinalArrayMap_len. rewrite same_count by (first [now apply fits_new|reflexivity]). reflexivity.
      - unfold OrdinalArrayMap_is_empty. change (OrdinalArrayMap_iter m) with (enumerate_new (arr_list m) 0).
        now rewrite (proj1 (@alike_iter K O V Front _ (fits_new H))).
      - unfold OrdinalArrayMap_clear, OrdinalArrayMap_drain. unfold OrdinalTotalArrayMap_iter_mut. now rewrite same_clear.
      - unfold OrdinalArrayMap_drain, OrdinalTotalArrayMap_iter_mut. destruct (same_drain sched H) as [E P]. rewrite <- E.
        destruct (drive (@Drain_step c K O V) sched (Drain_new (arr_list m) (TIterMut_new (slots (length (arr_list m)))))) as [[got s']|w| | |]; try reflexivity.
        cbn. destruct leak; [reflexivity|]. now rewrite (P _ _ eq_refl).
      - change (OrdinalArrayMap_iter m) with (enumerate_new (arr_list m) 0). now rewrite same_iter_drive.
      - change (OrdinalArrayMap_keys m) with (enumerate_new (arr_list m) 0). now rewrite same_keys_drive.
      - change (OrdinalArrayMap_values m) with (enumerate_new (arr_list m) 0). now rewrite same_values_drive.
      - change (OrdinalArrayMap_iter_mut m) with (enumerate_new (slots (length (arr_list m))) 0). now rewrite same_mut_drive.
      - change (OrdinalArrayMap_values_mut m) with (enumerate_new (slots (length (arr_list m))) 0). now rewrite same_vmut_drive.
      - unfold OrdinalArrayMap_retain. unfold OrdinalTotalArrayMap_iter_mut. rewrite same_retain by (now apply fits_slots). reflexivity.
      - unfold OrdinalArrayMap_debug. change (OrdinalArrayMap_iter m) with (enumerate_new (arr_list m) 0). now rewrite same_debug.
    Qed.
    Lemma same_on_slots A (f g : act (list (option V)) A) (m : @OrdinalArrayMap V S) : f (arr_list m) = g (arr_list m) ->
      on_slots f m = on_slots g m.
    Proof. intros E. unfold on_slots. now rewrite E. Qed.
    Lemma same_array_act op (m : @OrdinalArrayMap V S) : @array_act c K V O S op m = @array_act d K V O S op m.
    Proof using Hc Hd HS.
      assert (H : short (arr_list m)) by apply short_arr.
      destruct op; cbn [array_act]; try reflexivity; try (apply same_replaces; now apply same_array_step).
      - apply same_on_slots. now apply same_clear_act.
      - apply same_on_slots. now apply same_drain_act.
      - unfold OrdinalArrayMap_retain_act, OrdinalArrayMap_retain, OrdinalTotalArrayMap_iter_mut.
        rewrite same_retain by (now apply fits_slots). reflexivity.
    Qed.

    (** *** total maps *)
    Lemma same_htotal_step op (m : @OrdinalTotalMap V) : short m -> @htotal_step c K V O op m = @htotal_step d K V O op m.
    Proof using Hc Hd.
      intros H. destruct op; cbn [htotal_step]; try reflexivity.
      - change (OrdinalTotalMap_iter m) with (enumerate_new m 0). now rewrite same_titer_drive.
      - change (OrdinalTotalMap_iter_mut m) with (enumerate_new (slots (length m)) 0). now rewrite same_titer_mut_drive.
      - unfold OrdinalTotalMap_debug. change (OrdinalTotalMap_iter m) with (enumerate_new m 0). now rewrite same_tdebug.
    Qed.
    Lemma same_htotal_act op (m : @OrdinalTotalMap V) : short m -> @htotal_act c K V O op m = @htotal_act d K V O op m.
    Proof using Hc Hd. intros H. destruct op; cbn [htotal_act]; try reflexivity; apply same_replaces; now apply same_htotal_step. Qed.
    Lemma same_atotal_step op (m : OrdinalTotalArrayMap S V) : @atotal_step c K V O S op m = @atotal_step d K V O S op m.
    Proof using Hc Hd HS.
      assert (H : short (arr_list m)) by apply short_arr. destruct op; cbn [atotal_step]; try reflexivity.
      - change (OrdinalTotalArrayMap_iter m) with (enumerate_new (arr_list m) 0). now rewrite same_titer_drive.
      - change (OrdinalTotalArrayMap_iter_mut m) with (enumerate_new (slots (length (arr_list m))) 0). now rewrite same_titer_mut_drive.
      - unfold OrdinalTotalArrayMap_debug. change (OrdinalTotalArrayMap_iter m) with (enumerate_new (arr_list m) 0). now rewrite same_tdebug.
    Qed.
    Lemma same_atotal_act op (m : OrdinalTotalArrayMap S V) : @atotal_act c K V O S op m = @atotal_act d K V O S op m.
    Proof using Hc Hd HS. destruct op; cbn [atotal_act]; try reflexivity; apply same_replaces; now apply same_atotal_step. Qed.

    (** *** map, map_values and zip *)
    Lemma same_fill It A E St (f g : It -> res (option A * It)) (I : It -> Prop) (init : St -> A -> St * res (result V E)) :
      alike I f g -> forall fuel b it st, I it -> fill S f init fuel b it st = fill S g init fuel b it st.
    Proof.
      intros H. induction fuel as [|fuel IH]; intros b it st Hi; cbn [fill]; [reflexivity|].
      destruct (H it Hi) as [E1 P]. rewrite <- E1. destruct (f it) as [[[a|] it1]|w| | |]; try reflexivity.
      destruct (init st a) as [st' [[v|e]|w| | |]]; try reflexivity.
      destruct (builder_push S b v) as [b1|w| | |]; try reflexivity. exact (IH _ _ _ (P _ _ eq_refl)).
    Qed.
  End Steps.
End Two.
