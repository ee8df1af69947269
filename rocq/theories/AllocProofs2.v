(** * AllocProofs2: lemmas for C98, sets. *)
From Verif Require Import Base Spec SpecMap SpecTotal SpecSet SpecCatch SpecAlloc ModelOrdinal ModelValues
  ModelArrayBuilder ModelIter ModelTotal ModelMap ModelSet ModelResume ModelUnwind MapMachine TotalMachine SetMachine
  ModelCatch ModelAlloc BaseProofs OrdinalProofs MapLib CatchProofs CatchProofs3 AllocProofs.
From Coq Require Import List Lia ZifyBool ZifyN. Import ListNotations.
Set Implicit Arguments. Unset Strict Implicit.

(** The shape of a set of a type with [n] values. *)
Definition shaped (n : N) (s : OrdinalSet) : Prop :=
  match s with Small _ => n <= 64 | Large _ => 64 < n end.
Definition set_len (s : OrdinalSet) : N := match s with Small _ => 1 | Large ws => llen ws end.

Section Sets.
  Context {cfg : Config} (ask : allocator) {T : Type} (O : Ordinal T) (n : N) (Hn : ORDINAL_SIZE O = Val n).

  Lemma small_n : IS_SMALL O = Val (n <=? 64).
  Proof. unfold IS_SMALL. rewrite Hn. reflexivity. Qed.
  Definition words_res : res N := size <- ORDINAL_SIZE O ;; a <- unwrap (checked_add size 64) ;; b <- usub a 1 ;; udiv b 64.
  Lemma words_eq : words_res = if n + 64 <=? usize_max then Val ((n + 63) / 64) else Panic PUnwrap.
  Proof.
    unfold words_res. rewrite Hn. cbn [bind]. unfold checked_add. destruct (n + 64 <=? usize_max) eqn:E; [|reflexivity]. cbn [unwrap bind].
    unfold usub, usize_rt. replace ((0 <=? Z.of_N (n + 64) - Z.of_N 1) && (Z.of_N (n + 64) - Z.of_N 1 <=? Z.of_N usize_max))%Z
      with true by lia. cbn [bind]. unfold udiv. assert (Q : Z.to_N (Z.of_N (n + 64) - Z.of_N 1) = n + 63) by lia. now rewrite Q.
  Qed.

  (** The rest of [insert] once there are words. *)
  Definition large_rest (t : T) : act OrdinalSet bool :=
    s <! look (fun s => Val s) ;;
    match s with
    | Large ws => on_words ws (fun ws => Some (Large ws)) (OrdinalSetMut_insert_act O t)
    | Small _ => fun s => (s, Stuck)
    end.

  Lemma set_insert_serves h t s : shaped n s ->
    serves ask h (set_bytes n (SInsert t) (set_len s)) s (OrdinalSet_insert_mem ask O t) (OrdinalSet_insert_act O t).
  Proof.
    intros Hs. unfold OrdinalSet_insert_mem, OrdinalSet_insert_act. apply serves_look with (n <=? 64); [exact small_n|].
    unfold set_bytes, serves. destruct s as [w|ws]; cbn [shaped set_len] in *.
    - replace (n <=? 64) with true by lia. exact (serves_0 ask h (Small w) _).
    - replace (n <=? 64) with false by lia.
      change ((((if llen ws =? 0 then
             len <! look (fun _ => words_res) ;; with_capacity ask 8 len ;;! inside (put (Large (repeat 0 (N.to_nat len))))
           else ret tt) ;;!
          s <! look (fun s : held OrdinalSet => Val (snd s)) ;;
          match s with
          | Large ws => inside (on_words ws (fun ws => Some (Large ws)) (OrdinalSetMut_insert_act O t))
          | Small _ => fun s => (s, Stuck)
          end) (h, Large ws)) =
        outcome Unwinds Aborts ask h (if (llen ws =? 0) && (n + 64 <=? usize_max) then 8 * ((n + 63) / 64) else 0) (Large ws)
          (((if llen ws =? 0 then len <! look (fun _ => words_res) ;; put (Large (repeat 0 (N.to_nat len))) else ret tt) ;;! large_rest t) (Large ws))).
      apply serves_bind.
      + unfold serves. destruct (llen ws =? 0); cbn [andb]; [|rewrite inside_ret; apply serves_0].
        unfold abind at 1, look at 1. rewrite words_eq. destruct (n + 64 <=? usize_max); cbn [ending_of].
        * rewrite (serves_cap ask h (Large ws) 8 ((n + 63) / 64) _). reflexivity.
        * unfold outcome. destruct (Z.to_N isize_max <? 0) eqn:E0; [apply N.ltb_lt in E0; lia|]. reflexivity.
      + intros _ [h1 s1]. unfold large_rest, abind, look, inside. cbn [fst snd ending_of]. destruct s1 as [w1|ws1]; reflexivity.
  Qed.

  Lemma act_small t w : n <= 64 -> OrdinalSet_insert_act O t (Small w) =
    on_words [w] (fun ws => match ws with [w'] => Some (Small w') | _ => None end) (OrdinalSetMut_insert_act O t) (Small w).
  Proof. intros H. unfold OrdinalSet_insert_act, abind, look. rewrite small_n. replace (n <=? 64) with true by lia. reflexivity. Qed.
  Lemma act_large t ws : 64 < n -> OrdinalSet_insert_act O t (Large ws) =
    if llen ws =? 0 then if n + 64 <=? usize_max then large_rest t (Large (repeat 0 (N.to_nat ((n + 63) / 64)))) else (Large ws, Unwinds PUnwrap)
    else large_rest t (Large ws).
  Proof.
    intros H. unfold OrdinalSet_insert_act. unfold abind at 1, look at 1. rewrite small_n. replace (n <=? 64) with false by lia. cbn [ending_of].
    unfold abind at 1, look at 1. cbn [ending_of]. fold words_res. change (s <! _ ;; match s with Large ws0 => _ | Small _ => _ end) with (large_rest t).
    unfold abind at 1. destruct (llen ws =? 0); [|reflexivity]. unfold abind at 1, look at 1. fold words_res. rewrite words_eq.
    destruct (n + 64 <=? usize_max); reflexivity.
  Qed.
  Lemma set_insert_ends t s : shaped n s ->
    match OrdinalSet_insert O s t with
    | Val (b, s') => OrdinalSet_insert_act O t s = (s', Ended b) /\ shaped n s' /\ s' <> Large []
    | r => snd (OrdinalSet_insert_act O t s) = ending_of (r ;;; Val false)
    end.
  Proof.
    intros Hs. unfold OrdinalSet_insert. rewrite small_n. cbn [bind].
    destruct s as [w|ws]; cbn [shaped] in Hs; [rewrite (act_small t w Hs)|rewrite (act_large t ws Hs)].
    - replace (n <=? 64) with true by lia. unfold on_words. rewrite words_act.
      destruct (OrdinalSetMut_new O [w]) as [ws1| | | |]; cbn [bind ending_of snd]; try reflexivity.
      destruct (OrdinalSetMut_insert O ws1 t) as [[b ws']| | | |]; cbn [bind ending_of snd]; try reflexivity.
      destruct ws' as [|w' [|]]; try reflexivity. split; [reflexivity|]. split; [exact Hs|discriminate].
    - replace (n <=? 64) with false by lia.
      assert (G : forall ws1, match ('(r, ws') <- (ws2 <- OrdinalSetMut_new O ws1 ;; OrdinalSetMut_insert O ws2 t) ;; Val (r, Large ws')) with
          | Val (b, s') => large_rest t (Large ws1) = (s', Ended b) /\ shaped n s' /\ s' <> Large []
          | r => snd (large_rest t (Large ws1)) = ending_of (r ;;; Val false)
          end).
      { intros ws1. unfold large_rest, abind, look, on_words. cbn [ending_of]. rewrite words_act.
        destruct (OrdinalSetMut_new O ws1) as [ws2| | | |]; cbn [bind ending_of snd]; try reflexivity.
        destruct (OrdinalSetMut_insert O ws2 t) as [[b ws']| | | |] eqn:Ei; cbn [bind ending_of snd]; try reflexivity.
        split; [reflexivity|]. split; [exact Hs|]. intros [= ->]. unfold OrdinalSetMut_insert in Ei.
        repeat match type of Ei with (x <- ?r ;; _) = _ => destruct r eqn:?; cbn [bind] in Ei; try discriminate end.
        injection Ei as Eb Ew. apply (f_equal (@length _)) in Ew. rewrite store_at_length in Ew.
        match goal with H : index _ _ = Val _ |- _ => unfold index, slice_get in H; destruct ws2; [destruct (N.to_nat _); discriminate|discriminate] end. }
      destruct (llen ws =? 0).
      + pose proof words_eq as Ew. unfold words_res in Ew. rewrite Hn in *. cbn [bind] in *.
        destruct (unwrap (checked_add n 64)) as [a| | | |]; cbn [bind] in *;
          try (destruct (n + 64 <=? usize_max); try discriminate Ew; injection Ew as <-; reflexivity).
        destruct (usub a 1) as [b| | | |]; cbn [bind] in *;
          try (destruct (n + 64 <=? usize_max); try discriminate Ew; injection Ew as <-; reflexivity).
        rewrite Ew. destruct (n + 64 <=? usize_max); cbn [bind ending_of]; [|reflexivity].
        specialize (G (repeat 0 (N.to_nat ((n + 63) / 64)))).
        destruct (OrdinalSetMut_new O (repeat 0 (N.to_nat ((n + 63) / 64)))) as [ws2| | | |]; exact G.
      + specialize (G ws). cbn [bind]. destruct (OrdinalSetMut_new O ws) as [ws2| | | |]; exact G.
  Qed.
  Lemma set_shaped t s : shaped n s -> shaped n (fst (OrdinalSet_insert_act O t s)).
  Proof.
    intros Hs. destruct s as [w|ws]; cbn [shaped] in Hs; [rewrite (act_small t w Hs)|rewrite (act_large t ws Hs)].
    - unfold on_words. destruct (OrdinalSetMut_insert_act O t [w]) as [[|w' [|]] e]; exact Hs.
    - assert (G : forall ws1, shaped n (fst (large_rest t (Large ws1)))).
      { intros ws1. unfold large_rest, abind, look, on_words. cbn [ending_of]. destruct (OrdinalSetMut_insert_act O t ws1). exact Hs. }
      destruct (llen ws =? 0); [|apply G]. destruct (n + 64 <=? usize_max); [apply G|exact Hs].
  Qed.

  Lemma set_loop_free l : forall h s, shaped n s -> s <> Large [] ->
    exists s', OrdinalSet_insert_all_mem ask O l (h, s) = ((h, s'), ending_of (OrdinalSet_insert_all O l s ;;; Val tt)) /\
      forall s1, OrdinalSet_insert_all O l s = Val s1 -> s' = s1.
  Proof.
    induction l as [|t l IH]; intros h s Hs Hne.
    - exists s. cbn. split; [reflexivity|]. congruence.
    - cbn [OrdinalSet_insert_all_mem OrdinalSet_insert_all]. unfold abind at 1. rewrite (set_insert_serves h t Hs).
      assert (Eb : set_bytes n (SInsert t) (set_len s) = 0).
      { unfold set_bytes. destruct s as [w|[|x ws]]; cbn [shaped set_len] in *; [replace (n <=? 64) with true by lia; reflexivity|congruence|].
        replace (n <=? 64) with false by lia. reflexivity. }
      rewrite Eb. unfold outcome. destruct (Z.to_N isize_max <? 0) eqn:E0; [apply N.ltb_lt in E0; lia|]. cbn [N.eqb].
      pose proof (set_insert_ends t Hs) as He. destruct (OrdinalSet_insert O s t) as [[b s1]|w| | |]; cbn [bind ending_of] in *.
      { destruct He as (E & Hs1 & Hne1). rewrite E. cbn [fst snd]. exact (IH h s1 Hs1 Hne1). }
      all: rewrite He; eexists; split; [reflexivity|discriminate].
  Qed.

  Definition collected (s : OrdinalSet) (r : res OrdinalSet) : OrdinalSet * ending (set_out T) :=
    match r with Val s1 => (s1, Ended SUnit_) | r => (s, ending_of (r ;;; Val SUnit_)) end.
  Lemma from_iter_act l s : set_act O (SFromIter l) s = collected s (OrdinalSet_from_iter O l).
  Proof.
    cbn [set_act]. unfold replaces, abind, look. cbn [set_step]. destruct (OrdinalSet_from_iter O l); reflexivity.
  Qed.
  Lemma set_call op h s : shaped n s ->
    set_mem ask O op (h, s) = outcome Unwinds Aborts ask h (set_bytes n op (set_len s)) s (set_act O op s).
  Proof.
    intros Hs. destruct op; try (replace (set_bytes n _ _) with 0 by (unfold set_bytes; now destruct (n <=? 64)); exact (serves_0 ask h s _)).
    - apply serves_bind; [apply set_insert_serves; exact Hs|intros; apply inside_ret].
    - rewrite from_iter_act. unfold OrdinalSet_from_iter.
      cbn [set_mem]. unfold abind at 1.
      unfold OrdinalSet_from_iter_mem.
      assert (En : OrdinalSet_new O = Val (if n <=? 64 then Small 0 else Large [])).
      { unfold OrdinalSet_new. rewrite small_n. reflexivity. }
      rewrite En. cbn [fst snd bind]. unfold set_bytes.
      assert (G : forall s0, shaped n s0 -> s0 <> Large [] -> forall l h',
        (let '(m', e) := (let '(h0, s', e) := OrdinalSet_insert_all_mem ask O l (h', s0) in
            (h0, match e with Ended _ => s' | _ => s end, e)) in
          match e with Ended _ => ret SUnit_ m' | Unwinds w => (m', Unwinds w) | Aborts => (m', Aborts) | Stuck => (m', Stuck) end) =
        ((h', fst (collected s (OrdinalSet_insert_all O l s0))), snd (collected s (OrdinalSet_insert_all O l s0)))).
      { intros s0 H0 Hne l' h'. destruct (set_loop_free l' h' H0 Hne) as (s' & E & Hs'). rewrite E.
        destruct (OrdinalSet_insert_all O l' s0); cbn; try reflexivity. now rewrite (Hs' _ eq_refl). }
      destruct (n <=? 64) eqn:E64.
      { rewrite G by (try discriminate; apply N.leb_le; exact E64). unfold outcome.
        destruct (Z.to_N isize_max <? 0) eqn:E0; [apply N.ltb_lt in E0; lia|]. reflexivity. }
      apply N.leb_gt in E64. destruct l as [|t l].
      { unfold outcome. destruct (Z.to_N isize_max <? 0) eqn:E0; [apply N.ltb_lt in E0; lia|]. reflexivity. }
      assert (H0 : shaped n (Large [])) by exact E64.
      cbn [OrdinalSet_insert_all_mem OrdinalSet_insert_all]. unfold abind at 1. rewrite (set_insert_serves h t H0).
      change (set_len (Large [])) with 0. unfold set_bytes. replace (n <=? 64) with false by lia. cbn [N.eqb andb].
      set (b := if n + 64 <=? usize_max then 8 * ((n + 63) / 64) else 0). unfold outcome.
      destruct (Z.to_N isize_max <? b); [reflexivity|].
      pose proof (set_insert_ends t H0) as He.
      assert (G2 : forall h',
        (let '(m', e) := (let '(h0, s', e) := (let '(m', e) := ((h', fst (OrdinalSet_insert_act O t (Large []))), snd (OrdinalSet_insert_act O t (Large []))) in
            match e with Ended _ => OrdinalSet_insert_all_mem ask O l m' | Unwinds w => (m', Unwinds w) | Aborts => (m', Aborts) | Stuck => (m', Stuck) end) in
            (h0, match e with Ended _ => s' | _ => s end, e)) in
          match e with Ended _ => ret SUnit_ m' | Unwinds w => (m', Unwinds w) | Aborts => (m', Aborts) | Stuck => (m', Stuck) end) =
        ((h', fst (collected s ('(_, s') <- OrdinalSet_insert O (Large []) t ;; OrdinalSet_insert_all O l s'))),
         snd (collected s ('(_, s') <- OrdinalSet_insert O (Large []) t ;; OrdinalSet_insert_all O l s')))).
      { intros h'. destruct (OrdinalSet_insert O (Large []) t) as [[o s1]|w| | |]; cbn [bind ending_of] in *.
        { destruct He as (E & Hs1 & Hne). rewrite E. cbn [fst snd]. apply (G s1 Hs1 Hne). }
        all: rewrite He; reflexivity. }
      destruct (b =? 0); [apply G2|]. destruct (ask h b); [apply G2|reflexivity|reflexivity].
    - cbn [set_mem set_act set_step]. unfold set_bytes. destruct s as [w|ws]; cbn [shaped] in Hs.
      + replace (n <=? 64) with true by lia. exact (serves_0 ask h (Small w) (replaces (fun s => Val (SUnit_, OrdinalSet_clone s)))).
      + replace (n <=? 64) with false by lia. cbn [set_len].
        refine (serves_bind (x := OrdinalSet_clone_mem ask) (f := replaces (fun s => Val (tt, OrdinalSet_clone s))) (g := fun _ => ret SUnit_) _ _).
        * exact (serves_cap ask h (Large ws) 8 (llen ws) _).
        * intros; apply inside_ret.
  Qed.
End Sets.
