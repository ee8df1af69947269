(** * AllocProofs3: lemmas for C98, programs. *)
From Verif Require Import Base Spec SpecMap SpecTotal SpecSet SpecCatch SpecAlloc ModelOrdinal ModelValues
  ModelArrayBuilder ModelIter ModelTotal ModelMap ModelSet ModelResume ModelUnwind MapMachine TotalMachine SetMachine
  ModelCatch ModelAlloc BaseProofs OrdinalProofs MapLib MapProofs MapProofs2 MapProofs5 ValuesProofs TotalProofs SetProofs CatchProofs CatchProofs2
  CatchProofs3 CatchProofs4 AllocProofs AllocProofs2.
From Coq Require Import List Lia ZifyBool ZifyN. Import ListNotations.
Set Implicit Arguments. Unset Strict Implicit.

Lemma outcome_0 {cfg : Config} ask M E (p : panic -> E) a h (m : M) r : outcome p a ask h 0 m r = ((h, fst r), snd r).
Proof. unfold outcome. destruct (Z.to_N isize_max <? 0) eqn:E0; [apply N.ltb_lt in E0; lia|]. reflexivity. Qed.

Section General.
  Context {cfg : Config} (ask : allocator).
  Context {Op M Out : Type} (mem : Op -> act (held M) Out) (plain : Op -> act M Out) (bytes : Op -> M -> N)
    (requests : Op -> bool) (inv : M -> Prop).
  Context (Hcall : forall op h m, inv m -> mem op (h, m) = outcome Unwinds Aborts ask h (bytes op m) m (plain op m)).
  Context (Hreq : forall op m, inv m -> requests op = false -> bytes op m = 0).

  (** A call is the plain call or refused. *)
  Lemma call_cases op h m : inv m ->
    (exists h', mem op (h, m) = ((h', fst (plain op m)), snd (plain op m))) \/
    (exists h' w, mem op (h, m) = ((h', m), Unwinds w) /\ requests op = true /\ refusal ask w) \/
    (exists h', mem op (h, m) = ((h', m), Aborts) /\ exists h0 b, ask h0 b = Dies).
  Proof.
    intros Hm. rewrite (Hcall op h Hm). destruct (requests op) eqn:Er.
    - unfold outcome. destruct (_ <? bytes op m).
      { right. left. eexists _, _. split; [reflexivity|]. split; [reflexivity|]. now left. }
      destruct (bytes op m =? 0); [left; eauto|]. destruct (ask h (bytes op m)) eqn:Ea; [left; eauto| |].
      + right. left. eexists _, _. split; [reflexivity|]. split; [reflexivity|]. right. eauto.
      + right. right. eexists. split; [reflexivity|]. eauto.
    - rewrite (Hreq Hm Er), outcome_0. left. eauto.
  Qed.
  Lemma catch_leaves (Hinv : forall op m, inv m -> inv (fst (plain op m))) ops : forall h m outs h' m', inv m -> catch_run mem ops (h, m) = Some (outs, (h', m')) ->
    exists ops' outs', leaves_out (fun op w => requests op = true /\ refusal ask w) ops outs ops' outs' /\
      catch_run plain ops' m = Some (outs', m').
  Proof.
    induction ops as [|op ops IH]; intros h m outs h' m' Hm E.
    - cbn in E. injection E as <- <- <-. exists [], []. split; [constructor|reflexivity].
    - cbn [catch_run] in E. destruct (call_cases op h Hm) as [(h1 & E1)|[(h1 & w & E1 & Hr & Hw)|(h1 & E1 & _)]]; rewrite E1 in E.
      + destruct (snd (plain op m)) as [o|w| |] eqn:Es; try discriminate E;
          (destruct (catch_run mem ops (h1, fst (plain op m))) as [[l [h2 m2]]|] eqn:E2; [|discriminate]); injection E as <- <- <-;
          destruct (IH _ _ _ _ _ (Hinv op _ Hm) E2) as (ops' & outs' & Hl & Hc);
          eexists (op :: ops'), (_ :: outs'); (split; [apply lo_keep; exact Hl|]); cbn [catch_run];
          rewrite (surjective_pairing (plain op m)), Es, Hc; reflexivity.
      + destruct (catch_run mem ops (h1, m)) as [[l [h2 m2]]|] eqn:E2; [|discriminate]. injection E as <- <- <-.
        destruct (IH _ _ _ _ _ Hm E2) as (ops' & outs' & Hl & Hc). exists ops', outs'. split; [|exact Hc]. apply lo_skip; auto.
      + discriminate.
  Qed.

  (** Programs whose plain calls all return. *)
  Context {X : Type} (step : Op -> X -> Out * X) (rep : M -> X -> Prop) (ok : Op -> bool).
  Context (Hrep : forall m x, rep m x -> inv m).
  Context (Hstep : forall op m x, ok op = true -> rep m x -> exists m', plain op m = (m', Ended (fst (step op x))) /\ rep m' (snd (step op x))).
  Context (Hlive : forall h b, ask h b <> Dies).
  Lemma lawful_run ops h m x : forallb ok ops = true -> rep m x ->
    exists outs h' m' x', catch_run mem ops (h, m) = Some (outs, (h', m')) /\
      caught_program step (fun _ => True) (fun op w => requests op = true /\ refusal ask w) ops outs x x' /\ rep m' x'.
  Proof.
    intros Hok Hx.
    destruct (@catch_law _ _ _ _ mem step (fun _ => True) (fun op w => requests op = true /\ refusal ask w)
      (fun s x => rep (snd s) x) ok) with (ops := ops) (s := (h, m)) (m := x) as (outs & [h' m'] & x' & E & Hc & Hr).
    - intros op [h0 m0] y Ho Hy. cbn [snd] in Hy. destruct (call_cases op h0 (Hrep Hy)) as [(h1 & E1)|[(h1 & w & E1 & Hr & Hw)|(h1 & E1 & h2 & b & Hd)]].
      + left. destruct (Hstep Ho Hy) as (m1 & E & Hm1). rewrite E in E1. eexists. split; [exact E1|]. split; [exact I|exact Hm1].
      + right. exists (h1, m0), w. split; [exact E1|]. split; [auto|exact Hy].
      + elim (Hlive Hd).
    - exact Hok.
    - exact Hx.
    - exists outs, h', m', x'. auto.
  Qed.
End General.

Section Programs.
  Context {cfg : Config} (ask : allocator).

  (** *** Any implementation *)
  Section Any.
    Context {K V : Type} (O : Ordinal K) (slot n : N) (Hn : ORDINAL_SIZE O = Val n).
    Lemma map_leaves_out ops h (m : @OrdinalMap V) outs h' m' :
      catch_run (heap_mem ask O slot) ops (h, m) = Some (outs, (h', m')) ->
      exists ops' outs', leaves_out (fun op w => map_requests op = true /\ refusal ask w) ops outs ops' outs' /\
        catch_run (heap_act O) ops' m = Some (outs', m').
    Proof.
      apply (catch_leaves (mem := heap_mem ask O slot) (plain := heap_act O) (bytes := fun op m => map_bytes slot n op (llen m))
        (inv := fun _ => True)); auto.
      - intros op h0 m0 _. exact (heap_call ask slot Hn op h0 m0).
      - intros op m0 _. destruct op; cbn; congruence.
    Qed.
    Lemma total_leaves_out ops h (m : @OrdinalTotalMap V) outs h' m' :
      catch_run (htotal_mem ask O slot) ops (h, m) = Some (outs, (h', m')) ->
      exists ops' outs', leaves_out (fun op w => total_requests op = true /\ refusal ask w) ops outs ops' outs' /\
        catch_run (htotal_act O) ops' m = Some (outs', m').
    Proof.
      clear Hn. apply (catch_leaves (mem := htotal_mem ask O slot) (plain := htotal_act O) (bytes := fun op m => total_bytes slot op (llen m))
        (inv := fun _ => True)); auto.
      - intros op h0 m0 _. exact (htotal_call ask O slot op h0 m0).
      - intros op m0 _. destruct op; cbn; congruence.
    Qed.
  End Any.
  Section AnySet.
    Context {T : Type} (O : Ordinal T) (n : N) (Hn : ORDINAL_SIZE O = Val n).
    Lemma insert_all_shaped l : forall s s', shaped n s -> OrdinalSet_insert_all O l s = Val s' -> shaped n s'.
    Proof.
      induction l as [|t l IH]; intros s s' Hs; cbn [OrdinalSet_insert_all]; [congruence|].
      pose proof (set_insert_ends Hn t Hs) as He. destruct (OrdinalSet_insert O s t) as [[b s1]| | | |]; try discriminate. cbn [bind].
      destruct He as (_ & H1 & _). exact (IH s1 s' H1).
    Qed.
    Lemma new_shaped s0 : OrdinalSet_new O = Val s0 -> shaped n s0.
    Proof.
      unfold OrdinalSet_new. rewrite (small_n Hn). cbn [bind]. intros [= <-]. destruct (n <=? 64) eqn:E; cbn; lia.
    Qed.
    Lemma act_shaped op s : shaped n s -> shaped n (fst (set_act O op s)).
    Proof.
      intros Hs. destruct op as [t|t|sched|l| |].
      - pose proof (set_shaped Hn t Hs) as H. cbn [set_act]. unfold abind. destruct (OrdinalSet_insert_act O t s) as [s1 []]; exact H.
      - cbn [set_act]. unfold replaces, abind, look, set_step. destruct (OrdinalSet_contains O s t); exact Hs.
      - cbn [set_act]. unfold replaces, abind, look, set_step. destruct (OrdinalSet_iter O s) as [it| | | |]; try exact Hs. cbn [bind].
        destruct (drive (SetIter_step O) sched it) as [[got it']| | | |]; exact Hs.
      - rewrite from_iter_act. unfold OrdinalSet_from_iter. destruct (OrdinalSet_new O) as [s0| | | |] eqn:E0; try exact Hs. cbn [bind].
        destruct (OrdinalSet_insert_all O l s0) as [s1| | | |] eqn:E1; try exact Hs. cbn. exact (insert_all_shaped (new_shaped E0) E1).
      - cbn. destruct s; exact Hs.
      - cbn [set_act]. unfold replaces, abind, look, set_step. destruct (OrdinalSet_debug O s); exact Hs.
    Qed.
    Lemma set_bytes_0 (op : set_op T) s : set_requests op = false -> set_bytes n op (set_len s) = 0.
    Proof. unfold set_bytes. destruct (n <=? 64); [reflexivity|]. destruct op; cbn; congruence. Qed.
    Lemma set_leaves_out ops h s0 outs h' s' : OrdinalSet_new O = Val s0 ->
      catch_run (set_mem ask O) ops (h, s0) = Some (outs, (h', s')) ->
      exists ops' outs', leaves_out (fun op w => set_requests op = true /\ refusal ask w) ops outs ops' outs' /\
        catch_run (set_act O) ops' s0 = Some (outs', s').
    Proof.
      intros E0. apply (catch_leaves (mem := set_mem ask O) (plain := set_act O) (bytes := fun op s => set_bytes n op (set_len s))
        (inv := shaped n)).
      - intros op h0 s Hs. exact (set_call ask Hn op h0 Hs).
      - intros op s _. apply set_bytes_0.
      - intros op s. apply act_shaped.
      - exact (new_shaped E0).
    Qed.
  End AnySet.
  (** Words never take more than isize::MAX bytes. *)
  Lemma words_fit n : n <= usize_max -> 8 * ((n + 63) / 64) <= Z.to_N isize_max.
  Proof.
    intros H. assert ((n + 63) / 64 <= (usize_max + 63) / 64) by (apply N.div_le_mono; lia).
    assert (8 * ((usize_max + 63) / 64) <= Z.to_N isize_max).
    { unfold usize_max, isize_max. destruct usize_width; vm_compute; discriminate. }
    lia.
  Qed.

  (** *** Lawful implementations *)
  Context (Hlive : forall h b, ask h b <> Dies).
  Section Lawful.
    Context {K V : Type} (O : Ordinal K) (slot n : N) (HO : ordinal_bijection O n).
    Context (eqd : forall a b : K, {a = b} + {a <> b}) (ks : list K) (He : enumeration O ks).
    Lemma map_lawful ops : forallb heap_op ops = true ->
      exists outs h st m, catch_run (heap_mem (V := V) ask O slot) ops ([], OrdinalMap_new) = Some (outs, (h, st)) /\
        caught_program (spec_step eqd ks) (fun _ => True) (fun op w => map_requests op = true /\ refusal ask w) ops outs pm_empty m /\
        OrdinalMap_debug O st = Val (pm_entries ks m) /\ forall k, OrdinalMap_get O st k = Val (m k).
    Proof.
      intros Hops. destruct (lawful_run (ask := ask) (mem := heap_mem (V := V) ask O slot) (plain := heap_act O)
        (bytes := fun (op : map_op K V) m => map_bytes slot n op (llen m)) (requests := map_requests) (inv := fun _ => True)) with
        (step := spec_step (V := V) eqd ks) (rep := heap_rep (V := V) O n ks) (ok := @heap_op K V) (ops := ops) (h := @nil N) (m := @OrdinalMap_new V) (x := @pm_empty K V)
        as (outs & h & st & m & E & Hc & Hr); auto.
      - intros op h0 m0 _. exact (heap_call ask slot (bij_size HO) op h0 m0).
      - intros op m0 _. destruct op; cbn; congruence.
      - intros op m x Hop Hx. apply andb_prop in Hop as [H1 H2].
        destruct (heap_step_ok HO eqd He H1 H2 Hx) as (st' & E & H'). exists st'. split; [|exact H']. now apply (heap_erases O op m).
      - apply heap_new_rep.
      - exists outs, h, st, m. split; [exact E|]. split; [exact Hc|].
        split; [|intros k; exact (heap_get_ok HO He k Hr)].
        destruct (heap_step_ok HO eqd He (op := OpDebug) eq_refl eq_refl Hr) as (st' & E' & _). cbn [heap_step spec_step fst snd] in E'.
        destruct (OrdinalMap_debug O st); cbn in E'; congruence.
    Qed.
    Lemma total_lawful ops (m0 : K -> V) h0 :
      exists outs h m, catch_run (htotal_mem ask O slot) ops (h0, map m0 ks) = Some (outs, (h, map m ks)) /\
        caught_program (total_step eqd ks) (fun _ => True) (fun op w => total_requests op = true /\ refusal ask w) ops outs m0 m.
    Proof.
      destruct (lawful_run (ask := ask) (mem := htotal_mem (V := V) ask O slot) (plain := htotal_act O)
        (bytes := fun (op : total_op K V) m => total_bytes slot op (llen m)) (requests := total_requests) (inv := fun _ => True)) with
        (step := total_step (V := V) eqd ks) (rep := fun l m => l = map (m : K -> V) ks) (ok := fun _ : total_op K V => true) (ops := ops) (h := h0) (m := map m0 ks) (x := m0)
        as (outs & h & st & m & E & Hc & ->); auto.
      - intros op h1 m1 _. exact (htotal_call ask O slot op h1 m1).
      - intros op m1 _. destruct op; cbn; congruence.
      - intros op m x _ ->. exists (map (snd (total_step eqd ks op x)) ks). split; [|reflexivity].
        apply (proj1 (htotal_good O op)). exact (htotal_step_ok HO He eqd op x).
      - clear. induction ops; auto.
      - eauto.
    Qed.
  End Lawful.
  Section LawfulSet.
    Context {T : Type} (O : Ordinal T) (n : N) (HO : ordinal_bijection O n).
    Context (eqd : forall a b : T, {a = b} + {a <> b}) (ks : list T) (He : enumeration O ks).
    Lemma set_lawful ops : n <= usize_max - 64 \/ n <= 64 -> 1 <= n \/ debug_assertions = false ->
      exists s0 outs h s m, OrdinalSet_new O = Val s0 /\ catch_run (set_mem ask O) ops ([], s0) = Some (outs, (h, s)) /\
        caught_program (sspec_step eqd ks) (fun _ => True) (fun op w => set_requests op = true /\ exists h b, ask h b = Throws w)
          ops outs ms_empty m /\
        forall t, OrdinalSet_contains O s t = Val (m t).
    Proof.
      intros Hn Hi. destruct (set_new_law HO) as (s0 & E0 & H0).
      destruct (@catch_law _ _ _ _ (set_mem ask O) (sspec_step eqd ks) (fun _ => True)
        (fun op w => set_requests op = true /\ exists h b, ask h b = Throws w) (fun s x => set_inv O n (snd s) x) (fun _ => true))
        with (ops := ops) (s := (@nil N, s0)) (m := @ms_empty T) as (outs & [h s] & m & E & Hc & Hs).
      - intros op [h0 s1] x _ Hx. cbn [snd] in Hx.
        assert (Hsh : shaped n s1) by (destruct s1; cbn in *; tauto).
        destruct (set_step_law HO eqd op Hn Hi He Hx) as (s' & E & H').
        apply (proj1 (set_good O op)) in E. rewrite (set_call ask (bij_size HO) op h0 Hsh), E. cbn [fst snd]. unfold outcome.
        assert (Hb : set_bytes n op (set_len s1) <= Z.to_N isize_max).
        { pose proof (words_fit (bij_fits HO)) as Hw. unfold set_bytes. destruct (n <=? 64) eqn:E64; [lia|].
          destruct op as [t|t|sched|[|t l]| |]; try lia; try (destruct (n + 64 <=? usize_max); destruct (set_len s1 =? 0); cbn [andb]; clear - Hw; lia).
          destruct s1 as [w|ws]; [cbn in Hsh; lia|]. destruct Hx as (_ & [E1|E1] & _); unfold wcount in E1; cbn [set_len]; rewrite E1; clear - Hw; lia. }
        replace (Z.to_N isize_max <? set_bytes n op (set_len s1)) with false by lia.
        destruct (set_bytes n op (set_len s1) =? 0) eqn:Eb; [left; eexists; split; [reflexivity|auto]|].
        destruct (ask h0 (set_bytes n op (set_len s1))) eqn:Ea; [left; eexists; split; [reflexivity|auto]| |elim (Hlive Ea)].
        right. eexists _, _. split; [reflexivity|]. split; [|exact Hx]. split; [|eauto].
        destruct (set_requests op) eqn:Er; [reflexivity|]. rewrite (set_bytes_0 n s1 Er) in Eb. discriminate.
      - clear. induction ops; auto.
      - exact H0.
      - exists s0, outs, h, s, m. split; [exact E0|]. split; [exact E|]. split; [exact Hc|]. intros t. exact (set_contains_law HO t Hs).
    Qed.
  End LawfulSet.
End Programs.

(** *** How much memory *)
Section Memory.
  Context {cfg : Config} (ask : allocator) {K V : Type} (O : Ordinal K) (slot n : N) (HO : ordinal_bijection O n).
  Context (eqd : forall a b : K, {a = b} + {a <> b}) (ks : list K) (He : enumeration O ks).

  Lemma rep_len (st : @OrdinalMap V) m : heap_rep O n ks st m -> llen st = 0 \/ llen st = n.
  Proof.
    intros (ks' & -> & _ & [-> | ->]); [right|left; reflexivity]. unfold llen. rewrite map_length. fold (llen ks). exact (proj2 (enumeration_numbered HO He)).
  Qed.
  (** Calls on a map reached by a lawful program return. *)
  Lemma heap_returns op (st : @OrdinalMap V) m : has_heap op = true -> heap_rep O n ks st m ->
    exists o st' m', heap_step O op st = Val (o, st') /\ heap_rep O n ks st' m' /\
      llen st' = if allocates op then n else llen st.
  Proof.
    intros Hop Hr.
    assert (Hs : exists o st' m', heap_step O op st = Val (o, st') /\ heap_rep O n ks st' m').
    { destruct (not_contains_key op) eqn:Hc.
      - destruct (heap_step_ok HO eqd He Hop Hc Hr) as (st' & E & H'). eauto.
      - destruct op; try discriminate. cbn [heap_step]. unfold OrdinalMap_contains_key. destruct (bij_to HO k) as (i & Hi & _).
        rewrite Hi. cbn [bind]. eauto. }
    destruct Hs as (o & st' & m' & E & H'). exists o, st', m'. split; [exact E|]. split; [exact H'|].
    pose proof (rep_len Hr) as Hl.
    destruct (allocates op) eqn:Ha; [exact (heap_step_alloc (bij_size HO) Hl E Ha)|exact (llen_eq (heap_step_length Ha E))].
  Qed.
  Lemma alloc_bytes (op : map_op K V) len : allocates op = true -> map_bytes slot n op len = if len =? 0 then slot * n else 0.
  Proof. destruct op; cbn; congruence. Qed.

  Lemma too_large ops : Z.to_N isize_max < slot * n -> forallb has_heap ops = true ->
    forall h, exists outs, catch_run (heap_mem (V := V) ask O slot) ops (h, OrdinalMap_new) = Some (outs, (h, OrdinalMap_new)) /\
      Forall2 (fun op o => if allocates op then o = Caught PCapacity else exists x, o = Seen x) ops outs.
  Proof.
    intros Hbig. induction ops as [|op ops IH]; intros Hops h; [exists []; split; [reflexivity|constructor]|].
    cbn [forallb] in Hops. apply andb_prop in Hops as [Hop Hops]. destruct (IH Hops h) as (outs & E & Hf).
    cbn [catch_run]. rewrite (heap_call ask slot (bij_size HO) op h OrdinalMap_new). change (llen (@OrdinalMap_new V)) with 0.
    destruct (allocates op) eqn:Ha.
    - rewrite (alloc_bytes 0 Ha). change (0 =? 0) with true. cbn iota. unfold outcome.
      replace (Z.to_N isize_max <? slot * n) with true by (clear - Hbig; lia). rewrite E.
      eexists. split; [reflexivity|]. constructor; [now rewrite Ha|exact Hf].
    - replace (map_bytes slot n op 0) with 0 by (destruct op; cbn in *; try discriminate Ha; try reflexivity; clear; lia).
      rewrite outcome_0. destruct (heap_returns Hop (heap_new_rep O n ks)) as (o & st & m & Es & _ & Hl).
      rewrite (proj1 (heap_erases O op _ _ _) Es). cbn [fst snd].
      rewrite Ha in Hl. change (llen (@OrdinalMap_new V)) with 0 in Hl. destruct st as [|x st]; [|unfold llen in Hl; cbn in Hl; clear - Hl; lia].
      change (@nil (option V)) with (@OrdinalMap_new V). rewrite E. eexists. split; [reflexivity|]. constructor; [rewrite Ha; eauto|exact Hf].
  Qed.
End Memory.

Lemma small_quiet (cfg : Config) (ask : allocator) (T : Type) (O : Ordinal T) (n : N) : ORDINAL_SIZE O = Val n -> n <= 64 ->
  forall (ops : list (set_op T)) (h : list N) s0 outs h' s', OrdinalSet_new O = Val s0 ->
    catch_run (set_mem ask O) ops (h, s0) = Some (outs, (h', s')) -> h' = h.
Proof.
  intros Hn H64 ops h s0 outs h' s' E0 E. assert (Hs := new_shaped Hn E0). clear E0. revert s0 outs Hs E.
  induction ops as [|op ops IH]; intros s0 outs Hs E; [cbn in E; congruence|].
  cbn [catch_run] in E. rewrite (set_call ask Hn op h Hs) in E.
  replace (set_bytes n op (set_len s0)) with 0 in E by (unfold set_bytes; replace (n <=? 64) with true by lia; reflexivity).
  rewrite outcome_0 in E. pose proof (act_shaped Hn op Hs) as H1.
  destruct (snd (set_act O op s0)); try discriminate;
    (destruct (catch_run (set_mem ask O) ops (h, fst (set_act O op s0))) as [[l [h2 s2]]|] eqn:E2; [|discriminate]);
    injection E as _ <- <-; exact (IH _ _ H1 E2).
Qed.
