(** * AllocProofs4: how many requests a program makes (PropAlloc.v). *)
From Verif Require Import Base Spec SpecMap SpecTotal SpecSet SpecCatch SpecAlloc ModelOrdinal ModelValues
  ModelArrayBuilder ModelIter ModelTotal ModelMap ModelSet ModelResume ModelUnwind MapMachine TotalMachine SetMachine
  ModelCatch ModelAlloc BaseProofs MapProofs5 CatchProofs CatchProofs3 SetAllocProofs AllocProofs AllocProofs2 AllocProofs3.
From Coq Require Import List. Import ListNotations.
Set Implicit Arguments. Unset Strict Implicit.

Section Maps.
  Context {cfg : Config} (ask : allocator) {K V : Type} (O : Ordinal K) (slot n : N) (Hn : ORDINAL_SIZE O = Val n).
  Context (Hgrant : forall h b, ask h b = Granted) (Hfits : slot * n <= Z.to_N isize_max).

  Lemma granted_run ops : forall h (st : @OrdinalMap V) outs st', llen st = 0 \/ llen st = n ->
    heap_run O ops st = Val (outs, st') ->
    catch_run (heap_mem (V := V) ask O slot) ops (h, st) =
      Some (map Seen outs, (h ++ (if slot * n =? 0 then [] else repeat (slot * n) (map_count (negb (llen st =? 0)) ops)), st')).
  Proof.
    induction ops as [|op ops IH]; intros h st outs st' Hl0 E.
    { cbn in E. injection E as <- <-. cbn. destruct (slot * n =? 0); rewrite app_nil_r; reflexivity. }
    cbn [heap_run] in E. apply bind_inv in E. destruct E as ([o st1] & Es & E). apply bind_inv in E. destruct E as ([os st2] & Er & E).
    injection E as <- <-.
    assert (Hl : llen st1 = if allocates op then n else llen st).
    { destruct (allocates op) eqn:Ha; [exact (heap_step_alloc Hn Hl0 Es Ha)|exact (llen_eq (heap_step_length Ha Es))]. }
    assert (Hl1 : llen st1 = 0 \/ llen st1 = n) by (rewrite Hl; destruct (allocates op); auto).
    cbn [catch_run]. rewrite (heap_call ask slot Hn op h st).
    rewrite (proj1 (heap_erases O op _ _ _) Es). cbn [fst snd].
    assert (Hb : (map_bytes slot n op (llen st) = 0 /\
        (slot * n <> 0 -> map_count (negb (llen st =? 0)) (op :: ops) = map_count (negb (llen st1 =? 0)) ops)) \/
      (map_bytes slot n op (llen st) = slot * n /\
        (slot * n <> 0 -> map_count (negb (llen st =? 0)) (op :: ops) = S (map_count (negb (llen st1 =? 0)) ops)))).
    { destruct (allocates op) eqn:Ha.
      - rewrite (alloc_bytes slot n _ Ha). destruct (llen st =? 0) eqn:E0; [right|left]; (split; [reflexivity|]); intros Hz;
          replace (llen st1 =? 0) with false by (clear - Hl Hz; lia); destruct op; try discriminate Ha; reflexivity.
      - rewrite Hl. destruct op; try discriminate Ha; try (left; split; [reflexivity|]; intros _; reflexivity).
        cbn [map_bytes map_count]. destruct Hl0 as [E0|E0]; rewrite E0.
        + left. split; [clear; lia|]. reflexivity.
        + right. split; [reflexivity|]. intros Hz. replace (n =? 0) with false by (clear - Hz; lia). reflexivity. }
    unfold outcome. assert (Hsm : map_bytes slot n op (llen st) <= Z.to_N isize_max) by (clear - Hb Hfits; lia).
    replace (Z.to_N isize_max <? map_bytes slot n op (llen st)) with false by (clear - Hsm; lia). rewrite Hgrant.
    destruct (map_bytes slot n op (llen st) =? 0) eqn:Eb.
    - cbn [fst snd]. rewrite (IH h _ _ _ Hl1 Er). cbn [map].
      destruct (slot * n =? 0) eqn:Ez; [reflexivity|].
      destruct Hb as [[_ ->]|[Hb _]]; [reflexivity|clear - Ez; lia|clear - Hb Eb Ez; lia].
    - cbn [fst snd]. rewrite (IH (h ++ [map_bytes slot n op (llen st)]) _ _ _ Hl1 Er). cbn [map].
      rewrite <- app_assoc. cbn [app].
      destruct Hb as [[Hb _]|[Hb Hc]]; [clear - Hb Eb; lia|]. rewrite Hb in *.
      rewrite Eb. rewrite Hc by (clear - Eb; lia). reflexivity.
  Qed.
End Maps.
Lemma granted_new (cfg : Config) (ask : allocator) (K V : Type) (O : Ordinal K) (slot n : N) : ORDINAL_SIZE O = Val n ->
  (forall h b, ask h b = Granted) -> slot * n <= Z.to_N isize_max ->
  forall (ops : list (map_op K V)) outs st, heap_run O ops OrdinalMap_new = Val (outs, st) ->
    catch_run (heap_mem ask O slot) ops ([], OrdinalMap_new) =
      Some (map Seen outs, (if slot * n =? 0 then [] else repeat (slot * n) (map_count false ops), st)).
Proof. intros Hn Hg Hf ops outs st E. exact (granted_run Hn Hg Hf (st := OrdinalMap_new) [] (or_introl eq_refl) E). Qed.

Lemma count_full (K V : Type) (ops : list (map_op K V)) : Forall (fun op => forall cl, op <> OpClone K cl) ops -> map_count true ops = 0%nat.
Proof. induction 1 as [|op ops Hop H IH]; [reflexivity|]. destruct op; cbn [map_count]; try exact IH; [elim (Hop cl); reflexivity|..]. Qed.
Lemma count_once (K V : Type) (ops : list (map_op K V)) : Forall (fun op => forall cl, op <> OpClone K cl) ops ->
  map_count false ops = if existsb allocates ops then 1%nat else 0%nat.
Proof.
  induction 1 as [|op ops Hop H IH]; [reflexivity|].
  destruct op; cbn [map_count existsb allocates orb]; try exact IH; try (rewrite (count_full H); reflexivity).
Qed.
Lemma granted_once (cfg : Config) (ask : allocator) (K V : Type) (O : Ordinal K) (slot n : N) : ORDINAL_SIZE O = Val n ->
  (forall h b, ask h b = Granted) -> slot * n <= Z.to_N isize_max -> slot * n <> 0 ->
  forall (ops : list (map_op K V)) outs st, Forall (fun op => forall cl, op <> OpClone K cl) ops ->
    heap_run O ops OrdinalMap_new = Val (outs, st) ->
    catch_run (heap_mem ask O slot) ops ([], OrdinalMap_new) =
      Some (map Seen outs, (if existsb allocates ops then [slot * n] else [], st)).
Proof.
  intros Hn Hg Hf Hz ops outs st Hc E. rewrite (granted_new Hn Hg Hf E), (count_once Hc). replace (slot * n =? 0) with false by (clear - Hz; lia).
  destruct (existsb allocates ops); reflexivity.
Qed.

Section Sets.
  Context {cfg : Config} (ask : allocator) {T : Type} (O : Ordinal T) (n : N) (Hn : ORDINAL_SIZE O = Val n).
  Context (Hgrant : forall h b, ask h b = Granted) (Hbig : 64 < n) (Hmax : n <= usize_max).
  Local Notation bytes := (8 * ((n + 63) / 64)).

  Lemma storage_shaped f s : storage n f s -> shaped n s /\ set_len s = if f then (n + 63) / 64 else 0.
  Proof. clear - Hbig. destruct s as [w|ws]; cbn; [lia|tauto]. Qed.
  Lemma bytes_pos : bytes <> 0.
  Proof. clear - Hbig. assert (1 <= (n + 63) / 64) by (apply N.div_le_lower_bound; lia). lia. Qed.
  (** [SFromIter (t :: l)] returns only if the words can be counted. *)
  Lemma counted (t : T) s o s' : shaped n s -> OrdinalSet_insert O s t = Val (o, s') -> set_len s = 0 -> n + 64 <= usize_max.
  Proof.
    intros Hs E Hl. unfold OrdinalSet_insert in E. rewrite (small_n Hn) in E. cbn [bind] in E.
    destruct (n <=? 64) eqn:E64; [clear - E64 Hbig; lia|]. destruct s as [w|ws]; [discriminate E|]. cbn [set_len] in Hl. rewrite Hl in E.
    change (0 =? 0) with true in E. cbn iota in E. rewrite Hn in E. cbn [bind] in E. unfold checked_add in E.
    destruct (N.leb_spec (n + 64) usize_max) as [M|M]; [exact M|discriminate E].
  Qed.

  Lemma set_granted_run ops : forall h s f outs s', storage n f s -> set_run O ops s = Val (outs, s') ->
    catch_run (set_mem ask O) ops (h, s) = Some (map Seen outs, (h ++ repeat bytes (set_count f ops), s')).
  Proof.
    induction ops as [|op ops IH]; intros h s f outs s' Hs E.
    { cbn in E. injection E as <- <-. cbn. rewrite app_nil_r. reflexivity. }
    cbn [set_run run_ops] in E. unfold set_run in E. cbn [run_ops] in E.
    apply bind_inv in E. destruct E as ([o s1] & Es & E). apply bind_inv in E. destruct E as ([os s2] & Er & E). injection E as <- <-.
    pose proof (step_storage Hn Hs Es) as Hs1. destruct (storage_shaped Hs) as [Hsh Hlen].
    cbn [catch_run]. rewrite (set_call ask Hn op h Hsh). rewrite (proj1 (proj1 (set_good O op) _ _ _) Es). cbn [fst snd].
    assert (Hb : (set_bytes n op (set_len s) = 0 /\ set_count f (op :: ops) = set_count (fills op f) ops) \/
                 (set_bytes n op (set_len s) = bytes /\ set_count f (op :: ops) = S (set_count (fills op f) ops))).
    { unfold set_bytes. replace (n <=? 64) with false by (clear - Hbig; lia). rewrite Hlen.
      destruct op as [t|t|sched|[|t l]| |]; try (left; split; reflexivity).
      - destruct f; [left; split; [|reflexivity]|right; split; [|reflexivity]].
        + replace ((n + 63) / 64 =? 0) with false by (pose proof bytes_pos as H; clear - H; lia). reflexivity.
        + change (0 =? 0) with true. cbn [andb]. cbn [set_step] in Es. apply bind_inv in Es. destruct Es as ([b s3] & Ei & _).
          pose proof (counted Hsh Ei Hlen) as Hc. replace (n + 64 <=? usize_max) with true by (clear - Hc; lia). reflexivity.
      - right. split; [|reflexivity]. cbn [set_step] in Es. apply bind_inv in Es. destruct Es as (s3 & Ei & _).
        unfold OrdinalSet_from_iter in Ei. apply bind_inv in Ei. destruct Ei as (s0 & E0 & Ei).
        cbn [OrdinalSet_insert_all] in Ei. apply bind_inv in Ei. destruct Ei as ([b s4] & Ei & _).
        destruct (storage_shaped (new_storage Hn E0)) as [H0 L0].
        pose proof (counted H0 Ei L0) as Hc. replace (n + 64 <=? usize_max) with true by (clear - Hc; lia). reflexivity.
      - destruct f; [right|left]; (split; [|reflexivity]); [reflexivity|clear; lia]. }
    pose proof bytes_pos as Hp. pose proof (words_fit Hmax) as Hw. unfold outcome.
    replace (Z.to_N isize_max <? set_bytes n op (set_len s)) with false by (clear - Hb Hw; lia). rewrite Hgrant.
    destruct Hb as [[-> ->]|[-> ->]].
    - change (0 =? 0) with true. cbn iota. cbn [fst snd]. rewrite (IH h _ _ _ _ Hs1 Er). reflexivity.
    - replace (bytes =? 0) with false by (clear - Hp; lia). cbn [fst snd]. rewrite (IH (h ++ [bytes]) _ _ _ _ Hs1 Er).
      rewrite <- app_assoc. reflexivity.
  Qed.
End Sets.
Lemma set_granted (cfg : Config) (ask : allocator) (T : Type) (O : Ordinal T) (n : N) : ORDINAL_SIZE O = Val n ->
  (forall h b, ask h b = Granted) -> 64 < n -> n <= usize_max ->
  forall (ops : list (set_op T)) s0 outs s, OrdinalSet_new O = Val s0 -> set_run O ops s0 = Val (outs, s) ->
    catch_run (set_mem ask O) ops ([], s0) =
      Some (map Seen outs, (repeat (8 * ((n + 63) / 64)) (set_count false ops), s)).
Proof. intros Hn Hg Hb Hm ops s0 outs s E0 E. exact (set_granted_run Hn Hg Hb Hm [] (new_storage Hn E0) E). Qed.

Lemma set_count_once (T : Type) (ops : list (set_op T)) :
  Forall (fun op => op <> SClone /\ forall l, op <> SFromIter l) ops ->
  set_count false ops = (if existsb (fun op => match op with SInsert _ => true | _ => false end) ops then 1 else 0)%nat /\
  set_count true ops = 0%nat.
Proof.
  induction 1 as [|op ops [H1 H2] H [IH1 IH2]]; [split; reflexivity|].
  destruct op; cbn [set_count existsb orb]; try (split; assumption); [split; [now rewrite IH2|exact IH2]|elim (H2 l); reflexivity|elim H1; reflexivity].
Qed.
Lemma set_granted_once (cfg : Config) (ask : allocator) (T : Type) (O : Ordinal T) (n : N) : ORDINAL_SIZE O = Val n ->
  (forall h b, ask h b = Granted) -> 64 < n -> n <= usize_max ->
  forall (ops : list (set_op T)) s0 outs s, Forall (fun op => op <> SClone /\ forall l, op <> SFromIter l) ops ->
    OrdinalSet_new O = Val s0 -> set_run O ops s0 = Val (outs, s) ->
    catch_run (set_mem ask O) ops ([], s0) =
      Some (map Seen outs,
            (if existsb (fun op => match op with SInsert _ => true | _ => false end) ops then [8 * ((n + 63) / 64)] else [], s)).
Proof.
  intros Hn Hg Hb Hm ops s0 outs s Hc E0 E. rewrite (set_granted Hn Hg Hb Hm E0 E), (proj1 (set_count_once Hc)).
  destruct (existsb _ ops); reflexivity.
Qed.
