(** * FmtProofs2: the text of every Debug implementation of the crate. *)
From Coq Require Import Ascii String List.
From Verif Require Import Base Spec SpecMap SpecTotal SpecSet SpecIter SpecApi SpecAtomic SpecFmt ModelOrdinal ModelValues
  ModelArrayBuilder ModelAtomic ModelIter ModelTotal ModelMap ModelSet ModelFmt MapMachine TotalMachine SetMachine
  ValuesProofs MapProofs5 TotalProofs3 SetProofs SetProofs2 ExactProofs AtomicProofs2 FmtProofs.
Import ListNotations.
Set Implicit Arguments. Unset Strict Implicit.
Open Scope string_scope.

Lemma builder_prints : forall alt open close ps p, same p (builder alt open close ps) ->
  prints alt open close p ps.
Proof.
  intros alt open close ps p E. split; [|split].
  - intros ts H. unfold says. rewrite (same_heard E). apply builder_says; auto.
  - intros before q after ts t r -> H1 H2 H3. rewrite (same_heard E). eapply builder_broken; eauto.
  - intros H. apply same_polite with (p := builder alt open close ps). + apply same_sym; auto.
    + apply builder_polite; auto.
Qed.

Lemma debug_list_prints : forall alt It A (next : It -> res (option A * It)) show fuel s l s',
  collect next fuel s = Val (l, s') ->
  prints alt "[" "]" (debug_list alt next show fuel s) (map show l).
Proof.
  intros. apply builder_prints. constructor. intros ok. eapply inner_entries_items; eauto.
Qed.

Lemma pair_prints : forall A B alt (showA : A -> writing) (showB : B -> writing) e,
  prints alt "(" ")" (show_pair alt showA showB e) [showA (fst e); showB (snd e)].
Proof.
  intros. split; [|split].
  - intros ts H. inversion H as [|? a ? ? Ha H1]; subst. inversion H1 as [|? b ? ? Hb H2]; subst.
    inversion H2; subst. apply pair_says; auto.
  - intros before q after ts t r E Hb Hq Hr.
    assert (R : forall p, heard p = (t, r) -> forall x k, heard (and_then p x) = (t, r) /\
        (k false = Return (Val false) -> heard (then_with p k) = (t, r))).
    { intros p Hp x k. split.
      - rewrite heard_and, Hp. destruct r as [[]| | | |]; auto; congruence.
      - intros F. rewrite heard_then, Hp. destruct r as [[]| | | |]; auto; try congruence. rewrite F. cbn.
        now rewrite app_nil_s. }
    assert (RP : forall p st k, heard p = (t, r) -> (forall st, k false st = Return (Val false)) ->
        heard (padded p st k) = (indented st t, r)).
    { intros p st k Hp F. rewrite heard_padded, Hp. destruct r as [[]| | | |]; auto; try congruence. rewrite F. cbn.
      now rewrite app_nil_s. }
    destruct before as [|b0 [|b1 before]]; cbn in E; inversion E; subst.
    + inversion Hb; subst. unfold show_pair. rewrite heard_and. cbn [heard write]. unfold broken_off.
      destruct alt.
      * rewrite heard_and. cbn [heard write]. rewrite RP; [reflexivity|exact (proj1 (R _ Hq _ (fun _ => Return (Val false))))|reflexivity].
      * rewrite heard_and, heard_and, Hq. cbn [heard write].
        destruct r as [[]| | | |]; auto; congruence.
    + inversion Hb as [|? a ? ? Ha H1]; subst. inversion H1; subst. unfold says in Ha.
      unfold show_pair. rewrite heard_and. cbn [heard write]. unfold broken_off.
      destruct alt.
      * rewrite heard_and. cbn [heard write]. rewrite heard_padded, heard_and_write, Ha. cbn beta iota.
        rewrite RP; [|exact (proj1 (R _ Hq _ (fun _ => Return (Val false))))|reflexivity].
        cbn [map String.concat]. rewrite ?app_assoc_s. reflexivity.
      * rewrite !heard_and, Ha, Hq. cbn [heard write map String.concat].
        destruct r as [[]| | | |]; try congruence; cbn; rewrite ?app_assoc_s; reflexivity.
    + destruct before; discriminate.
  - intros H. inversion H as [|? ? Ha H1]; subst. inversion H1; subst. apply pair_polite; auto.
Qed.

Lemma entry_prints : forall k v, prints_entry (entry_prog k v) k v.
Proof.
  intros. split; [|split; [|split]].
  - intros a b. apply entry_says.
  - intros t r H Hr. unfold entry_prog. rewrite heard_and, H. destruct r as [[]| | | |]; auto; congruence.
  - intros a t r Ha H Hr. unfold entry_prog. rewrite heard_and, Ha, heard_and, H. cbn [heard write]. cbn beta iota.
    destruct r as [[]| | | |]; reflexivity.
  - apply entry_polite.
Qed.

Lemma pairs_from : forall A B It alt (next : It -> res (option (A * B) * It)) (showA : A -> writing) (showB : B -> writing)
    fuel s l, ('(l, _) <- collect next fuel s ;; Val l) = Val l ->
  prints_pairs alt showA showB (debug_list alt next (show_pair alt showA showB) fuel s) l.
Proof.
  intros A B It alt next showA showB fuel s l H. destruct (collect next fuel s) as [[l' s']| | | |] eqn:E; try discriminate.
  cbn in H. inversion H; subst. exists (map (show_pair alt showA showB) l). split.
  - clear. induction l; constructor; auto. apply pair_prints.
  - eapply debug_list_prints; eauto.
Qed.
Lemma map_from : forall A B It alt (next : It -> res (option (A * B) * It)) (showA : A -> writing) (showB : B -> writing)
    fuel s l, ('(l, _) <- collect next fuel s ;; Val l) = Val l ->
  prints_map alt showA showB (debug_map alt next showA showB fuel s) l.
Proof.
  intros A B It alt next showA showB fuel s l H. destruct (collect next fuel s) as [[l' s']| | | |] eqn:E; try discriminate.
  cbn in H. inversion H; subst. exists (map (fun e => entry_prog (showA (fst e)) (showB (snd e))) l). split.
  - clear. induction l; constructor; auto. apply entry_prints.
  - apply builder_prints. constructor. intros ok. eapply map_entries_items; eauto.
Qed.
Lemma list_from : forall A It alt (next : It -> res (option A * It)) (showA : A -> writing) fuel s l,
  ('(l, _) <- collect next fuel s ;; Val l) = Val l ->
  prints_list alt showA (debug_list alt next showA fuel s) l.
Proof.
  intros A It alt next showA fuel s l H. destruct (collect next fuel s) as [[l' s']| | | |] eqn:E; try discriminate.
  cbn in H. inversion H; subst. eapply debug_list_prints; eauto.
Qed.

Lemma double_ended_mono : forall It A (step : dir -> It -> res (option A * It)) s l (P Q : It -> list A -> Prop),
  (forall s r, P s r -> Q s r) -> double_ended step s l P -> double_ended step s l Q.
Proof. intros * H D sched. destruct (D sched) as (s' & D1 & D2). eauto. Qed.
Lemma double_ended_rel_mono : forall It A B (rel : A -> B -> Prop) (step : dir -> It -> res (option A * It)) s l
  (P Q : It -> list B -> Prop),
  (forall s r, P s r -> Q s r) -> double_ended_rel rel step s l P -> double_ended_rel rel step s l Q.
Proof. intros * H D sched. destruct (D sched) as (got & s' & D1 & D2 & D3). exists got, s'. auto. Qed.

Section Maps.
  Context {cfg : Config} {K V : Type} {O : Ordinal K} {n : N}.
  Hypothesis HO : ordinal_bijection O n.
  Variables (alt : bool) (showK : bool -> K -> writing) (showV : bool -> V -> writing).
  Notation pairs := (prints_pairs alt (showK alt) (showV alt)).
  Notation dict := (prints_map alt (showK alt) (showV alt)).

  Lemma Iter_pr s r : Iter_debug O s = Val r -> pairs (Iter_fmt O alt showK showV s) r.
  Proof. apply pairs_from. Qed.
  Lemma Values_pr (s : @Values V) r : Values_debug O s = Val r -> prints_list alt (showV alt) (Values_fmt O alt showV s) r.
  Proof. apply list_from. Qed.
  Lemma IterMut_pr st s r : IterMut_debug O st s = Val r -> pairs (IterMut_fmt O alt showK showV st s) r.
  Proof.
    unfold IterMut_debug, IterMut_fmt. destruct (IterMut_iter st s); try discriminate. cbn. apply Iter_pr.
  Qed.
  Lemma ValuesMut_pr st s r : ValuesMut_debug O st s = Val r -> prints_list alt (showV alt) (ValuesMut_fmt O alt showV st s) r.
  Proof.
    unfold ValuesMut_debug, ValuesMut_fmt. destruct (ValuesMut_iter st s); try discriminate. cbn. apply Values_pr.
  Qed.
  Lemma TIter_pr s r : TIter_debug O s = Val r -> pairs (TIter_fmt O alt showK showV s) r.
  Proof. apply pairs_from. Qed.
  Lemma TIterMut_pr st s r : TIterMut_debug O st s = Val r -> pairs (TIterMut_fmt O alt showK showV st s) r.
  Proof.
    unfold TIterMut_debug, TIterMut_fmt. destruct (TIterMut_iter st s); try discriminate. cbn. apply TIter_pr.
  Qed.

  Lemma heap_prints st : heap_reachable O st -> forall l, lists_entries O (OrdinalMap_get O st) l ->
    dict (OrdinalMap_fmt O alt showK showV st) l /\
    double_ended (Iter_step O) (OrdinalMap_iter st) l (fun s r => pairs (Iter_fmt O alt showK showV s) r) /\
    double_ended (Values_step O) (OrdinalMap_values st) (map snd l)
      (fun s r => prints_list alt (showV alt) (Values_fmt O alt showV s) r) /\
    double_ended (IntoIter_step O) (OrdinalMap_into_iter st) l (fun s r => pairs (IntoIter_fmt O alt showK showV s) r) /\
    double_ended_rel (ref_to O st) (IterMut_step O st) (OrdinalMap_iter_mut st) l
      (fun s r => pairs (IterMut_fmt O alt showK showV st s) r) /\
    double_ended_rel (value_ref O st) (ValuesMut_step O st) (OrdinalMap_values_mut st) l
      (fun s r => prints_list alt (showV alt) (ValuesMut_fmt O alt showV st s) (map snd r)).
  Proof.
    intros H l Hl. destruct (heap_debugs HO H Hl) as (H1 & H2 & H3 & H4 & H5 & H6 & H7).
    split; [exact (map_from _ _ _ H1)|].
    split; [revert H2; apply double_ended_mono; intros ? ?; apply Iter_pr|].
    split; [revert H4; apply double_ended_mono; intros ? ?; apply Values_pr|].
    split; [revert H5; apply double_ended_mono; intros ? ?; apply Iter_pr|].
    split; [revert H6; apply double_ended_rel_mono; intros ? ?; apply IterMut_pr|].
    revert H7; apply double_ended_rel_mono; intros ? ?; apply ValuesMut_pr.
  Qed.
  Lemma array_prints S (a : @OrdinalArrayMap V S) : array_reachable O a ->
    forall l, lists_entries O (OrdinalArrayMap_get O a) l ->
    dict (OrdinalArrayMap_fmt O alt showK showV a) l /\
    double_ended (Iter_step O) (OrdinalArrayMap_iter a) l (fun s r => pairs (Iter_fmt O alt showK showV s) r) /\
    double_ended (Values_step O) (OrdinalArrayMap_values a) (map snd l)
      (fun s r => prints_list alt (showV alt) (Values_fmt O alt showV s) r) /\
    double_ended (IntoIterArray_step O) (OrdinalArrayMap_into_iter a) l
      (fun s r => pairs (IntoIterArray_fmt O alt showK showV s) r) /\
    double_ended_rel (ref_to O (arr_list a)) (IterMut_step O (arr_list a)) (OrdinalArrayMap_iter_mut a) l
      (fun s r => pairs (IterMut_fmt O alt showK showV (arr_list a) s) r) /\
    double_ended_rel (value_ref O (arr_list a)) (ValuesMut_step O (arr_list a)) (OrdinalArrayMap_values_mut a) l
      (fun s r => prints_list alt (showV alt) (ValuesMut_fmt O alt showV (arr_list a) s) (map snd r)).
  Proof.
    intros H l Hl. destruct (array_debugs HO H Hl) as (H1 & H2 & H3 & H4 & H5 & H6 & H7).
    split; [exact (map_from _ _ _ H1)|].
    split; [revert H2; apply double_ended_mono; intros ? ?; apply Iter_pr|].
    split; [revert H4; apply double_ended_mono; intros ? ?; apply Values_pr|].
    split; [revert H5; apply double_ended_mono; intros ? ?; apply Iter_pr|].
    split; [revert H6; apply double_ended_rel_mono; intros ? ?; apply IterMut_pr|].
    revert H7; apply double_ended_rel_mono; intros ? ?; apply ValuesMut_pr.
  Qed.
  Lemma htotal_prints (m : @OrdinalTotalMap V) : htotal_reachable O m ->
    forall l, lists_total O (OrdinalTotalMap_get O m) l ->
    dict (OrdinalTotalMap_fmt O alt showK showV m) l /\
    double_ended (TIter_step O) (OrdinalTotalMap_iter m) l (fun s r => pairs (TIter_fmt O alt showK showV s) r) /\
    double_ended (TIntoIter_step O) (OrdinalTotalMap_into_iter m) l
      (fun s r => pairs (TIntoIter_fmt O alt showK showV s) r) /\
    double_ended_rel (tref_to O m) (TIterMut_step O) (OrdinalTotalMap_iter_mut m) l
      (fun s r => pairs (TIterMut_fmt O alt showK showV m s) r).
  Proof.
    intros H l Hl. destruct (htotal_debugs HO H Hl) as (H1 & H2 & H3 & H4).
    split; [exact (map_from _ _ _ H1)|].
    split; [revert H2; apply double_ended_mono; intros ? ?; apply TIter_pr|].
    split; [revert H3; apply double_ended_mono; intros ? ?; apply TIter_pr|].
    revert H4; apply double_ended_rel_mono; intros ? ?; apply TIterMut_pr.
  Qed.
  Lemma atotal_prints S (m : OrdinalTotalArrayMap S V) : atotal_reachable O m ->
    forall l, lists_total O (OrdinalTotalArrayMap_get O m) l ->
    dict (OrdinalTotalArrayMap_fmt O alt showK showV m) l /\
    double_ended (TIter_step O) (OrdinalTotalArrayMap_iter m) l (fun s r => pairs (TIter_fmt O alt showK showV s) r) /\
    double_ended (TIntoIterArray_step O) (OrdinalTotalArrayMap_into_iter m) l
      (fun s r => pairs (TIntoIterArray_fmt O alt showK showV s) r) /\
    double_ended_rel (tref_to O (arr_list m)) (TIterMut_step O) (OrdinalTotalArrayMap_iter_mut m) l
      (fun s r => pairs (TIterMut_fmt O alt showK showV (arr_list m) s) r).
  Proof.
    intros H l Hl. destruct (atotal_debugs HO H Hl) as (H1 & H2 & H3 & H4).
    split; [exact (map_from _ _ _ H1)|].
    split; [revert H2; apply double_ended_mono; intros ? ?; apply TIter_pr|].
    split; [revert H3; apply double_ended_mono; intros ? ?; apply TIter_pr|].
    revert H4; apply double_ended_rel_mono; intros ? ?; apply TIterMut_pr.
  Qed.
End Maps.

Section Keys.
  Context {cfg : Config} {K : Type} {O : Ordinal K} {n : N}.
  Hypothesis HO : ordinal_bijection O n.
  Variables (alt : bool) (showK : bool -> K -> writing).

  Lemma keys_prints : 
    (forall st : @OrdinalMap unit, heap_reachable O st -> forall l, lists_entries O (OrdinalMap_get O st) l ->
      double_ended (Keys_step O) (OrdinalMap_keys st) (map fst l)
        (fun s r => prints_list alt (showK alt) (Keys_fmt O alt showK s) r)) /\
    (forall S (a : @OrdinalArrayMap unit S), array_reachable O a ->
      forall l, lists_entries O (OrdinalArrayMap_get O a) l ->
      double_ended (Keys_step O) (OrdinalArrayMap_keys a) (map fst l)
        (fun s r => prints_list alt (showK alt) (Keys_fmt O alt showK s) r)).
  Proof.
    split.
    - intros st H l Hl. destruct (heap_debugs HO H Hl) as (H1 & H2 & H3 & H4).
      revert H3; apply double_ended_mono; intros ? ?; apply list_from.
    - intros S st H l Hl. destruct (array_debugs HO H Hl) as (H1 & H2 & H3 & H4).
      revert H3; apply double_ended_mono; intros ? ?; apply list_from.
  Qed.
End Keys.

Section Sets.
  Context {cfg : Config} {T : Type} {O : Ordinal T} {n : N}.
  Hypothesis HO : ordinal_bijection O n.
  Variables (alt : bool) (show : bool -> T -> writing).

  Lemma ref_pr r l : OrdinalSetRef_debug O r = Val l -> prints_set alt (show alt) (OrdinalSetRef_fmt O alt show r) l.
  Proof.
    unfold OrdinalSetRef_debug, OrdinalSetRef_fmt.
    destruct (OrdinalSetRef_iter O (OrdinalSetRef_clone r)) as [it| | | |]; try discriminate.
    cbn [bind after].
    destruct (collect _ _ it) as [[l' s']| | | |] eqn:E; try discriminate.
    intros H. cbn in H. inversion H; subst.
    apply builder_prints. constructor. intros ok. eapply inner_entries_items; eauto.
  Qed.

  Lemma empty_ref (w : N) : n = 0 -> debug_assertions = true -> OrdinalSetRef_new O [w] = Panic PDebugAssert.
  Proof.
    intros Hn D. unfold OrdinalSetRef_new. rewrite (array_set_s_eq HO), Hn. cbn. unfold debug_assert. rewrite D. reflexivity.
  Qed.
  Lemma empty_as_ref s : n = 0 -> debug_assertions = true -> set_reachable O s -> OrdinalSet_as_ref O s = Panic PDebugAssert.
  Proof.
    intros Hn D Hr. destruct (set_reach HO Hr) as (m & Hm & _).
    unfold OrdinalSet_as_ref. rewrite (is_small_eq HO). cbn [bind]. destruct s as [w|ws].
    - replace (n <=? 64)%N with true by lia. apply empty_ref; auto.
    - exfalso. destruct Hm as [Hm _] || idtac. cbn in Hm. lia.
  Qed.

  Lemma set_prints s l : set_reachable O s -> lists_members O (OrdinalSet_contains O s) l ->
    (1 <= n \/ debug_assertions = false -> prints_set alt (show alt) (OrdinalSet_fmt O alt show s) l) /\
    (n = 0 -> debug_assertions = true -> OrdinalSet_fmt O alt show s = Return (Panic PDebugAssert)) /\
    forall it, OrdinalSet_iter O s = Val it ->
      double_ended (SetIter_step O) it l (fun it r => prints_list alt (show alt) (SetIter_fmt O alt show it) r).
  Proof.
    intros H Hl. destruct (set_debugs HO H Hl) as [H1 H2]. split; [|split].
    - intros Hn. specialize (H1 Hn). unfold OrdinalSet_debug in H1. unfold OrdinalSet_fmt.
      destruct (OrdinalSet_as_ref O s); try discriminate. cbn in *. apply ref_pr; auto.
    - intros H0 D. unfold OrdinalSet_fmt. rewrite (empty_as_ref H0 D H). reflexivity.
    - intros it Hit. specialize (H2 it Hit). revert H2. apply double_ended_mono. intros ? ?. apply list_from.
  Qed.

  Lemma array_set_prints S (s : OrdinalArraySet S) l : array_set_reachable O s ->
    lists_members O (OrdinalArraySet_contains O s) l -> prints_set alt (show alt) (OrdinalArraySet_fmt O alt show s) l.
  Proof.
    intros H Hl. pose proof (array_set_debugs HO H Hl) as H1. unfold OrdinalArraySet_debug in H1. unfold OrdinalArraySet_fmt.
    destruct (OrdinalArraySet_as_ref O s); try discriminate. cbn in *. apply ref_pr; auto.
  Qed.
  Lemma set64_prints s l : set64_reachable O s -> lists_members O (OrdinalSet64_contains O s) l ->
    (1 <= n \/ debug_assertions = false -> prints_set alt (show alt) (OrdinalSet64_fmt O alt show s) l) /\
    (n = 0 -> debug_assertions = true -> OrdinalSet64_fmt O alt show s = Return (Panic PDebugAssert)) /\
    exists it, OrdinalSet64_iter O s = Val it /\
      double_ended (Iter64_step O) it l (fun it r => prints_list alt (show alt) (Iter64_fmt O alt show it) r).
  Proof.
    intros H Hl. destruct (set64_debugs HO H Hl) as (H1 & it & H2 & H3). split; [|split].
    - intros Hn. specialize (H1 Hn). unfold OrdinalSet64_debug in H1. unfold OrdinalSet64_fmt.
      destruct (OrdinalSet64_as_ref O s); try discriminate. cbn in *. apply ref_pr; auto.
    - intros H0 D. assert (E : OrdinalSet64_as_ref O s = Panic PDebugAssert) by exact (empty_ref s H0 D).
      unfold OrdinalSet64_fmt. rewrite E. reflexivity.
    - exists it. split; auto. revert H3. apply double_ended_mono. intros ? ?. apply list_from.
  Qed.

  Lemma values_prints text l sched rest : (forall x, says (show false x) (text x)) ->
    enumeration O l -> rest = snd (deque_run sched l) ->
    exists s os s', values_new O = Val s /\ drive (values_step O) sched s = Val (os, s') /\
      (rest = [] -> says (OrdinalValues_fmt O show s') "[]") /\
      (forall pre first more, l = (pre ++ rest)%list -> rest = first :: more ->
         says (OrdinalValues_fmt O show s') ("[" ++ text first ++ "..]")) /\
      (forall only, rest = [only] -> (forall pre, l <> (pre ++ rest)%list) ->
         says (OrdinalValues_fmt O show s') ("[" ++ text only ++ "]")) /\
      (forall first middle last, rest = (first :: middle ++ [last])%list -> (forall pre, l <> (pre ++ rest)%list) ->
         says (OrdinalValues_fmt O show s') ("[" ++ text first ++ "..=" ++ text last ++ "]")).
  Proof.
    intros Hs He Hr. destruct (values_debug_law HO text sched He Hr) as (s & os & s' & H1 & H2 & H3 & H4 & H5 & H6).
    exists s, os, s'. do 2 (split; [assumption|]).
    assert (G : forall t, values_debug O text s' = Val t -> says (OrdinalValues_fmt O show s') t).
    { intros t. unfold values_debug, OrdinalValues_fmt.
      destruct (ORDINAL_SIZE O) as [size| | | |]; try discriminate. cbn [bind after].
      destruct (values_next O (values_clone s')) as [[[first|] it]| | | |]; try discriminate; cbn [bind after].
      2: { intros H. inversion H. reflexivity. }
      destruct (r_end s' =? size)%N.
      - intros H. inversion H. unfold says. rewrite heard_and, heard_and, (Hs first). cbn [heard write]. cbn beta iota.
        reflexivity.
      - destruct (values_next_back O it) as [[[last|] it2]| | | |]; try discriminate; cbn [bind after];
          intros H; inversion H; unfold says; rewrite !heard_and, (Hs first), ?(Hs last); reflexivity. }
    split; [|split; [|split]]; intros; apply G; eauto.
  Qed.

  Lemma values_polite s : (forall x, polite (show false x)) -> polite (OrdinalValues_fmt O show s).
  Proof.
    intros Hs. unfold OrdinalValues_fmt.
    destruct (ORDINAL_SIZE O) as [size| | | |]; try exact I. cbn [after].
    destruct (values_next O (values_clone s)) as [[[first|] it]| | | |]; try exact I; cbn [after]; [|apply polite_write].
    destruct (r_end s =? size)%N.
    - repeat apply polite_and; auto; apply polite_write.
    - destruct (values_next_back O it) as [[[last|] it2]| | | |]; try exact I; cbn [after];
        repeat apply polite_and; auto; apply polite_write.
  Qed.
End Sets.

Lemma atomic_prints (T : Type) (O : Ordinal T) alt (show : bool -> T -> writing) t cell : undone O ->
  AtomicOrdinal_new O t = Val cell -> AtomicOrdinal_fmt O alt show cell = show alt t.
Proof.
  intros U H. unfold AtomicOrdinal_new in H. specialize (U t). rewrite H in U.
  unfold AtomicOrdinal_fmt. cbn. unfold decode. rewrite U. reflexivity.
Qed.

Lemma map_text : forall A B alt (showA : A -> writing) (showB : B -> writing) (a : A -> string) (b : B -> string) p l,
  prints_map alt showA showB p l -> (forall e, In e l -> says (showA (fst e)) (a (fst e)) /\ says (showB (snd e)) (b (snd e))) ->
  says p (bracketed alt "{" "}" (map (fun e => entry_text (a (fst e)) (b (snd e))) l)).
Proof.
  intros * (qs & Hq & P1 & _) H. apply P1. clear P1.
  induction Hq as [|q e qs l [E _] Hq IH]; constructor.
  - apply E; apply H; now left.
  - apply IH. intros e' He. apply H. now right.
Qed.
Lemma pairs_text : forall A B alt (showA : A -> writing) (showB : B -> writing) (a : A -> string) (b : B -> string) p l,
  prints_pairs alt showA showB p l -> (forall e, In e l -> says (showA (fst e)) (a (fst e)) /\ says (showB (snd e)) (b (snd e))) ->
  says p (bracketed alt "[" "]" (map (fun e => pair_text alt (a (fst e)) (b (snd e))) l)).
Proof.
  intros * (qs & Hq & P1 & _) H. apply P1. clear P1.
  induction Hq as [|q e qs l [E _] Hq IH]; constructor.
  - apply E. constructor; [apply H; now left|]. constructor; [apply H; now left|constructor].
  - apply IH. intros e' He. apply H. now right.
Qed.
Lemma items_text : forall A alt open close (show : A -> writing) (text : A -> string) p l,
  prints alt open close p (map show l) -> (forall x, In x l -> says (show x) (text x)) ->
  says p (bracketed alt open close (map text l)).
Proof.
  intros * (P1 & _) H. apply P1. clear P1. induction l; constructor.
  - apply H; now left.
  - apply IHl. intros x Hx. apply H. now right.
Qed.
Lemma collections_text :
  (forall A B alt (showA : A -> writing) (showB : B -> writing) (a : A -> string) (b : B -> string) p l,
    (forall e, In e l -> says (showA (fst e)) (a (fst e)) /\ says (showB (snd e)) (b (snd e))) ->
    (prints_map alt showA showB p l ->
     says p (bracketed alt "{" "}" (map (fun e => entry_text (a (fst e)) (b (snd e))) l))) /\
    (prints_pairs alt showA showB p l ->
     says p (bracketed alt "[" "]" (map (fun e => pair_text alt (a (fst e)) (b (snd e))) l)))) /\
  (forall A alt (show : A -> writing) (text : A -> string) p l,
    (forall x, In x l -> says (show x) (text x)) ->
    (prints_set alt show p l -> says p (bracketed alt "{" "}" (map text l))) /\
    (prints_list alt show p l -> says p (bracketed alt "[" "]" (map text l)))).
Proof.
  split.
  - intros. split; intros.
    + apply map_text with (showA := showA) (showB := showB); auto.
    + apply pairs_text with (showA := showA) (showB := showB); auto.
  - intros. split; intros; eapply items_text; eauto.
Qed.
Lemma collections_polite :
  (forall A B alt (showA : A -> writing) (showB : B -> writing) p l,
    (forall e, In e l -> polite (showA (fst e)) /\ polite (showB (snd e))) ->
    prints_map alt showA showB p l \/ prints_pairs alt showA showB p l -> polite p) /\
  (forall A alt (show : A -> writing) p l,
    (forall x, In x l -> polite (show x)) ->
    prints_set alt show p l \/ prints_list alt show p l -> polite p).
Proof.
  split.
  - intros A B alt showA showB p l H [(qs & Hq & _ & _ & P)|(qs & Hq & _ & _ & P)]; apply P; clear P;
      induction Hq as [|q e qs l E Hq IH]; constructor; try (apply IH; intros; apply H; now right).
    + destruct E as (_ & _ & _ & E). apply E; apply H; now left.
    + destruct E as (_ & _ & E). apply E. constructor; [apply H; now left|]. constructor; [apply H; now left|constructor].
  - intros A alt show p l H [(_ & _ & P)|(_ & _ & P)]; apply P; clear P;
      induction l; constructor; try (apply H; now left); apply IHl; intros; apply H; now right.
Qed.
