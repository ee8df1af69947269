(** * CostProofs3: bounds for programs, the other maps and the sets. *)
From Verif Require Import Base Spec SpecMap SpecTotal SpecSet SpecIter SpecApi ModelOrdinal ModelValues ModelArrayBuilder ModelIter ModelTotal
  ModelMap ModelSet MapMachine TotalMachine SetMachine ModelCost SpecCost BaseProofs ArrayProofs MapProofs5 SetAllocProofs OrdinalProofs SetProofs SetProofs2 CostProofs CostProofs2.
From Coq Require Import List. Import ListNotations.
Set Implicit Arguments. Unset Strict Implicit.

Section More.
  Context {cfg : Config} {K : Type} (O : Ordinal K).

  Section Map.
    Context {V : Type}.
    Implicit Types m : @OrdinalMap V.

    Lemma s_is_empty m : steps (c_OrdinalMap_is_empty O m) <= 3 * llen m + 1.
    Proof.
      unfold c_OrdinalMap_is_empty. replace (3 * llen m + 1) with ((3 * llen m + 1) + 0) by lia.
      apply steps_le; [apply (@s_Iter _ _ O V Front (OrdinalMap_iter m))|]. intros [o s'] _. cbn. lia.
    Qed.
    (** The slots up to the first value. *)
    Lemma sparse_first v rest f : forall fuel i o (s' : enumerate (option V)),
      outcome (c_sparse_loop O (fun x : option V => Val x) Front fuel {| e_next := i; e_items := repeat None f ++ Some v :: rest |}) = Val (o, s') ->
      steps (c_sparse_loop O (fun x : option V => Val x) Front fuel {| e_next := i; e_items := repeat None f ++ Some v :: rest |}) = 3 * (N.of_nat f + 1).
    Proof.
      induction f as [|f IH]; intros fuel i o s'; (destruct fuel as [|fuel]; [discriminate|]); cbn [c_sparse_loop repeat app c_enumerate_step pop_front e_items e_next].
      - unfold c_from_ordinal, cbind. cbn [one free outcome steps fst snd]. destruct (from_ordinal O i) as [[k|]| | | |]; cbn; try discriminate.
        destruct (uadd i 1); cbn; try discriminate. reflexivity.
      - unfold c_from_ordinal, cbind. cbn [one free outcome steps fst snd]. destruct (from_ordinal O i) as [[k|]| | | |]; cbn [one free outcome steps fst snd unwrap bind]; try discriminate.
        destruct (uadd i 1) as [j| | | |]; cbn [one free outcome steps fst snd unwrap bind]; try discriminate. intros E.
        specialize (IH _ _ _ _ E). rewrite IH. lia.
    Qed.
    Lemma s_is_empty_first (f : nat) (v : V) rest b : OrdinalMap_is_empty O (repeat None f ++ Some v :: rest) = Val b ->
      steps (c_OrdinalMap_is_empty O (repeat None f ++ Some v :: rest)) = 3 * (N.of_nat f + 1).
    Proof.
      rewrite <- e_OrdinalMap_is_empty. unfold c_OrdinalMap_is_empty. rewrite outcome_bind_pair.
      destruct (outcome (c_Iter_step O Front (OrdinalMap_iter (repeat None f ++ Some v :: rest)))) as [[o s']| | | |] eqn:E; try discriminate.
      intros _. rewrite (steps_val _ E). cbn [steps free fst]. apply sparse_first in E.
      rewrite N.add_0_r. exact E.
    Qed.
    Lemma sparse_none f : forall fuel i o (s' : enumerate (option V)),
      outcome (c_sparse_loop O (fun x : option V => Val x) Front fuel {| e_next := i; e_items := repeat None f |}) = Val (o, s') -> o = None.
    Proof.
      induction f as [|f IH]; intros fuel i o s'; (destruct fuel as [|fuel]; [discriminate|]); cbn [c_sparse_loop repeat c_enumerate_step pop_front e_items e_next].
      - cbn. intros E. injection E as <- _. reflexivity.
      - unfold c_from_ordinal, cbind. cbn [one free outcome steps fst snd]. destruct (from_ordinal O i) as [[k|]| | | |]; cbn [one free outcome steps fst snd unwrap bind]; try discriminate.
        destruct (uadd i 1) as [j| | | |]; cbn [one free outcome steps fst snd unwrap bind]; try discriminate. apply IH.
    Qed.
    Lemma s_is_empty_none (f : nat) b : OrdinalMap_is_empty O (repeat (@None V) f) = Val b ->
      steps (c_OrdinalMap_is_empty O (repeat (@None V) f)) = 3 * N.of_nat f + 1.
    Proof.
      rewrite <- e_OrdinalMap_is_empty. unfold c_OrdinalMap_is_empty. rewrite outcome_bind_pair.
      destruct (outcome (c_Iter_step O Front (OrdinalMap_iter (repeat (@None V) f)))) as [[o s']| | | |] eqn:E; try discriminate.
      intros _. rewrite (steps_val _ E). cbn [steps free fst].
      pose proof (sparse_none E) as Ho.
      destruct (proj2 (@s_Iter _ _ O V Front _) _ _ E) as (p & P1 & P2). subst o. destruct P2 as (P2 & P3). rewrite P2 in P1.
      cbn in P1. unfold llen in P1. rewrite repeat_length in P1. lia.
    Qed.
    Lemma s_clear m : steps (c_OrdinalMap_clear O m) <= 4 * llen m + 1 /\
      forall m', OrdinalMap_clear O m = Val m' -> steps (c_OrdinalMap_clear O m) = 4 * llen m + 1.
    Proof.
      rewrite <- e_OrdinalMap_clear. unfold c_OrdinalMap_clear, c_Drain_drop.
      assert (L : llen (e_items (snd (OrdinalMap_drain m))) = llen m).
      { unfold OrdinalMap_drain, llen, slots. cbn. now rewrite map_length, seq_length. }
      destruct (@s_collect _ _ _ _ 4 4 Front (@s_Drain _ _ O V) (S (length (e_items (snd (OrdinalMap_drain m))))) (OrdinalMap_drain m)) as (H1 & H2).
      rewrite L in *. destruct (c_collect (c_Drain_step O Front) _ (OrdinalMap_drain m)) as [n r]. unfold cbind, steps, outcome in *. cbn [fst snd] in *.
      destruct r as [[l s']| | | |]; cbn [fst snd free]; (split; [lia|]); intros m' X; try discriminate X.
      destruct (H2 _ _ eq_refl). lia.
    Qed.

    (** ** Programs *)
    Definition unpaid n m : N := if llen m =? 0 then n else 0.
    Lemma init_le m n : ORDINAL_SIZE O = Val n -> steps (c_OrdinalMap_init_full_map O m) <= unpaid n m.
    Proof. intros E. rewrite (s_init m E). unfold unpaid. destruct (llen m =? 0); lia. Qed.
    Lemma s_key_op (op : map_op K V) m n : ORDINAL_SIZE O = Val n -> takes_key op = true ->
      steps (c_heap_step O op m) <= (if allocates op then unpaid n m else 0) + 6.
    Proof.
      intros E T. pose proof (@init_le m n E) as I. destruct op; try discriminate T; cbn [c_heap_step allocates].
      - replace (unpaid n m + 6) with (unpaid n m + 3 + 3) by lia. apply steps_le; [now apply s_insert|]. intros [o m'] _. cbn; lia.
      - change (0 + 6) with (2 + 4). apply steps_le; [apply s_get|]. intros o _. cbn; lia.
      - change (0 + 6) with (2 + 4). apply steps_le; [apply s_get_mut|]. intros [i|] _; [|cbn; lia]. prim. bounded.
      - change (0 + 6) with (2 + 4). apply steps_le; [apply s_contains_key|]. intros o _. cbn; lia.
      - change (0 + 6) with (3 + 3). apply steps_le; [apply s_remove|]. intros [o m'] _. cbn; lia.
      - replace (unpaid n m + 6) with (unpaid n m + 2 + 4) by lia. apply steps_le; [now apply s_entry|]. intros [o m'] _. cbn; lia.
      - replace (unpaid n m + 6) with (unpaid n m + 2 + 4) by lia. apply steps_le; [now apply s_entry|]. intros [e m'] _.
        etransitivity; [apply s_entry_match|lia].
      - replace (unpaid n m + 6) with (unpaid n m + 2 + 4) by lia. apply steps_le; [now apply s_entry|]. intros [e m'] _. apply s_entry_or_insert.
    Qed.
    Lemma s_program n : ORDINAL_SIZE O = Val n -> forall (ops : list (map_op K V)) m, llen m = 0 \/ llen m = n ->
      forallb takes_key ops = true -> steps (c_heap_run O ops m) <= unpaid n m + 6 * llen ops.
    Proof.
      intros E. induction ops as [|op ops IH]; intros m Hm T; cbn [c_heap_run]; [cbn; lia|].
      cbn [forallb] in T. apply andb_prop in T. destruct T as (T1 & T2).
      pose proof (@s_key_op op m n E T1) as S1. pose proof (e_heap_step O op m) as E1. destruct (c_heap_step O op m) as [c r].
      unfold cbind, steps, outcome in *. cbn [fst snd] in *. assert (L : llen (op :: ops) = llen ops + 1) by (unfold llen; cbn [length]; lia). rewrite L.
      destruct r as [[o m']| | | |]; cbn [fst snd]; [|destruct (allocates op); lia..].
      assert (X : (llen m' = 0 \/ llen m' = n) /\ (if allocates op then unpaid n m else 0) + unpaid n m' <= unpaid n m).
      { destruct (allocates op) eqn:A.
        - rewrite (heap_step_alloc E Hm (eq_sym E1) A). split; [now right|]. unfold unpaid at 2. rewrite (heap_step_alloc E Hm (eq_sym E1) A).
          destruct (N.eqb_spec n 0); lia.
        - unfold unpaid. rewrite (llen_eq (heap_step_length A (eq_sym E1))). split; [exact Hm|lia]. }
      destruct X as (X1 & X2). specialize (IH m' X1 T2). destruct (c_heap_run O ops m') as [c2 r2]. cbn [fst snd] in *.
      destruct r2 as [[os m2]| | | |]; cbn [fst snd free]; lia.
    Qed.
    Lemma s_new_program n : ORDINAL_SIZE O = Val n -> forall (ops : list (map_op K V)),
      forallb takes_key ops = true -> steps (c_heap_run O ops OrdinalMap_new) <= n + 6 * llen ops.
    Proof. intros E ops T. exact (@s_program n E ops [] (or_introl eq_refl) T). Qed.
    (** Exact costs. *)
    Lemma s_first_insert n (k : K) (v : V) o m' : ORDINAL_SIZE O = Val n -> OrdinalMap_insert O [] k v = Val (o, m') ->
      steps (c_OrdinalMap_insert O [] k v) = n + 3.
    Proof.
      intros E. unfold OrdinalMap_insert, OrdinalMap_init_full_map, c_OrdinalMap_insert, c_OrdinalMap_init_full_map. rewrite E. prim. cbn [bind llen length N.of_nat N.eqb].
      unfold cbind. cbn [free one outcome steps fst snd bind]. destruct (ordinal O k) as [i| | | |]; cbn [bind]; try discriminate.
      cbn [free one outcome steps fst snd bind]. destruct (index (repeat None (N.to_nat n)) i) as [w| | | |]; cbn [bind]; try discriminate.
      intros _. cbn [free one outcome steps fst snd bind]. lia.
    Qed.
  End Map.

  (** ** The other maps *)
  Lemma s_total_get V (m : @OrdinalTotalMap V) k : steps (c_OrdinalTotalMap_get O m k) <= 2.
  Proof. unfold c_OrdinalTotalMap_get. prim. bounded. Qed.
  Lemma s_total_get_mut V (m : @OrdinalTotalMap V) k : steps (c_OrdinalTotalMap_get_mut O m k) <= 1.
  Proof. unfold c_OrdinalTotalMap_get_mut. prim. bounded. Qed.
  Lemma s_total_insert V (m : @OrdinalTotalMap V) k v : steps (c_OrdinalTotalMap_insert O m k v) <= 3.
  Proof. unfold c_OrdinalTotalMap_insert. prim. bounded. Qed.
  Lemma s_tarray_get V S (m : OrdinalTotalArrayMap S V) k : steps (c_OrdinalTotalArrayMap_get O m k) <= 2.
  Proof. unfold c_OrdinalTotalArrayMap_get. prim. bounded. Qed.
  Lemma s_tarray_get_mut V S (m : OrdinalTotalArrayMap S V) k : steps (c_OrdinalTotalArrayMap_get_mut O m k) <= 1.
  Proof. unfold c_OrdinalTotalArrayMap_get_mut. prim. bounded. Qed.
  Lemma s_tarray_insert V S (m : OrdinalTotalArrayMap S V) k v : steps (c_OrdinalTotalArrayMap_insert O m k v) <= 3.
  Proof. unfold c_OrdinalTotalArrayMap_insert. prim. bounded. Qed.
  Lemma s_array_get V S (m : @OrdinalArrayMap V S) k : steps (c_OrdinalArrayMap_get O m k) <= 2.
  Proof. apply s_tarray_get. Qed.
  Lemma s_array_get_mut V S (m : @OrdinalArrayMap V S) k : steps (c_OrdinalArrayMap_get_mut O m k) <= 2.
  Proof. unfold c_OrdinalArrayMap_get_mut. change 2 with (1 + 1). apply steps_le; [apply s_tarray_get_mut|]. intros. prim. bounded. Qed.
  Lemma s_array_contains_key V S (m : @OrdinalArrayMap V S) k : steps (c_OrdinalArrayMap_contains_key O m k) <= 2.
  Proof. unfold c_OrdinalArrayMap_contains_key. change 2 with (2 + 0). apply steps_le; [apply s_array_get|]. intros. bounded. Qed.
  Lemma s_array_insert V S (m : @OrdinalArrayMap V S) k v : steps (c_OrdinalArrayMap_insert O m k v) <= 3.
  Proof. unfold c_OrdinalArrayMap_insert. change 3 with (1 + 2). apply steps_le; [apply s_tarray_get_mut|]. intros. prim. bounded. Qed.
  Lemma s_array_remove V S (m : @OrdinalArrayMap V S) k : steps (c_OrdinalArrayMap_remove O m k) <= 3.
  Proof. unfold c_OrdinalArrayMap_remove. change 3 with (1 + 2). apply steps_le; [apply s_tarray_get_mut|]. intros. prim. bounded. Qed.
  Lemma s_array_entry V S (m : @OrdinalArrayMap V S) k : steps (c_OrdinalArrayMap_entry O m k) <= 2.
  Proof. unfold c_OrdinalArrayMap_entry, c_Entry_new. change 2 with (1 + 1). apply steps_le; [apply s_tarray_get_mut|]. intros. prim. bounded. Qed.

  (** ** Sets *)
  Lemma s_ref_contains r t : steps (c_OrdinalSetRef_contains O r t) <= 3.
  Proof. unfold c_OrdinalSetRef_contains. prim. bounded. Qed.
  Lemma s_mut_insert ws t : steps (c_OrdinalSetMut_insert O ws t) <= 7.
  Proof.
    unfold c_OrdinalSetMut_insert. change 7 with (0 + (3 + 4)). apply steps_le; [cbn; lia|]. intros r _.
    apply steps_le; [apply s_ref_contains|]. intros. prim. bounded.
  Qed.
  Lemma s_mut_insert_exact ws t p : OrdinalSetMut_insert O ws t = Val p -> steps (c_OrdinalSetMut_insert O ws t) = 7.
  Proof.
    rewrite <- e_OrdinalSetMut_insert. unfold c_OrdinalSetMut_insert, c_OrdinalSetRef_contains. prim. intros E.
    destruct (OrdinalSetRef_new O ws) as [r| | | |] eqn:En; try discriminate E.
    assert (Hr : r = ws).
    { unfold OrdinalSetRef_new in En. apply bind_inv in En. destruct En as (? & _ & En). apply bind_inv in En. destruct En as (? & _ & En). now injection En. }
    subst r. unfold cbind in *. cbn [free one outcome steps fst snd] in *.
    destruct (ordinal O t) as [i| | | |] eqn:Ei; try discriminate E. cbn [free one outcome steps fst snd] in *.
    destruct (udiv i 64) as [q| | | |] eqn:Eq; try discriminate E. cbn [free one outcome steps fst snd] in *. unfold slice_get, index in *.
    destruct (nth_error ws (N.to_nat q)) as [w|] eqn:Ew; cbn [free one outcome steps fst snd] in *.
    - destruct (urem i 64) as [a| | | |]; cbn [bind free one outcome steps fst snd] in *; try discriminate E.
      destruct (u64_shl 1 a) as [b| | | |]; cbn [bind free one outcome steps fst snd] in *; try discriminate E. reflexivity.
    - destruct (urem i 64) as [a| | | |]; cbn [bind free one outcome steps fst snd] in *; try discriminate E.
      destruct (u64_shl 1 a) as [b| | | |]; cbn [bind free one outcome steps fst snd] in *; discriminate E.
  Qed.
  Lemma s_set_contains s t : steps (c_OrdinalSet_contains O s t) <= 3.
  Proof. unfold c_OrdinalSet_contains. change 3 with (0 + 3). apply steps_le; [cbn; lia|]. intros. apply s_ref_contains. Qed.
  Lemma s_array_set_contains S (s : OrdinalArraySet S) t : steps (c_OrdinalArraySet_contains O s t) <= 3.
  Proof. unfold c_OrdinalArraySet_contains. change 3 with (0 + 3). apply steps_le; [cbn; lia|]. intros. apply s_ref_contains. Qed.
  Lemma s_array_set_insert S (s : OrdinalArraySet S) t : steps (c_OrdinalArraySet_insert O s t) <= 7.
  Proof.
    unfold c_OrdinalArraySet_insert. change 7 with (0 + (7 + 0)). apply steps_le; [cbn; lia|]. intros. apply steps_le; [apply s_mut_insert|].
    intros [b ws] _. cbn. lia.
  Qed.
  (** The words of a large set that is still to be allocated. *)
  Definition unpaid_words n (s : OrdinalSet) : N := match s with Large [] => (n + 63) / 64 | _ => 0 end.
  Lemma s_set_insert n s t : ORDINAL_SIZE O = Val n -> steps (c_OrdinalSet_insert O s t) <= unpaid_words n s + 7.
  Proof.
    intros E. unfold c_OrdinalSet_insert. rewrite <- (N.add_0_l (unpaid_words n s + 7)). apply steps_le; [cbn; lia|]. intros small _.
    assert (X : forall ws' (f : bool * list N -> res (bool * OrdinalSet)), steps (ws0 <~ free (OrdinalSetMut_new O ws') ;; p <~ c_OrdinalSetMut_insert O ws0 t ;; free (f p)) <= 7).
    { intros ws' f. change 7 with (0 + (7 + 0)). apply steps_le; [cbn; lia|]. intros. apply steps_le; [apply s_mut_insert|]. intros. cbn. lia. }
    destruct small, s as [w|ws]; try (cbn; lia).
    - cbn [unpaid_words]. rewrite N.add_0_l. specialize (X [w] (fun '(r, ws') => match ws' with [w'] => Val (r, Small w') | _ => UB end)).
      etransitivity; [|exact X]. apply N.eq_le_incl. unfold cbind. destruct (outcome (free (OrdinalSetMut_new O [w]))); try reflexivity.
      destruct (outcome (c_OrdinalSetMut_insert O a t)) as [[b l]| | | |]; reflexivity.
    - apply steps_le.
      + destruct ws as [|w ws]; cbn [llen length N.of_nat N.eqb unpaid_words]; [|cbn; lia]. rewrite E. cbn [bind]. unfold checked_add.
        destruct (N.leb_spec (n + 64) usize_max); cbn [unwrap bind]; [|cbn; lia]. rewrite usub_ok by lia. cbn [bind]. rewrite udiv_ok by lia.
        cbn. replace (n + 64 - 1) with (n + 63) by lia. lia.
      + intros ws' _. specialize (X ws' (fun '(r, ws') => Val (r, Large ws'))). etransitivity; [|exact X].
        apply N.eq_le_incl. unfold cbind. destruct (outcome (free (OrdinalSetMut_new O ws'))); try reflexivity.
        destruct (outcome (c_OrdinalSetMut_insert O a t)) as [[b l]| | | |]; reflexivity.
  Qed.
  Lemma s_set_first_insert n t p : ORDINAL_SIZE O = Val n -> OrdinalSet_insert O (Large []) t = Val p ->
    steps (c_OrdinalSet_insert O (Large []) t) = (n + 63) / 64 + 7.
  Proof.
    intros E. rewrite <- e_OrdinalSet_insert. unfold c_OrdinalSet_insert. intros X.
    destruct (IS_SMALL O) as [small| | | |]; try discriminate X. unfold cbind in *. cbn [free outcome steps fst snd] in *. destruct small; [discriminate X|].
    cbn [llen length N.of_nat N.eqb] in *. rewrite E in *. cbn [bind] in *. unfold checked_add in *.
    destruct (N.leb_spec (n + 64) usize_max); cbn [unwrap bind] in *; [|discriminate X]. rewrite usub_ok in * by lia. cbn [bind] in *. rewrite udiv_ok in * by lia.
    cbn [c_fill free outcome steps fst snd] in *. replace (n + 64 - 1) with (n + 63) in * by lia.
    destruct (OrdinalSetMut_new O (repeat 0 (N.to_nat ((n + 63) / 64)))) as [ws| | | |]; try discriminate X. cbn [free outcome steps fst snd] in *.
    pose proof (e_OrdinalSetMut_insert O ws t) as E1. pose proof (@s_mut_insert_exact ws t) as E2. destruct (c_OrdinalSetMut_insert O ws t) as [c r].
    cbn [free outcome steps fst snd] in *. destruct r as [[b ws']| | | |]; try discriminate X. rewrite (E2 _ (eq_sym E1)). cbn [free outcome steps fst snd]. lia.
  Qed.
  Lemma insert_paid n s t b s' : ORDINAL_SIZE O = Val n -> OrdinalSet_insert O s t = Val (b, s') -> unpaid_words n s' = 0.
  Proof.
    intros E. unfold OrdinalSet_insert. intros X. apply bind_inv in X. destruct X as (small & _ & X).
    destruct small, s as [w|ws]; try discriminate X; apply bind_inv in X; destruct X as (ws0 & _ & X).
    - apply bind_inv in X. destruct X as ([r ws'] & _ & X). destruct ws' as [|w' [|]]; try discriminate X. injection X as _ <-. reflexivity.
    - apply bind_inv in X. destruct X as (ws1 & _ & X). apply bind_inv in X. destruct X as ([r ws'] & X1 & X). injection X as _ <-.
      destruct ws' as [|w' ws']; [|reflexivity]. exfalso. unfold OrdinalSetMut_insert in X1.
      repeat (apply bind_inv in X1; destruct X1 as (? & ? & X1)).
      injection X1 as _ X1. unfold index in *. match goal with H : match nth_error ?l ?i with _ => _ end = _ |- _ => destruct (nth_error l i) eqn:En; [|discriminate H] end.
      assert (L : length (store_at ws1 x5 (N.lor x6 x3)) = 0%nat) by now rewrite X1.
      rewrite MapProofs5.store_at_length in L. destruct ws1; [destruct (N.to_nat x5); discriminate En|discriminate L].
  Qed.
  Lemma s_insert_all n : ORDINAL_SIZE O = Val n -> forall l s, steps (c_OrdinalSet_insert_all O l s) <= unpaid_words n s + 7 * llen l.
  Proof.
    intros E. induction l as [|t l IH]; intros s; cbn [c_OrdinalSet_insert_all]; [cbn; lia|].
    pose proof (@s_set_insert n s t E) as S1. pose proof (e_OrdinalSet_insert O s t) as E1. destruct (c_OrdinalSet_insert O s t) as [c r].
    unfold cbind, steps, outcome in *. cbn [fst snd] in *. assert (L : llen (t :: l) = llen l + 1) by (unfold llen; cbn [length]; lia). rewrite L.
    destruct r as [[b s']| | | |]; cbn [fst snd]; [|lia..]. specialize (IH s'). rewrite (insert_paid E (eq_sym E1)) in IH. lia.
  Qed.
  Lemma s_from_iter n : ORDINAL_SIZE O = Val n -> forall l, steps (c_OrdinalSet_from_iter O l) <= (if n <=? 64 then 0 else (n + 63) / 64) + 7 * llen l.
  Proof.
    intros E l. unfold c_OrdinalSet_from_iter, OrdinalSet_new, IS_SMALL. rewrite E. cbn [bind]. unfold cbind. cbn [free outcome snd steps fst].
    pose proof (@s_insert_all n E l (if n <=? 64 then Small 0 else Large [])) as S1. destruct (n <=? 64); cbn [unpaid_words] in S1; unfold steps in *; lia.
  Qed.

  (** Iterating a set looks at every value of the type. *)
  Lemma s_values : walks (c_values_step O) range_len 2 2.
  Proof.
    intros d s. unfold c_values_step. prim. unfold cbind. cbn [one outcome steps fst snd].
    assert (X : match (match d with Front => range_next s | Back => range_next_back s end) with
                | None => range_len s = 0
                | Some (i, s') => range_len s = range_len s' + 1
                end).
    { unfold range_next, range_next_back, range_len. destruct d; destruct (N.ltb_spec (r_start s) (r_end s)); cbn; lia. }
    destruct (match d with Front => range_next s | Back => range_next_back s end) as [[i s1]|]; cbn [one free outcome steps fst snd].
    - destruct (from_ordinal O i) as [[k|]| | | |]; cbn [one free outcome steps fst snd unwrap bind]; (split; [lia|]); intros o s' E; try discriminate E. injection E as <- <-. exists 1. lia.
    - split; [lia|]. intros o s' E. injection E as <- <-. exists 0. lia.
  Qed.
  Lemma s_values_one d s : steps (c_values_step O d s) <= 2.
  Proof. unfold c_values_step. prim. bounded. Qed.
  Lemma ref_contains_least r t b : OrdinalSetRef_contains O r t = Val b -> 2 <= steps (c_OrdinalSetRef_contains O r t).
  Proof.
    unfold OrdinalSetRef_contains, c_OrdinalSetRef_contains. prim. unfold cbind. cbn [one free outcome steps fst snd].
    destruct (ordinal O t); cbn [one free outcome steps fst snd bind]; try discriminate. destruct (udiv a 64); cbn [one free outcome steps fst snd bind]; try discriminate.
    intros _. lia.
  Qed.
  Lemma s_set_loop d set fuel : forall it, steps (c_set_loop O d set fuel it) <= 5 * range_len it + 1 /\
      forall o it', outcome (c_set_loop O d set fuel it) = Val (o, it') ->
      exists p, range_len it = range_len it' + p /\
        match o with
        | None => range_len it' = 0 /\ 4 * p + 1 <= steps (c_set_loop O d set fuel it) <= 5 * p + 1
        | Some _ => 1 <= p /\ 4 * p <= steps (c_set_loop O d set fuel it) <= 5 * p
        end.
  Proof.
    induction fuel as [|fuel IH]; intros it; cbn [c_set_loop]; [cbn; split; [lia|discriminate]|].
    destruct (s_values d it) as (H1 & H2). pose proof (@s_values_one d it) as H0. destruct (c_values_step O d it) as [n r]. unfold steps, outcome in *. cbn [fst snd] in *.
    destruct r as [[o it1]| | | |]; unfold cbind; cbn [outcome steps fst snd].
    2-5: split; [lia|intros o it' X; discriminate X].
    destruct (H2 _ _ eq_refl) as (p & P1 & P2). destruct o as [t|]; cbn [free outcome steps fst snd].
    - pose proof (@s_ref_contains set t) as C1. pose proof (@ref_contains_least set t) as C2. pose proof (e_OrdinalSetRef_contains O set t) as C3.
      destruct (c_OrdinalSetRef_contains O set t) as [c b]. unfold steps, outcome in *. cbn [fst snd] in *.
      assert (p = 1 \/ 2 <= p) as [->|Hp] by lia; [|exfalso; lia].
      destruct b as [[|]| | | |]; cbn [free fst snd].
      3-6: split; [lia|intros o it' X; discriminate X].
      + specialize (C2 _ (eq_sym C3)). split; [lia|]. intros o it' X. injection X as <- <-. exists 1. lia.
      + specialize (C2 _ (eq_sym C3)). destruct (IH it1) as (I1 & I2). split; [lia|]. intros o it' X. destruct (I2 _ _ X) as (p & Q1 & Q2).
        exists (p + 1). split; [lia|]. destruct o; lia.
    - split; [lia|]. intros o it' X. injection X as <- <-. exists p. lia.
  Qed.
  Lemma s_SetIter : walks (c_SetIter_step O) (fun s => range_len (si_iter s)) 4 5.
  Proof.
    intros d s. unfold c_SetIter_step. destruct (s_set_loop d (si_set s) (S (N.to_nat (range_len (si_iter s)))) (si_iter s)) as (H1 & H2).
    destruct (c_set_loop _ _ _ _ _) as [n r]. unfold cbind, steps, outcome in *. cbn [fst snd] in *.
    destruct r as [[o it]| | | |]; cbn [free fst snd]; (split; [lia|]); intros o' s' X; try discriminate X. injection X as <- <-.
    destruct (H2 _ _ eq_refl) as (p & P). exists p. cbn [si_iter]. destruct o; lia.
  Qed.

  (** ** OrdinalSet64 *)
  Lemma s_contains64 s t : steps (c_OrdinalSet64_contains O s t) <= 2.
  Proof. unfold c_OrdinalSet64_contains. prim. bounded. Qed.
  Lemma s_insert64 s t : steps (c_OrdinalSet64_insert O s t) <= 5.
  Proof.
    unfold c_OrdinalSet64_insert. change 5 with (0 + (2 + 3)). apply steps_le; [cbn; lia|]. intros _ _. apply steps_le; [apply s_contains64|].
    intros. prim. bounded.
  Qed.
  Lemma s_Iter64 d s : steps (c_Iter64_step O d s) <= 3.
  Proof. unfold c_Iter64_step. prim. destruct d; bounded. Qed.
End More.

(** ** The statements of PropCost.v *)
Section Final.
  Context {cfg : Config} {K : Type} (O : Ordinal K).

  Lemma map_keys_cost (V : Type) (m : @OrdinalMap V) :
    (forall k, outcome (c_OrdinalMap_get O m k) = OrdinalMap_get O m k /\ steps (c_OrdinalMap_get O m k) <= 2) /\
    (forall k, outcome (c_OrdinalMap_get_mut O m k) = OrdinalMap_get_mut O m k /\ steps (c_OrdinalMap_get_mut O m k) <= 2) /\
    (forall k, outcome (c_OrdinalMap_contains_key O m k) = OrdinalMap_contains_key O m k /\ steps (c_OrdinalMap_contains_key O m k) <= 2) /\
    (forall k, outcome (c_OrdinalMap_remove O m k) = OrdinalMap_remove O m k /\ steps (c_OrdinalMap_remove O m k) <= 3) /\
    (m <> [] -> forall k v, outcome (c_OrdinalMap_insert O m k v) = OrdinalMap_insert O m k v /\ steps (c_OrdinalMap_insert O m k v) <= 3) /\
    (m <> [] -> forall k, outcome (c_OrdinalMap_entry O m k) = OrdinalMap_entry O m k /\ steps (c_OrdinalMap_entry O m k) <= 2).
  Proof.
    assert (I : m <> [] -> steps (c_OrdinalMap_init_full_map O m) <= 0).
    { intros H. unfold c_OrdinalMap_init_full_map. replace (llen m =? 0) with false by (destruct m; [congruence|reflexivity]). bounded. }
    split; [|split; [|split; [|split; [|split]]]]; intros; (split; [|]).
    - apply e_OrdinalMap_get. - apply s_get. - apply e_OrdinalMap_get_mut. - apply s_get_mut. - apply e_OrdinalMap_contains_key. - apply s_contains_key.
    - apply e_OrdinalMap_remove. - apply s_remove. - apply e_OrdinalMap_insert. - change 3 with (0 + 3). now apply s_insert, I.
    - apply e_OrdinalMap_entry. - change 2 with (0 + 2). now apply s_entry, I.
  Qed.
  Lemma map_first_cost (V : Type) n : ORDINAL_SIZE O = Val n -> forall k : K,
    (forall (v : V), outcome (c_OrdinalMap_insert O [] k v) = OrdinalMap_insert O [] k v /\ steps (c_OrdinalMap_insert O [] k v) <= n + 3 /\
      forall o m, OrdinalMap_insert O [] k v = Val (o, m) -> steps (c_OrdinalMap_insert O [] k v) = n + 3) /\
    outcome (c_OrdinalMap_entry (V := V) O [] k) = OrdinalMap_entry O [] k /\ steps (c_OrdinalMap_entry (V := V) O [] k) <= n + 2.
  Proof.
    intros E k. assert (I : steps (c_OrdinalMap_init_full_map (V := V) O []) <= n) by (rewrite (s_init [] E); cbn; lia). split.
    - intros v. split; [apply e_OrdinalMap_insert|]. split; [now apply s_insert|]. intros o m. now apply s_first_insert.
    - split; [apply e_OrdinalMap_entry|now apply s_entry].
  Qed.
  (** A call that panics has paid for the steps before. *)
  Lemma map_panic_cost (V : Type) n : ORDINAL_SIZE O = Val n -> forall (k : K) (v : V) (m : @OrdinalMap V),
    (forall w, ordinal O k = Panic w ->
      c_OrdinalMap_get O m k = (1, Panic w) /\ c_OrdinalMap_remove O m k = (1, Panic w) /\
      c_OrdinalMap_insert O m k v = (if llen m =? 0 then n + 1 else 1, Panic w) /\
      c_OrdinalMap_entry O m k = (if llen m =? 0 then n + 1 else 1, Panic w)) /\
    (forall i, ordinal O k = Val i -> n <= i -> llen m = n \/ llen m = 0 ->
      c_OrdinalMap_insert O m k v = (if llen m =? 0 then n + 2 else 2, Panic PIndex)).
  Proof.
    intros E k v m. split.
    - intros w Hw. unfold c_OrdinalMap_get, c_OrdinalMap_remove, c_OrdinalMap_insert, c_OrdinalMap_entry, c_OrdinalMap_init_full_map,
        c_ordinal. rewrite E, Hw. repeat split; destruct (llen m =? 0); reflexivity.
    - intros i Hi Hlt Hm. unfold c_OrdinalMap_insert, c_OrdinalMap_init_full_map, c_ordinal. rewrite E, Hi.
      assert (H : forall l : list (option V), llen l <= n -> index l i = Panic PIndex).
      { intros l Hl. unfold index. replace (nth_error l (N.to_nat i)) with (@None (option V)); [reflexivity|].
        symmetry. apply nth_error_None. unfold llen in Hl. lia. }
      destruct (llen m =? 0) eqn:E0; cbn; unfold c_index; rewrite H; try reflexivity.
      + unfold llen. rewrite repeat_length. lia.
      + lia.
  Qed.
  Lemma map_program_cost (V : Type) n : ORDINAL_SIZE O = Val n -> forall ops : list (map_op K V),
    outcome (c_heap_run O ops OrdinalMap_new) = heap_run O ops OrdinalMap_new /\
    (forallb takes_key ops = true -> steps (c_heap_run O ops OrdinalMap_new) <= n + 6 * llen ops).
  Proof. intros E ops. split; [apply e_heap_run|]. now apply s_new_program. Qed.
  Lemma map_entry_cost (V : Type) (m : @OrdinalMap V) (e : Entry K) (v : V) :
    outcome (c_Entry_or_insert m e v) = Entry_or_insert m e v /\ steps (c_Entry_or_insert m e v) <= 2 /\
    match e with
    | Occupied e => outcome (c_OccupiedEntry_get m e) = OccupiedEntry_get m e /\ steps (c_OccupiedEntry_get m e) <= 1 /\
        outcome (c_OccupiedEntry_get_mut m e) = OccupiedEntry_get_mut m e /\ steps (c_OccupiedEntry_get_mut m e) <= 1
    | Vacant e => outcome (c_VacantEntry_insert m e v) = VacantEntry_insert m e v /\ steps (c_VacantEntry_insert m e v) <= 2
    end.
  Proof.
    split; [apply e_Entry_or_insert|]. split; [apply s_Entry_or_insert|]. destruct e as [e|e].
    - split; [apply e_OccupiedEntry_get|]. split; [unfold c_OccupiedEntry_get; prim; bounded|]. split; [apply e_OccupiedEntry_get_mut|].
      unfold c_OccupiedEntry_get_mut; prim; bounded.
    - split; [apply e_VacantEntry_insert|]. unfold c_VacantEntry_insert; prim; bounded.
  Qed.
  Lemma map_len_cost (V : Type) (m : @OrdinalMap V) :
    outcome (c_OrdinalMap_len O m) = OrdinalMap_len O m /\ steps (c_OrdinalMap_len O m) <= 3 * llen m + 1 /\
    forall r, OrdinalMap_len O m = Val r -> steps (c_OrdinalMap_len O m) = 3 * llen m + 1.
  Proof. split; [apply e_OrdinalMap_len|apply s_len]. Qed.
  Lemma map_is_empty_cost (V : Type) (m : @OrdinalMap V) :
    outcome (c_OrdinalMap_is_empty O m) = OrdinalMap_is_empty O m /\ steps (c_OrdinalMap_is_empty O m) <= 3 * llen m + 1 /\
    forall b, OrdinalMap_is_empty O m = Val b -> forall (f : nat),
      (forall v rest, m = repeat None f ++ Some v :: rest -> steps (c_OrdinalMap_is_empty O m) = 3 * (N.of_nat f + 1)) /\
      (m = repeat None f -> steps (c_OrdinalMap_is_empty O m) = 3 * N.of_nat f + 1).
  Proof.
    split; [apply e_OrdinalMap_is_empty|]. split; [apply s_is_empty|]. intros b E f. split.
    - intros v rest ->. now apply (@s_is_empty_first _ _ O V f v rest b).
    - intros ->. now apply (@s_is_empty_none _ _ O V f b).
  Qed.
  Lemma map_clear_cost (V : Type) (m : @OrdinalMap V) :
    outcome (c_OrdinalMap_clear O m) = OrdinalMap_clear O m /\ steps (c_OrdinalMap_clear O m) <= 4 * llen m + 1 /\
    forall m', OrdinalMap_clear O m = Val m' -> steps (c_OrdinalMap_clear O m) = 4 * llen m + 1.
  Proof. split; [apply e_OrdinalMap_clear|apply s_clear]. Qed.
  Lemma array_len_cost (V : Type) (S : nat) (m : @OrdinalArrayMap V S) :
    outcome (c_OrdinalArrayMap_len O m) = OrdinalArrayMap_len O m /\ steps (c_OrdinalArrayMap_len O m) <= 3 * N.of_nat S + 1 /\
    (forall r, OrdinalArrayMap_len O m = Val r -> steps (c_OrdinalArrayMap_len O m) = 3 * N.of_nat S + 1) /\
    outcome (c_OrdinalArrayMap_is_empty O m) = OrdinalArrayMap_is_empty O m /\ steps (c_OrdinalArrayMap_is_empty O m) <= 3 * N.of_nat S + 1.
  Proof.
    split; [apply e_OrdinalArrayMap_len|]. destruct (s_array_len O m) as (H1 & H2). split; [exact H1|]. split; [exact H2|].
    split; [apply e_OrdinalArrayMap_is_empty|]. unfold c_OrdinalArrayMap_is_empty.
    replace (3 * N.of_nat S + 1) with ((3 * llen (e_items (OrdinalArrayMap_iter m)) + 1) + 0).
    - apply steps_le; [apply (@s_Iter _ _ O V Front (OrdinalArrayMap_iter m))|]. intros [o s'] _. cbn. lia.
    - unfold llen, OrdinalArrayMap_iter. cbn. rewrite arr_length. lia.
  Qed.
  Lemma array_keys_cost (V : Type) (S : nat) (m : @OrdinalArrayMap V S) (k : K) :
    outcome (c_OrdinalArrayMap_get O m k) = OrdinalArrayMap_get O m k /\ steps (c_OrdinalArrayMap_get O m k) <= 2 /\
    outcome (c_OrdinalArrayMap_get_mut O m k) = OrdinalArrayMap_get_mut O m k /\ steps (c_OrdinalArrayMap_get_mut O m k) <= 2 /\
    outcome (c_OrdinalArrayMap_contains_key O m k) = OrdinalArrayMap_contains_key O m k /\ steps (c_OrdinalArrayMap_contains_key O m k) <= 2 /\
    outcome (c_OrdinalArrayMap_remove O m k) = OrdinalArrayMap_remove O m k /\ steps (c_OrdinalArrayMap_remove O m k) <= 3 /\
    outcome (c_OrdinalArrayMap_entry O m k) = OrdinalArrayMap_entry O m k /\ steps (c_OrdinalArrayMap_entry O m k) <= 2 /\
    forall v, outcome (c_OrdinalArrayMap_insert O m k v) = OrdinalArrayMap_insert O m k v /\ steps (c_OrdinalArrayMap_insert O m k v) <= 3.
  Proof.
    split; [apply e_OrdinalArrayMap_get|]. split; [apply s_array_get|]. split; [apply e_OrdinalArrayMap_get_mut|]. split; [apply s_array_get_mut|].
    split; [apply e_OrdinalArrayMap_contains_key|]. split; [apply s_array_contains_key|]. split; [apply e_OrdinalArrayMap_remove|]. split; [apply s_array_remove|].
    split; [apply e_OrdinalArrayMap_entry|]. split; [apply s_array_entry|]. intros v. split; [apply e_OrdinalArrayMap_insert|apply s_array_insert].
  Qed.
  Lemma total_keys_cost (V : Type) (m : @OrdinalTotalMap V) (S : nat) (a : OrdinalTotalArrayMap S V) (k : K) :
    outcome (c_OrdinalTotalMap_get O m k) = OrdinalTotalMap_get O m k /\ steps (c_OrdinalTotalMap_get O m k) <= 2 /\
    outcome (c_OrdinalTotalMap_get_mut O m k) = OrdinalTotalMap_get_mut O m k /\ steps (c_OrdinalTotalMap_get_mut O m k) <= 1 /\
    outcome (c_OrdinalTotalArrayMap_get O a k) = OrdinalTotalArrayMap_get O a k /\ steps (c_OrdinalTotalArrayMap_get O a k) <= 2 /\
    outcome (c_OrdinalTotalArrayMap_get_mut O a k) = OrdinalTotalArrayMap_get_mut O a k /\ steps (c_OrdinalTotalArrayMap_get_mut O a k) <= 1 /\
    forall v, outcome (c_OrdinalTotalMap_insert O m k v) = OrdinalTotalMap_insert O m k v /\ steps (c_OrdinalTotalMap_insert O m k v) <= 3 /\
      outcome (c_OrdinalTotalArrayMap_insert O a k v) = OrdinalTotalArrayMap_insert O a k v /\ steps (c_OrdinalTotalArrayMap_insert O a k v) <= 3.
  Proof.
    split; [apply e_OrdinalTotalMap_get|]. split; [apply s_total_get|]. split; [apply e_OrdinalTotalMap_get_mut|]. split; [apply s_total_get_mut|].
    split; [apply e_OrdinalTotalArrayMap_get|]. split; [apply s_tarray_get|]. split; [apply e_OrdinalTotalArrayMap_get_mut|]. split; [apply s_tarray_get_mut|].
    intros v. split; [apply e_OrdinalTotalMap_insert|]. split; [apply s_total_insert|]. split; [apply e_OrdinalTotalArrayMap_insert|apply s_tarray_insert].
  Qed.

  Lemma iterators_cost (V : Type) :
    (forall d (s : enumerate V), outcome (c_enumerate_step O d s) = enumerate_step O d s) /\
    walks (fun d (s : enumerate V) => c_enumerate_step O d s) (fun s => llen (e_items s)) 2 2 /\
    (forall d (s : @Iter V), outcome (c_Iter_step O d s) = Iter_step O d s /\ outcome (c_Iter_step O d s) = IntoIter_step O d s /\
      outcome (c_Iter_step O d s) = IntoIterArray_step O d s) /\
    walks (@c_Iter_step cfg K O V) (fun s => llen (e_items s)) 3 3 /\
    (forall d (s : @Keys V), outcome (c_Keys_step O d s) = Keys_step O d s) /\
    walks (@c_Keys_step cfg K O V) (fun s => llen (e_items s)) 3 3 /\
    (forall d (s : @Values V), outcome (c_Values_step O d s) = Values_step O d s) /\
    walks (@c_Values_step cfg K O V) (fun s => llen (e_items s)) 3 3 /\
    (forall (st : list (option V)) d s, outcome (c_IterMut_step O st d s) = IterMut_step O st d s) /\
    (forall st : list (option V), walks (c_IterMut_step O st) (fun s => llen (e_items s)) 3 3) /\
    (forall (st : list (option V)) d s, outcome (c_ValuesMut_step O st d s) = ValuesMut_step O st d s) /\
    (forall st : list (option V), walks (c_ValuesMut_step O st) (fun s => llen (e_items s)) 3 3) /\
    (forall d (s : @Drain V), outcome (c_Drain_step O d s) = Drain_step O d s) /\
    walks (@c_Drain_step cfg K O V) (fun s => llen (e_items (snd s))) 4 4.
  Proof.
    split; [intros; apply e_enumerate|]. split; [apply s_total|]. split; [intros d s; split; [|split]; apply e_Iter_step|]. split; [apply s_Iter|].
    split; [intros; apply e_Keys_step|]. split; [apply s_Keys|]. split; [intros; apply e_Values_step|]. split; [apply s_Values|].
    split; [intros; apply e_IterMut_step|]. split; [intros; apply s_IterMut|]. split; [intros; apply e_ValuesMut_step|]. split; [intros; apply s_ValuesMut|].
    split; [intros; apply e_Drain_loop|apply s_Drain].
  Qed.

  Lemma sets_cost :
    (forall s t, outcome (c_OrdinalSet_contains O s t) = OrdinalSet_contains O s t /\ steps (c_OrdinalSet_contains O s t) <= 3) /\
    (forall s t, outcome (c_OrdinalSet_insert O s t) = OrdinalSet_insert O s t /\ (s <> Large [] -> steps (c_OrdinalSet_insert O s t) <= 7)) /\
    (forall S (s : OrdinalArraySet S) t, outcome (c_OrdinalArraySet_contains O s t) = OrdinalArraySet_contains O s t /\ steps (c_OrdinalArraySet_contains O s t) <= 3) /\
    (forall S (s : OrdinalArraySet S) t, outcome (c_OrdinalArraySet_insert O s t) = OrdinalArraySet_insert O s t /\ steps (c_OrdinalArraySet_insert O s t) <= 7) /\
    (forall s t, outcome (c_OrdinalSet64_contains O s t) = OrdinalSet64_contains O s t /\ steps (c_OrdinalSet64_contains O s t) <= 2) /\
    (forall s t, outcome (c_OrdinalSet64_insert O s t) = OrdinalSet64_insert O s t /\ steps (c_OrdinalSet64_insert O s t) <= 5) /\
    (forall d s, outcome (c_Iter64_step O d s) = Iter64_step O d s /\ steps (c_Iter64_step O d s) <= 3).
  Proof.
    split; [intros; split; [apply e_OrdinalSet_contains|apply s_set_contains]|].
    split.
    { intros s t. split; [apply e_OrdinalSet_insert|]. intros Hs.
      destruct (ORDINAL_SIZE O) as [n| | | |] eqn:E.
      - pose proof (@s_set_insert _ _ O n s t E) as S1. destruct s as [w|[|w ws]]; cbn [unpaid_words] in S1; [exact S1|congruence|exact S1].
      - unfold c_OrdinalSet_insert, IS_SMALL. rewrite E. cbn. lia.
      - unfold c_OrdinalSet_insert, IS_SMALL. rewrite E. cbn. lia.
      - unfold c_OrdinalSet_insert, IS_SMALL. rewrite E. cbn. lia.
      - unfold c_OrdinalSet_insert, IS_SMALL. rewrite E. cbn. lia. }
    split; [intros; split; [apply e_OrdinalArraySet_contains|apply s_array_set_contains]|].
    split; [intros; split; [apply e_OrdinalArraySet_insert|apply s_array_set_insert]|].
    split; [intros; split; [apply e_OrdinalSet64_contains|apply s_contains64]|].
    split; [intros; split; [apply e_OrdinalSet64_insert|apply s_insert64]|].
    intros; split; [apply e_Iter64_step|apply s_Iter64].
  Qed.
  Lemma set_first_cost n t : ORDINAL_SIZE O = Val n -> steps (c_OrdinalSet_insert O (Large []) t) <= (n + 63) / 64 + 7 /\
    forall p, OrdinalSet_insert O (Large []) t = Val p -> steps (c_OrdinalSet_insert O (Large []) t) = (n + 63) / 64 + 7.
  Proof. intros E. split; [exact (@s_set_insert _ _ O n (Large []) t E)|]. intros p. now apply s_set_first_insert. Qed.
  Lemma set_from_iter_cost n : ORDINAL_SIZE O = Val n -> forall l,
    outcome (c_OrdinalSet_from_iter O l) = OrdinalSet_from_iter O l /\
    steps (c_OrdinalSet_from_iter O l) <= (if n <=? 64 then 0 else (n + 63) / 64) + 7 * llen l.
  Proof. intros E l. split; [apply e_OrdinalSet_from_iter|now apply s_from_iter]. Qed.
  Lemma set_iter_cost :
    (forall d s, outcome (c_SetIter_step O d s) = SetIter_step O d s) /\ walks (c_SetIter_step O) (fun s => range_len (si_iter s)) 4 5.
  Proof. split; [intros; apply e_SetIter_step|apply s_SetIter]. Qed.

  Lemma collect_some St A (cstep : dir -> St -> counted (option A * St)) step (s : St) l :
    (forall d s, outcome (cstep d s) = step d s) -> collects step s l ->
    exists fuel s', outcome (c_collect (cstep Front) fuel s) = Val (l, s').
  Proof. intros H (fuel & s' & E). exists fuel, s'. rewrite (@e_collect _ _ _ (step Front)); [exact E|]. intros. apply H. Qed.
  Lemma set_walk_cost n (s : OrdinalSet) l it : ordinal_bijection O n -> 1 <= n \/ debug_assertions = false -> set_reachable O s -> lists_members O (OrdinalSet_contains O s) l ->
    OrdinalSet_iter O s = Val it ->
    (exists fuel it', outcome (c_collect (c_SetIter_step O Front) fuel it) = Val (l, it')) /\
    forall fuel got it', outcome (c_collect (c_SetIter_step O Front) fuel it) = Val (got, it') ->
      4 * n + 1 <= steps (c_collect (c_SetIter_step O Front) fuel it) <= 5 * n + 1.
  Proof.
    intros HO H Hs Hl E.
    assert (Hn : range_len (si_iter it) = n).
    { unfold OrdinalSet_iter in E. apply bind_inv in E. destruct E as (r & _ & E). unfold OrdinalSetRef_iter, SetIter_new, values_new in E.
      rewrite (bij_size HO) in E. injection E as <-. unfold range_len. cbn. lia. }
    split.
    - destruct (set_iteration HO H Hs Hl) as (it' & E' & Hc & _). rewrite E in E'. injection E' as <-.
      apply (collect_some (cstep := c_SetIter_step O) (step := SetIter_step O)); [intros; apply e_SetIter_step|exact Hc].
    - intros fuel got it' X. destruct (@s_collect _ _ (c_SetIter_step O) _ 4 5 Front (s_SetIter O) fuel it) as (_ & H2). destruct (H2 _ _ X) as (H3 & _).
      rewrite Hn in H3. exact H3.
  Qed.
End Final.

(** ** Sets of [[bool; len]] *)
Lemma bools_cost (cfg : Config) (len : nat) : (6 < len)%nat -> 2 ^ N.of_nat len <= usize_max - 64 ->
  exists s, OrdinalSet_new (Ordinal_array Ordinal_bool len) = Val s /\
    (forall t, (exists p, OrdinalSet_insert (Ordinal_array Ordinal_bool len) s t = Val p) /\
      steps (c_OrdinalSet_insert (Ordinal_array Ordinal_bool len) s t) = 2 ^ (N.of_nat len - 6) + 7) /\
    exists it, OrdinalSet_iter (Ordinal_array Ordinal_bool len) s = Val it /\
      (exists fuel it', outcome (c_collect (c_SetIter_step (Ordinal_array Ordinal_bool len) Front) fuel it) = Val ([], it')) /\
      forall fuel got it', outcome (c_collect (c_SetIter_step (Ordinal_array Ordinal_bool len) Front) fuel it) = Val (got, it') ->
        4 * 2 ^ N.of_nat len + 1 <= steps (c_collect (c_SetIter_step (Ordinal_array Ordinal_bool len) Front) fuel it).
Proof.
  intros Hlen Hmax. set (O := Ordinal_array Ordinal_bool len).
  assert (HO : ordinal_bijection O (2 ^ N.of_nat len)).
  { apply (array_bijection len (proj1 bool_lawful)). unfold npow. lia. }
  assert (Hp : 2 ^ N.of_nat len = 64 * 2 ^ (N.of_nat len - 6)).
  { replace (N.of_nat len) with (6 + (N.of_nat len - 6)) at 1 by lia. rewrite N.pow_add_r. reflexivity. }
  assert (H64 : 64 < 2 ^ N.of_nat len).
  { change 64 with (2 ^ 6). apply N.pow_lt_mono_r; lia. }
  destruct (set_new_law HO) as (s & E & H).
  assert (Hs : s = Large []).
  { unfold OrdinalSet_new, IS_SMALL in E. rewrite (bij_size HO) in E. cbn [bind] in E. destruct (N.leb_spec (2 ^ N.of_nat len) 64); [lia|]. now injection E. }
  assert (Hr : set_reachable O s) by (exists s, [], []; split; [exact E|reflexivity]).
  exists s. split; [exact E|]. split.
  - intros t. destruct (insert_total HO t Hmax Hr) as (b & s' & Ei). split; [eauto|].
    subst s. rewrite (s_set_first_insert (bij_size HO) Ei). f_equal. rewrite Hp.
    symmetry. apply (N.div_unique _ _ _ 63); lia.
  - assert (Hl : lists_members O (OrdinalSet_contains O s) []).
    { split; [|constructor]. intros t. rewrite (set_contains_law HO t H). cbn. split; [contradiction|discriminate]. }
    assert (H1 : 1 <= 2 ^ N.of_nat len \/ debug_assertions = false) by (left; lia).
    destruct (set_iteration HO H1 Hr Hl) as (it & E' & _ & _). exists it. split; [exact E'|].
    destruct (set_walk_cost HO H1 Hr Hl E') as (W1 & W2). split; [exact W1|]. intros fuel got it' X. apply (W2 _ _ _ X).
Qed.
