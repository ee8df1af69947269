(** * KeyMakeProofs: lemmas for C115. *)
From Verif Require Import Base Spec SpecIter SpecMap SpecTotal SpecCatch SpecResume SpecDrop SpecLifeRun SpecLifeEnds SpecKeyMake ModelOrdinal ModelValues ModelArrayBuilder
  ModelIter ModelTotal ModelMap ModelResume ModelUnwind ModelDrop MapMachine TotalMachine ModelCatch ModelLife ModelKeyMake
  OrdinalProofs BaseProofs IterLib ValuesProofs IterProofs MapIterProofs MapLib ArrayProofs MapMutProofs MapProofs MapProofs2 MapProofs5 TotalProofs TotalProofs3 ResumeProofs UnwindProofs2 DropProofs
  CatchProofs CatchProofs2 LedgerProofs2 LifeProofs4 LifeProofs5 LifeProofs6 LifeProofs7.
From Coq Require Import List. Import ListNotations.
Set Implicit Arguments. Unset Strict Implicit.

Section Gives.
  Context {T : Type} (boom : list T -> T -> option panic).
  (** [ts] are destroyed while [p] unwinds the stack. *)
  Definition gives {M A} (p : panic) (log : list T) (m : M) (ts : list T) : (list T * M) * ending A :=
    ((fst (@lost T boom A p log ts), m), ends_as (snd (@lost T boom A p log ts))).
  Lemma gives_app M A B p log (m : M) ts us :
    @gives M A p log m (ts ++ us) = match @gives M B p log m ts with
      | ((log', m'), Unwinds _) => gives p log' m' us
      | (s', _) => (s', Aborts)
      end.
  Proof.
    unfold gives. rewrite !lost_end, !lost_log, destroyed_app. destruct (@still T M boom p ts log m) as [Q|Q];
      destruct (destroyed_all boom (Some p) log ts) as [l1 x1]; cbn [fst snd] in *; subst x1; cbn [ends_as].
    - unfold gives. rewrite ?lost_end, ?lost_log. reflexivity.
    - reflexivity.
  Qed.
  Lemma gives_cases M A p log (m : M) ts : exists log', @gives M A p log m ts = ((log', m), Unwinds p) \/ @gives M A p log m ts = ((log', m), Aborts).
  Proof. unfold gives. rewrite lost_end. eexists. destruct (snd _); [left|right]; reflexivity. Qed.
  Lemma bind_gives M A B p log0 m0 log (m : M) ts (x : act (list T * M) A) (k : A -> act (list T * M) B) :
    x (log0, m0) = gives p log m ts -> abind x k (log0, m0) = gives p log m ts.
  Proof.
    intros E. unfold abind. rewrite E. unfold gives. rewrite !lost_end, !lost_log. destruct (snd _); reflexivity.
  Qed.
  Lemma glue_gives M A p log (m : M) ts : @unwinding _ A p (glue_unwinding boom ts) (log, m) = gives p log m ts.
  Proof.
    unfold unwinding, gives. destruct (@glue_unwinding_is T M boom p ts log m) as [-> _]. rewrite lost_log, lost_end.
    destruct (snd _); reflexivity.
  Qed.
  Lemma owning_gives M A p log0 m0 log (m : M) ts us (x : act (list T * M) A) : x (log0, m0) = gives p log m ts ->
    owning boom us x (log0, m0) = gives p log m (ts ++ us).
  Proof. intros E. apply owning_twice. exact E. Qed.
  Lemma up_to_is p ts : forall log,
    destroyed_all boom (Some p) log ts = (fst (up_to_panic boom log ts), match snd (up_to_panic boom log ts) with None => Some (Some p) | Some _ => None end).
  Proof.
    induction ts as [|t ts IH]; intros log; cbn [destroyed_all up_to_panic]; [reflexivity|]. destruct (boom log t); [reflexivity|apply IH].
  Qed.
  (** The specification. *)
  Lemma given_is M A p log (m : M) ts : (let '(s, x) := @given_up T M boom A p (log, m) ts in (s, ends_as x)) = gives p log m ts.
  Proof. unfold given_up, gives. cbn [fst snd]. destruct (lost boom p log ts); reflexivity. Qed.
End Gives.

Section Builder.
  Context {T : Type} (boom : list T -> T -> option panic) {W : Type} (made : W -> option T) (S : nat).
  Lemma things_parts ws : things made ws = parts made ws.
  Proof. reflexivity. Qed.
  Lemma builder_cells_end vs : forall (pre post : list (option W)) log,
    (let '(log', _, r) := builder_drop_loop_with (element_destructor boom made) (pre ++ map Some vs ++ post) (length vs) (length pre) log in (log', r)) =
    (fst (up_to_panic boom log (parts made vs)), match snd (up_to_panic boom log (parts made vs)) with None => Val tt | Some w => Panic w end).
  Proof.
    induction vs as [|v vs IH]; intros pre post log; cbn [length builder_drop_loop_with map app parts flat_map]; [reflexivity|].
    rewrite nth_mid, list_set_mid. unfold element_destructor at 1.
    assert (IH' : forall log, (let '(log', _, r) := builder_drop_loop_with (element_destructor boom made) (pre ++ None :: map Some vs ++ post) (length vs)
        (Datatypes.S (length pre)) log in (log', r)) =
      (fst (up_to_panic boom log (parts made vs)), match snd (up_to_panic boom log (parts made vs)) with None => Val tt | Some w => Panic w end)).
    { intros log1. replace (pre ++ None :: map Some vs ++ post) with ((pre ++ [None]) ++ map Some vs ++ post) by now rewrite <- app_assoc.
      replace (Datatypes.S (length pre)) with (length (pre ++ [@None W])) by (rewrite app_length; cbn; lia). apply IH. }
    destruct (made v) as [t|]; [|apply IH']. cbn [app up_to_panic]. unfold destructor. destruct (boom log t) as [w|]; [reflexivity|apply IH'].
  Qed.
  Lemma builder_end_is {M} vs log (m : M) : builder_end boom made (builder_of S vs) (log, m) =
    ((fst (up_to_panic boom log (parts made vs)), m), match snd (up_to_panic boom log (parts made vs)) with None => Ended tt | Some w => Unwinds w end).
  Proof.
    unfold builder_end, builder_drop_with, builder_of. cbn [b_cells b_filled].
    pose proof (@builder_cells_end vs [] (repeat None (S - length vs)) log) as X. cbn [app length] in X.
    destruct (builder_drop_loop_with _ _ _ _ _) as [[log1 cells] r]. injection X as -> ->. destruct (snd _); reflexivity.
  Qed.
  Lemma builder_gives M A p log (m : M) ws : @unwinding _ A p (builder_end boom made (builder_of S ws)) (log, m) = gives boom p log m (parts made ws).
  Proof.
    unfold unwinding, gives. rewrite builder_end_is, lost_log, lost_end, (up_to_is boom p). cbn [fst snd]. destruct (snd _); reflexivity.
  Qed.
  Lemma building_gives M A p log0 m0 log (m : M) ts ws (x : act (list T * M) A) : x (log0, m0) = gives boom p log m ts ->
    building boom made (builder_of S ws) x (log0, m0) = gives boom p log m (ts ++ parts made ws).
  Proof.
    intros E. unfold building. rewrite E, (gives_app boom A A). destruct (gives_cases boom A p log m ts) as (log' & [-> | ->]); [|reflexivity]. apply builder_gives.
  Qed.
  Lemma building_ended M A s s' (a : A) b (x : act (list T * M) A) : x s = (s', Ended a) -> building boom made b x s = (s', Ended a).
  Proof. intros E. unfold building. now rewrite E. Qed.
  Lemma building_aborts M A s s' b (x : act (list T * M) A) : x s = (s', Aborts) -> building boom made b x s = (s', Aborts).
  Proof. intros E. unfold building. now rewrite E. Qed.
  Lemma push_is M ws w s : (length ws < S)%nat -> push_owned boom made S (M := M) (builder_of S ws) w s = (s, Ended (builder_of S (ws ++ [w]))).
  Proof. intros H. unfold push_owned. destruct s. apply owning_ended. unfold look. now rewrite push_ok. Qed.
  Lemma finish_is M ws s : length ws = S -> exists a, finish_owned boom made S (M := M) (builder_of S ws) s = (s, Ended a) /\ arr_list a = ws.
  Proof.
    intros Hl. unfold finish_owned. replace (b_filled (builder_of S ws)) with S by (symmetry; exact Hl). rewrite Nat.eqb_refl. cbn [negb].
    assert (X : all_init (b_cells (builder_of S ws)) = Some ws).
    { unfold builder_of. cbn [b_cells]. rewrite Hl, Nat.sub_diag. cbn [repeat]. rewrite app_nil_r. apply all_init_map. }
    rewrite X. destruct (try_arr_ok ws Hl) as (a & -> & Ha). eauto.
  Qed.
  Definition listed (e : ending (arr W S)) : ending (list W) :=
    match e with Ended a => Ended (arr_list a) | Unwinds w => Unwinds w | Aborts => Aborts | Stuck => Stuck end.
  Lemma listed_gives M p log (m : M) ts : exists e, gives boom p log m ts = (fst (@gives T boom M (list W) p log m ts), e) /\
    listed e = snd (@gives T boom M (list W) p log m ts).
  Proof. unfold gives. rewrite !lost_end, !lost_log. eexists. split; [reflexivity|]. destruct (snd _); reflexivity. Qed.
End Builder.

(** ** map *)
Section Map.
  Context {cfg : Config} {T St : Type} (boom : list T -> T -> option panic) {K V W : Type} (val : V -> T) (made : W -> option T) (S : nat).
  Context (O : Ordinal K) (HA : answers_all O) (f : K -> V -> calls (T := T) (St := St) W).
  Context (g : K -> V -> act (list T * St) W) (Hg : forall k v s, g k v s = client (f k v) s).
  Notation next := (map_next boom val O g).
  Notation left := (fun it : enumerate V => map val (e_items it)).

  Lemma holding_gives A p log0 m0 log (m : enumerate V * St) ts (x : act (list T * (enumerate V * St)) A) : x (log0, m0) = gives boom p log m ts ->
    holding boom left x (log0, m0) = gives boom p log m (ts ++ map val (e_items (fst m))).
  Proof.
    intros E. unfold holding. rewrite E, (gives_app boom A A). destruct (gives_cases boom A p log m ts) as (log' & [-> | ->]); [|reflexivity].
    apply glue_gives.
  Qed.
  Lemma map_all l : forall fuel i ws log st, i + llen l <= usize_max -> (length ws + length l = S)%nat -> (length l < fuel)%nat ->
    exists it e, array_from_iter_owned boom made S next left fuel (builder_of S ws) (log, ({| e_next := i; e_items := l |}, st)) =
      ((fst (fst (mapped boom val made O f (log, st) i ws l)), (it, snd (fst (mapped boom val made O f (log, st) i ws l)))), e) /\
      listed e = ends_as (snd (mapped boom val made O f (log, st) i ws l)).
  Proof.
    induction l as [|v l IH]; intros fuel i ws log st Hi Hl Hf; (destruct fuel as [|fuel]; [cbn in Hf; lia|]); cbn [array_from_iter_owned mapped].
    - cbn [length] in Hl. rewrite Nat.add_0_r in Hl. destruct (finish_is boom made (M := enumerate V * St) (log, ({| e_next := i; e_items := [] |}, st)) Hl) as (a & E & Ea).
      eexists _, _. split.
      + unfold abind at 1. erewrite building_ended; [|unfold holding, map_next, abind at 1, on_iter; rewrite owned_empty; reflexivity].
        unfold abind. erewrite building_ended; [|reflexivity]. exact E.
      + cbn. now rewrite Ea.
    - unfold llen in Hi. cbn [length] in Hi, Hl, Hf.
      pose proof (owned_front boom (map val) log (O := O) (nx := i) v l HA ltac:(lia)) as X. unfold step_end in X.
      destruct (key_for O i) as [k|w] eqn:Ek.
      + assert (Xn : next (log, ({| e_next := i; e_items := v :: l |}, st)) =
          (w <! on_client (g k v) ;; ret (Some w)) (log, ({| e_next := i + 1; e_items := l |}, st))).
        { unfold map_next. unfold abind at 1. unfold on_iter. rewrite X. reflexivity. }
        destruct (f k v (log, st)) as [[log1 st1] x] eqn:Ef.
        assert (Y : on_client (g k v) (log, ({| e_next := i + 1; e_items := l |}, st)) = ((log1, ({| e_next := i + 1; e_items := l |}, st1)), ends_as x)).
        { unfold on_client. rewrite Hg. unfold client. rewrite Ef. reflexivity. }
        destruct x as [[w|p]|].
        * edestruct (IH fuel (i + 1) (ws ++ [w]) log1 st1) as (it & e & E & He); [unfold llen; lia|rewrite app_length; cbn; lia|lia|].
          exists it, e. split; [|exact He]. rewrite <- E. unfold abind at 1.
          erewrite building_ended; [|unfold holding; rewrite Xn; unfold abind; rewrite Y; reflexivity].
          unfold abind at 1. erewrite building_ended; [|unfold holding; rewrite push_is by lia; reflexivity]. reflexivity.
        * assert (G : array_from_iter_owned boom made S next left (Datatypes.S fuel) (builder_of S ws) (log, ({| e_next := i; e_items := v :: l |}, st)) =
            gives boom p log1 ({| e_next := i + 1; e_items := l |}, st1) (map val l ++ parts made ws)).
          { cbn [array_from_iter_owned]. apply bind_gives. apply building_gives. change (map val l) with ([] ++ map val l).
            apply (@holding_gives _ p log ({| e_next := i; e_items := v :: l |}, st) log1 ({| e_next := i + 1; e_items := l |}, st1) []).
            rewrite Xn. apply bind_gives. rewrite Y. reflexivity. }
          cbn [array_from_iter_owned] in G. exists {| e_next := i + 1; e_items := l |}.
          destruct (listed_gives boom (W := W) S p log1 ({| e_next := i + 1; e_items := l |}, st1) (map val l ++ parts made ws)) as (e & E1 & E2).
          exists e. rewrite G, E1, E2. unfold given_up, gives. cbn [fst snd]. destruct (@lost T boom (list W) p log1 _); split; reflexivity.
        * eexists _, Aborts. split; [|reflexivity]. unfold abind at 1. erewrite building_aborts; [reflexivity|]. unfold holding. rewrite Xn. unfold abind. rewrite Y. reflexivity.
      + assert (G : array_from_iter_owned boom made S next left (Datatypes.S fuel) (builder_of S ws) (log, ({| e_next := i; e_items := v :: l |}, st)) =
            gives boom w log ({| e_next := i; e_items := l |}, st) (map val (v :: l) ++ parts made ws)).
        { cbn [array_from_iter_owned]. apply bind_gives. apply building_gives. change (map val (v :: l)) with ([val v] ++ map val l).
          apply (@holding_gives _ w log ({| e_next := i; e_items := v :: l |}, st) log ({| e_next := i; e_items := l |}, st) [val v]).
          unfold map_next. apply bind_gives. unfold on_iter. rewrite X. reflexivity. }
        cbn [array_from_iter_owned] in G. exists {| e_next := i; e_items := l |}.
        destruct (listed_gives boom (W := W) S w log ({| e_next := i; e_items := l |}, st) (map val (v :: l) ++ parts made ws)) as (e & E1 & E2).
        exists e. rewrite G, E1, E2. unfold given_up, gives. cbn [fst snd]. destruct (@lost T boom (list W) w log _); split; reflexivity.
  Qed.
  Lemma map_owned (m : OrdinalTotalArrayMap S V) log st : N.of_nat S <= usize_max ->
    let '(s', x) := mapped boom val made O f (log, st) 0 [] (arr_list m) in
    exists e, atotal_map_owned boom val made O g m (log, st) = (s', e) /\
      match x with
      | Some (Seen ws) => exists a, e = Ended a /\ arr_list a = ws
      | Some (Caught p) => e = Unwinds p
      | None => e = Aborts
      end.
  Proof.
    intros HS. assert (Hm : length (arr_list m) = S) by apply arr_length.
    destruct (@map_all (arr_list m) (S + 2) 0 [] log st) as (it & e & E & He); [unfold llen; lia|cbn; lia|lia|].
    destruct (mapped boom val made O f (log, st) 0 [] (arr_list m)) as [[log' st'] x]. exists e. cbn [fst snd] in *. split.
    - unfold atotal_map_owned. rewrite builder_new_of. unfold OrdinalTotalArrayMap_into_iter, TIntoIterArray_new, enumerate_new.
      match goal with |- context[array_from_iter_owned ?a ?b ?c ?d ?e ?f ?g ?h] => change (array_from_iter_owned a b c d e f g h) with (array_from_iter_owned boom made S next left (S + 2) (builder_of S []) (log, ({| e_next := 0; e_items := arr_list m |}, st))) end.
      rewrite E. reflexivity.
    - destruct x as [[ws|p]|], e as [a|q| |]; cbn in He; try discriminate He; [exists a; split; [reflexivity|now injection He]|now injection He as ->|reflexivity].
  Qed.
End Map.

(** ** Callbacks that do not take the key *)
Section Closure.
  Context {T St : Type} (boom : list T -> T -> option panic) (drops_result : bool) {K W : Type} (key : K -> T) (made : W -> option T).
  Lemma closure_is k (f : calls (T := T) (St := St) W) (g : act (list T * St) W) s : (g s = client f s) ->
    closure_with_key boom drops_result key made k g s = client (then_key boom drops_result key made k f) s.
  Proof.
    destruct s as [log st]. intros H. unfold closure_with_key, client, then_key. unfold client in H. destruct (f (log, st)) as [[log1 st1] x]. destruct x as [[w|p]|].
    - unfold abind at 1. rewrite (owning_ended boom [key k] H). unfold abind.
      assert (D : destroy boom (key k) (log1, st1) = ((log1 ++ [key k], st1), match boom log1 (key k) with None => Ended tt | Some p => Unwinds p end)).
      { unfold destroy, destructor. destruct (boom log1 (key k)); reflexivity. }
      destruct (boom log1 (key k)) as [p|].
      + rewrite (@owning_gives T boom St unit p log1 st1 (log1 ++ [key k]) st1 [] (if drops_result then thing made w else []) (destroy boom (key k)) D).
        assert (E : (if drops_result then thing made w else []) = (if drops_result then parts made [w] else [])).
        { destruct drops_result; [|reflexivity]. unfold thing, parts. cbn. now rewrite app_nil_r. }
        cbn [app]. rewrite E. unfold gives, given_up. cbn [fst snd].
        pose proof (lost_end boom unit p (if drops_result then parts made [w] else []) (log1 ++ [key k])) as X1.
        pose proof (lost_log boom unit p (if drops_result then parts made [w] else []) (log1 ++ [key k])) as X2.
        pose proof (lost_end boom W p (if drops_result then parts made [w] else []) (log1 ++ [key k])) as X3.
        pose proof (lost_log boom W p (if drops_result then parts made [w] else []) (log1 ++ [key k])) as X4.
        rewrite X1, X2. clear X1 X2. destruct (@lost T boom W p (log1 ++ [key k]) _) as [l2 x2]. cbn [fst snd] in *. subst x2 l2. destruct (snd _); reflexivity.
      + rewrite (owning_ended boom _ D). reflexivity.
    - assert (G : owning boom [key k] g (log, st) = gives boom p log1 st1 ([] ++ [key k])) by (apply owning_gives; exact H).
      rewrite (@bind_gives T boom St W W p log st log1 st1 ([] ++ [key k]) (owning boom [key k] g) _ G). unfold gives, given_up. cbn [fst snd app].
      destruct (lost boom p log1 [key k]); reflexivity.
    - unfold abind, owning. rewrite H. reflexivity.
  Qed.
End Closure.

(** ** try_new *)
Section Make.
  Context {cfg : Config} {T St : Type} (boom : list T -> T -> option panic) {K W : Type} (made : W -> option T).
  Context (O : Ordinal K) (n : N) (HO : ordinal_bijection O n) (ks : list K) (He : enumeration O ks).
  Context {E : Type} (init : K -> calls (T := T) (St := St) (result W E)) (g : K -> act (list T * St) (result W E)).
  Context (Hg : forall k s, g k s = client (init k) s).
  Notation spec array := (made_from boom made array init).
  Notation code x := (fst x, ends_as (snd x)).

  Lemma heap_make l : forall fuel ws it s, yields (values_next O) it l -> (length l < fuel)%nat ->
    htotal_try_new_loop_owned boom made O g fuel ws it s = code (spec false s ws l).
  Proof.
    induction l as [|k l IH]; intros fuel ws it [log st] Hy Hf; inversion Hy as [? it' E1|? it' ? ? E1 Hy']; subst;
      (destruct fuel as [|fuel]; [cbn in Hf; lia|]); cbn [htotal_try_new_loop_owned made_from]; unfold abind at 1, owning at 1, look at 1; rewrite E1; cbn [ending_of]; [reflexivity|].
    pose proof (Hg k (log, st)) as X. unfold client in X. destruct (init k (log, st)) as [[log1 st1] x]. destruct x as [[[w|e]|p]|].
    - unfold abind at 1. rewrite (owning_ended boom _ X). apply IH; [exact Hy'|cbn in Hf; lia].
    - unfold abind at 1. rewrite (owning_ended boom _ X). unfold abind. rewrite glue_is. change (things made ws) with (parts made ws).
      destruct (destroyed_all boom None log1 (parts made ws)) as [log' [[w|]|]]; reflexivity.
    - assert (G : owning boom (things made ws) (g k) (log, st) = gives boom p log1 st1 ([] ++ parts made ws)) by (apply owning_gives; exact X).
      rewrite (@bind_gives T boom St _ (result (list W) E) p log st log1 st1 _ _ _ G). unfold gives, given_up. cbn [fst snd app].
      destruct (lost boom p log1 _); reflexivity.
    - unfold abind, owning. rewrite X. reflexivity.
  Qed.
  Lemma heap_made s : htotal_try_new_owned boom made O g s = code (spec false s [] ks).
  Proof.
    unfold htotal_try_new_owned, abind, look. destruct (values_start HO He) as (it & -> & Hr & Hl). cbn [ending_of].
    apply heap_make; [now apply (values_yield (n := n))|]. rewrite Hl. unfold llen. lia.
  Qed.

  Context (S : nat) (HS : N.of_nat S = n).
  Definition listed_ok (e : ending (result (OrdinalTotalArrayMap S W) E)) : ending (result (list W) E) :=
    match e with
    | Ended (ResOk a) => Ended (ResOk (arr_list a)) | Ended (ResErr x) => Ended (ResErr x)
    | Unwinds w => Unwinds w | Aborts => Aborts | Stuck => Stuck
    end.
  Lemma array_make l : forall fuel ws it s, yields (values_next O) it l -> (length ws + length l = S)%nat -> (length l < fuel)%nat ->
    exists e, fill_owned boom made O S g fuel (builder_of S ws) it s = (fst (spec true s ws l), e) /\ listed_ok e = ends_as (snd (spec true s ws l)).
  Proof.
    induction l as [|k l IH]; intros fuel ws it [log st] Hy Hl Hf; inversion Hy as [? it' E1|? it' ? ? E1 Hy']; subst it;
      (destruct fuel as [|fuel]; [cbn in Hf; lia|]); cbn [fill_owned made_from]; unfold abind at 1, building at 1, look at 1; rewrite E1; cbn [ending_of].
    - cbn [length] in Hl. rewrite Nat.add_0_r in Hl. destruct (finish_is boom made (log, st) Hl) as (a & Ea & La).
      unfold abind. pose proof Ea as Ea'. unfold OrdinalTotalArrayMap in *. rewrite Ea'. eexists. split; [reflexivity|]. cbn. now rewrite La.
    - cbn [length] in Hl, Hf. pose proof (Hg k (log, st)) as X. unfold client in X. destruct (init k (log, st)) as [[log1 st1] x]. destruct x as [[[w|e]|p]|].
      + destruct (IH fuel (ws ++ [w]) it' (log1, st1) Hy') as (e & Ee & He'); [rewrite app_length; cbn; lia|lia|]. exists e. split; [|exact He'].
        rewrite <- Ee. unfold abind at 1. erewrite building_ended; [|exact X]. unfold abind at 1. erewrite building_ended; [|apply push_is; lia]. reflexivity.
      + unfold abind at 1. erewrite building_ended; [|exact X]. unfold abind. rewrite builder_end_is.
        destruct (up_to_panic boom log1 (parts made ws)) as [log' [w|]]; eexists; split; reflexivity.
      + assert (G : building boom made (builder_of S ws) (g k) (log, st) = gives boom p log1 st1 ([] ++ parts made ws)) by (apply building_gives; exact X).
        rewrite (@bind_gives T boom St _ (result (OrdinalTotalArrayMap S W) E) p log st log1 st1 _ _ _ G). unfold gives, given_up. cbn [fst snd app].
        pose proof (lost_end boom (result (list W) E) p (parts made ws) log1) as X1.
        pose proof (lost_log boom (result (list W) E) p (parts made ws) log1) as X2. rewrite lost_end, lost_log.
        destruct (@lost T boom (result (list W) E) p log1 (parts made ws)) as [l2 x2]. cbn [fst snd] in *. subst l2 x2.
        eexists. split; [reflexivity|]. destruct (snd _); reflexivity.
      + exists Aborts. split; [|reflexivity]. unfold abind, building. rewrite X. reflexivity.
  Qed.
  Lemma array_made s : exists e, atotal_try_new_owned boom made O S g s = (fst (spec true s [] ks), e) /\ listed_ok e = ends_as (snd (spec true s [] ks)).
  Proof.
    unfold atotal_try_new_owned, abind, look. rewrite (assert_ok HO HS). cbn [ending_of].
    destruct (values_start HO He) as (it & -> & Hr & Hl). cbn [ending_of]. rewrite builder_new_of.
    pose proof (ks_len HO He) as Hk. unfold llen in Hk. apply array_make; [now apply (values_yield (n := n))|cbn; lia|lia].
  Qed.
End Make.

(** ** new, default and as_ref *)
Section New.
  Context {cfg : Config} {T St : Type} (boom : list T -> T -> option panic) {K W : Type} (made : W -> option T).
  Context (O : Ordinal K) (n : N) (HO : ordinal_bijection O n) (ks : list K) (He : enumeration O ks).
  Context (init : K -> calls (T := T) (St := St) W) (g : K -> act (list T * St) W) (Hg : forall k s, g k s = client (init k) s).
  Lemma infallible_is k s : infallible_owned g k s = client (never_fails init k) s.
  Proof.
    unfold infallible_owned, abind. rewrite Hg. unfold client, never_fails. destruct (init k s) as [s' [[w|p]|]]; reflexivity.
  Qed.
  Lemma heap_new_made s : htotal_new_owned boom made O g s = (fst (made_new boom made false init s ks), ends_as (snd (made_new boom made false init s ks))).
  Proof.
    unfold htotal_new_owned, abind. rewrite (@heap_made _ _ _ boom _ _ made _ _ HO _ He _ _ _ infallible_is s). unfold made_new.
    destruct (made_from boom made false (never_fails init) s [] ks) as [s' [[[l|[]]|p]|]]; reflexivity.
  Qed.
  Context (S : nat) (HS : N.of_nat S = n).
  Lemma array_new_made s : exists e, atotal_new_owned boom made O S g s = (fst (made_new boom made true init s ks), e) /\
    listed e = ends_as (snd (made_new boom made true init s ks)).
  Proof.
    destruct (@array_made _ _ _ boom _ _ made _ _ HO _ He _ _ _ infallible_is S HS s) as (e & E1 & E2).
    unfold atotal_new_owned. unfold abind at 1, look. rewrite (assert_ok HO HS). cbn [ending_of]. unfold abind. rewrite E1. unfold made_new.
    destruct (made_from boom made true (never_fails init) s [] ks) as [s' x]. cbn [fst snd] in *.
    destruct e as [[a|[]]|q| |], x as [[[l|[]]|p]|]; cbn [listed_ok ends_as] in E2; try discriminate E2; try (injection E2 as E2); eexists; (split; [reflexivity|]); cbn;
      congruence.
  Qed.
End New.

Section Statements.
  Context {cfg : Config} {T : Type} (boom : list T -> T -> option panic) (drops_result : bool) {K V W : Type}
    (key : K -> T) (val : V -> T) (made : W -> option T).
  Definition in_array S (x : option (seen (list W))) (e : ending (OrdinalTotalArrayMap S W)) : Prop :=
    match x with
    | Some (Seen ws) => exists a, e = Ended a /\ arr_list a = ws
    | Some (Caught p) => e = Unwinds p
    | None => e = Aborts
    end.
  Lemma in_array_listed S x (e : ending (OrdinalTotalArrayMap S W)) : listed e = ends_as x -> in_array x e.
  Proof.
    intros H. destruct x as [[ws|p]|], e as [a|q| |]; cbn in H; try discriminate H; [exists a; split; [reflexivity|now injection H]|now injection H as ->|reflexivity].
  Qed.
  Lemma atotal_maps (St : Type) (O : Ordinal K) (f : K -> V -> calls (T := T) (St := St) W) S (m : OrdinalTotalArrayMap S V) s : answers_all O -> N.of_nat S <= usize_max ->
    let '(s', x) := mapped boom val made O f s 0 [] (arr_list m) in
    exists e, atotal_map_owned boom val made O (fun k v => client (f k v)) m s = (s', e) /\ in_array x e.
  Proof. intros HA HS. destruct s as [log st]. exact (map_owned boom val made HA (fun k v s => eq_refl) m log st HS). Qed.
  Lemma atotal_maps_values (St : Type) (O : Ordinal K) (f : V -> calls (T := T) (St := St) W) S (m : OrdinalTotalArrayMap S V) s : answers_all O -> N.of_nat S <= usize_max ->
    let '(s', x) := mapped boom val made O (fun k v => then_key boom drops_result key made k (f v)) s 0 [] (arr_list m) in
    exists e, atotal_map_values_owned boom drops_result key val made O (fun v => client (f v)) m s = (s', e) /\ in_array x e.
  Proof.
    intros HA HS. destruct s as [log st].
    exact (map_owned boom val made HA (fun k v s => closure_is boom drops_result key made k (eq_refl (client (f v) s))) m log st HS).
  Qed.

  Context (O : Ordinal K) (n : N) (HO : ordinal_bijection O n) (ks : list K) (He : enumeration O ks).
  Lemma htotal_tries (E St : Type) (init : K -> calls (T := T) (St := St) (result W E)) s :
    let '(s', x) := made_from boom made false init s [] ks in
    htotal_try_new_owned boom made O (fun k => client (init k)) s = (s', match x with Some (Seen r) => Ended r | Some (Caught p) => Unwinds p | None => Aborts end).
  Proof. rewrite (@heap_made _ _ _ boom _ _ made _ _ HO _ He _ init (fun k => client (init k)) (fun k s => eq_refl) s). destruct (made_from _ _ _ _ _ _ _); reflexivity. Qed.
  Lemma atotal_tries (E St : Type) (init : K -> calls (T := T) (St := St) (result W E)) S s : N.of_nat S = n ->
    let '(s', x) := made_from boom made true init s [] ks in
    exists e, atotal_try_new_owned boom made O S (fun k => client (init k)) s = (s', e) /\
      match x with
      | Some (Seen (ResOk ws)) => exists a, e = Ended (ResOk a) /\ arr_list a = ws
      | Some (Seen (ResErr er)) => e = Ended (ResErr er)
      | Some (Caught p) => e = Unwinds p
      | None => e = Aborts
      end.
  Proof.
    intros HS. destruct (@array_made _ _ _ boom _ _ made _ _ HO _ He _ init (fun k => client (init k)) (fun k s => eq_refl) S HS s) as (e & E1 & E2).
    destruct (made_from _ _ _ _ _ _ _) as [s' x]. exists e. split; [exact E1|]. cbn [snd] in E2.
    destruct x as [[[ws|er]|p]|], e as [[a|er']|q| |]; cbn in E2; try discriminate E2; try (injection E2 as E2); subst; eauto.
  Qed.
  Lemma htotal_defaults (St : Type) (default : calls (T := T) (St := St) W) s :
    let '(s', x) := made_new boom made false (fun k => then_key boom drops_result key made k default) s ks in
    htotal_default_owned boom drops_result key made O (client default) s = (s', match x with Some (Seen r) => Ended r | Some (Caught p) => Unwinds p | None => Aborts end).
  Proof.
    unfold htotal_default_owned. rewrite (@heap_new_made _ _ _ boom _ _ made _ _ HO _ He (fun k => then_key boom drops_result key made k default) (fun k => closure_with_key boom drops_result key made k (client default))
      (fun k s => closure_is boom drops_result key made k (eq_refl (client default s))) s).
    destruct (made_new _ _ _ _ _ _); reflexivity.
  Qed.
  Lemma atotal_defaults (St : Type) (default : calls (T := T) (St := St) W) S s : N.of_nat S = n ->
    let '(s', x) := made_new boom made true (fun k => then_key boom drops_result key made k default) s ks in
    exists e, atotal_default_owned boom drops_result key made O S (client default) s = (s', e) /\ in_array x e.
  Proof.
    intros HS. destruct (@array_new_made _ _ _ boom _ _ made _ _ HO _ He (fun k => then_key boom drops_result key made k default) (fun k => closure_with_key boom drops_result key made k (client default))
      (fun k s => closure_is boom drops_result key made k (eq_refl (client default s))) S HS s) as (e & E1 & E2).
    destruct (made_new _ _ _ _ _ _) as [s' x]. exists e. split; [exact E1|]. now apply in_array_listed.
  Qed.
End Statements.

Section AsRef.
  Context {cfg : Config} {T : Type} (boom : list T -> T -> option panic) (drops_result : bool) {K V : Type} (key : K -> T).
  Context (O : Ordinal K) (n : N) (HO : ordinal_bijection O n) (ks : list K) (He : enumeration O ks).
  Lemma atotal_lends (O1 : Ordinal K) S (m : OrdinalTotalArrayMap S V) log : N.of_nat S = n -> panicking_version O1 O ->
    let '(s', x) := made_new boom (fun _ : N => None) true
      (fun k => then_key boom drops_result key (fun _ => None) k
         (fun s => (s, Some (match ordinal O1 k with Val i => Seen i | Panic p => Caught p | _ => Caught PUnreachable end)))) (log, tt) ks in
    exists e, atotal_as_ref_owned boom drops_result key O1 m (log, tt) = (s', e) /\ in_array x e.
  Proof.
    intros HS HP.
    assert (Hsame : forall g : K -> act (list T * unit) N, atotal_new_owned boom (fun _ => None) O1 S g = atotal_new_owned boom (fun _ => None) O S g).
    { intros g. destruct HP as (Hs & Hf & _). clear HO He. destruct O1 as [s1 o1 f1], O as [s2 o2 f2]. cbn in *. subst. reflexivity. }
    unfold atotal_as_ref_owned. rewrite Hsame.
    destruct (@array_new_made _ _ unit boom _ _ (fun _ : N => None) _ _ HO _ He (fun k => then_key boom drops_result key (fun _ => None) k
         (fun s => (s, Some (match ordinal O1 k with Val i => Seen i | Panic p => Caught p | _ => Caught PUnreachable end))))
       (fun k => closure_with_key boom drops_result key (fun _ => None) k (look (fun _ => i <- ordinal O1 k ;; index_slot (arr_list m) i)))) with (S := S) (s := (log, tt))
      as (e & E1 & E2); [|exact HS|].
    - intros k s. apply closure_is. unfold look, client. destruct HP as (_ & _ & Ho). destruct (bij_to HO k) as (i & Ei & Hi & _). 
      destruct (Ho k) as [X|(w & X)]; rewrite X; [|reflexivity]. rewrite Ei. cbn [bind]. unfold index_slot, index.
      destruct (nth_error (arr_list m) (N.to_nat i)) as [v|] eqn:En; [reflexivity|]. apply nth_error_None in En. rewrite arr_length in En. lia.
    - destruct (made_new _ _ _ _ _ _) as [s' x]. exists e. split; [exact E1|]. now apply in_array_listed.
  Qed.
End AsRef.
