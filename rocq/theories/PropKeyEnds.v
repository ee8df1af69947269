(** * PropKeyEnds: C114 (properties.jsonl). *)
From Verif Require Import Base Spec SpecMap SpecTotal SpecCatch SpecResume SpecLifeRun SpecLifeEnds SpecKeyLife SpecKeyEnds ModelOrdinal ModelValues
  ModelArrayBuilder ModelIter ModelTotal ModelMap MapMachine TotalMachine ModelCatch ModelLife ModelKeyLife ModelKeyEnds OrdinalProofs
  KeyEndsProofs2.
From Coq Require Import List. Import ListNotations.

(** Total maps: every call inside [catch_unwind], with an implementation that is lawful except that its
    [ordinal] panics on some keys, and with destructors of keys and values that may panic at any time. *)
Theorem C114_total_map : forall (cfg : Config) (K V : Type) (boom : list (K + V) -> K + V -> option panic) (drops_result : bool)
  (O : Ordinal K) (n : N), ordinal_bijection O n ->
  forall (eqd : forall a b : K, {a = b} + {a <> b}) (ks : list K), enumeration O ks ->
  forall (ops : list (Ordinal K * total_op K V)) (log0 : list (K + V)) (m0 : K -> V),
  Forall (fun p => panicking_version (fst p) O) ops ->
  match life_run (fun p => total_key_life_step boom drops_result eqd ks (fst p) (snd p)) ops (log0, m0) with
  | Some (outs, (log, m)) =>
      catch_run (fun p => htotal_keys boom drops_result (fst p) (snd p)) ops (log0, map m0 ks) = Some (outs, (log, map m ks))
  | None => exists ops1 p ops2 outs s, ops = ops1 ++ p :: ops2 /\
      catch_run (fun p => htotal_keys boom drops_result (fst p) (snd p)) ops1 (log0, map m0 ks) = Some (outs, s) /\
      snd (htotal_keys boom drops_result (fst p) (snd p) s) = Aborts
  end.
Proof. exact @htotal_keys_exact. Qed.
Print Assumptions C114_total_map.

Theorem C114_total_array_map : forall (cfg : Config) (K V : Type) (boom : list (K + V) -> K + V -> option panic) (drops_result : bool)
  (O : Ordinal K) (n : N), ordinal_bijection O n ->
  forall (eqd : forall a b : K, {a = b} + {a <> b}) (ks : list K), enumeration O ks ->
  forall (S : nat) (ops : list (Ordinal K * total_op K V)) (log0 : list (K + V)) (m0 : K -> V) (a0 : OrdinalTotalArrayMap S V),
  arr_list a0 = map m0 ks -> Forall (fun p => panicking_version (fst p) O) ops ->
  match life_run (fun p => total_key_life_step boom drops_result eqd ks (fst p) (snd p)) ops (log0, m0) with
  | Some (outs, (log, m)) => exists a,
      catch_run (fun p => atotal_keys boom drops_result (fst p) (S := S) (snd p)) ops (log0, a0) = Some (outs, (log, a)) /\ arr_list a = map m ks
  | None => exists ops1 p ops2 outs s, ops = ops1 ++ p :: ops2 /\
      catch_run (fun p => atotal_keys boom drops_result (fst p) (S := S) (snd p)) ops1 (log0, a0) = Some (outs, s) /\
      snd (atotal_keys boom drops_result (fst p) (S := S) (snd p) s) = Aborts
  end.
Proof. exact @atotal_keys_exact. Qed.
Print Assumptions C114_total_array_map.

(** Collecting. *)
Theorem C114_collect : forall (cfg : Config) (K V : Type) (boom : list (K + V) -> K + V -> option panic) (drops_result : bool)
  (O : Ordinal K) (n : N), ordinal_bijection O n ->
  forall (eqd : forall a b : K, {a = b} + {a <> b}) (ks : list K), enumeration O ks ->
  forall (O1 : Ordinal K) (l : list (K * V)) (log : list (K + V)), panicking_version O1 O ->
  let '(log', x) := gathered boom drops_result O1 eqd ks log l pm_empty in
  exists e, heap_from_iter_keys boom drops_result O1 l (log, tt) = ((log', tt), e) /\
    match x with
    | Some (Seen m) => exists st, e = Ended st /\ OrdinalMap_debug O st = Val (pm_entries ks m) /\ forall k, OrdinalMap_get O st k = Val (m k)
    | Some (Caught w) => e = Unwinds w
    | None => e = Aborts
    end.
Proof. exact @heap_gathers. Qed.
Print Assumptions C114_collect.

Theorem C114_collect_array : forall (cfg : Config) (K V : Type) (boom : list (K + V) -> K + V -> option panic) (drops_result : bool)
  (O : Ordinal K) (n : N), ordinal_bijection O n ->
  forall (eqd : forall a b : K, {a = b} + {a <> b}) (ks : list K), enumeration O ks ->
  forall (S : nat) (O1 : Ordinal K) (l : list (K * V)) (log : list (K + V)), N.of_nat S = n -> panicking_version O1 O ->
  let '(log', x) := gathered boom drops_result O1 eqd ks log l pm_empty in
  exists e, array_from_iter_keys boom drops_result O1 S l (log, tt) = ((log', tt), e) /\
    match x with
    | Some (Seen m) => exists a, e = Ended a /\ OrdinalArrayMap_debug O a = Val (pm_entries ks m) /\ forall k, OrdinalArrayMap_get O a k = Val (m k)
    | Some (Caught w) => e = Unwinds w
    | None => e = Aborts
    end.
Proof. exact @array_gathers. Qed.
Print Assumptions C114_collect_array.

(** Owning iterators, each call with any [from_ordinal] that returns or panics, inside its own
    [catch_unwind], and the destruction of what is left. The first part is about the iterators of
    sparse maps, the second about those of total maps. *)
Theorem C114_into_iter : forall (cfg : Config) (K V : Type) (boom : list (K + V) -> K + V -> option panic) (calls : list (Ordinal K * dir)),
  Forall (fun c => answers_all (fst c)) calls ->
  (forall (log : list (K + V)) (items : list (option V)), llen items <= usize_max ->
     match life_run (fun c => owned_key_spec boom (fun o : option V => o) (fst c) (snd c)) calls (log, (0, positions items)) with
     | Some (got, (log1, (_, rest))) =>
         let '(log2, x) := rest_destroyed boom (fun o : option V => o) log1 rest in
         exists it, catch_run (fun c => owned_key_next boom (fst c) (snd c)) calls (log, enumerate_new items 0) = Some (got, (log1, it)) /\
           glue boom (map inr (stored (e_items it))) (log1, tt) = ((log2, tt), match x with Some (Seen u) => Ended u | Some (Caught w) => Unwinds w | None => Aborts end)
     | None => exists calls1 c calls2 got s, calls = calls1 ++ c :: calls2 /\
         catch_run (fun c => owned_key_next boom (fst c) (snd c)) calls1 (log, enumerate_new items 0) = Some (got, s) /\
         snd (owned_key_next boom (fst c) (snd c) s) = Aborts
     end) /\
  (forall (log : list (K + V)) (items : list V), llen items <= usize_max ->
     match life_run (fun c => owned_key_spec boom (@Some V) (fst c) (snd c)) calls (log, (0, positions items)) with
     | Some (got, (log1, (_, rest))) =>
         let '(log2, x) := rest_destroyed boom (@Some V) log1 rest in
         exists it, catch_run (fun c => total_key_next boom (fst c) (snd c)) calls (log, enumerate_new items 0) = Some (got, (log1, it)) /\
           glue boom (map inr (e_items it)) (log1, tt) = ((log2, tt), match x with Some (Seen u) => Ended u | Some (Caught w) => Unwinds w | None => Aborts end)
     | None => exists calls1 c calls2 got s, calls = calls1 ++ c :: calls2 /\
         catch_run (fun c => total_key_next boom (fst c) (snd c)) calls1 (log, enumerate_new items 0) = Some (got, s) /\
         snd (total_key_next boom (fst c) (snd c) s) = Aborts
     end).
Proof. exact @both_apart. Qed.
Print Assumptions C114_into_iter.

(** A whole life: collect, any program of calls (as in C111), the owning iterator, its destruction. *)
Theorem C114_map_life : forall (cfg : Config) (K V : Type) (boom : list (K + V) -> K + V -> option panic) (drops_result : bool)
  (O : Ordinal K) (n : N), ordinal_bijection O n ->
  forall (eqd : forall a b : K, {a = b} + {a <> b}) (ks : list K), enumeration O ks ->
  forall (O1 : Ordinal K) (l : list (K * V)) log0 m0 (ops : list (Ordinal K * map_op K V)) outs log1 ks1 m1
    (cs : list (Ordinal K * dir)) got log2 lag rest log3 x,
  panicking_version O1 O ->
  Forall (fun p => panicking_version (fst p) O /\ heap_op (snd p) = true) ops ->
  Forall (fun c => answers_all (fst c)) cs ->
  gathered boom drops_result O1 eqd ks [] l pm_empty = (log0, Some (Seen m0)) ->
  life_run (fun p => key_life_step boom drops_result eqd ks (fst p) (snd p)) ops (log0, (match l with [] => [] | _ => ks end, m0)) =
    Some (outs, (log1, (ks1, m1))) ->
  life_run (fun c => owned_key_spec boom (fun o : option V => o) (fst c) (snd c)) cs (log1, (0, positions (map m1 ks1))) =
    Some (got, (log2, (lag, rest))) ->
  rest_destroyed boom (fun o => o) log2 rest = (log3, x) ->
  exists st0 st1 it, heap_from_iter_keys boom drops_result O1 l ([], tt) = ((log0, tt), Ended st0) /\
    catch_run (fun p => heap_keys boom drops_result (fst p) (snd p)) ops (log0, st0) = Some (outs, (log1, st1)) /\
    catch_run (fun c => owned_key_next boom (fst c) (snd c)) cs (log1, OrdinalMap_into_iter st1) = Some (got, (log2, it)) /\
    glue boom (map inr (stored (e_items it))) (log2, tt) = ((log3, tt), match x with Some (Seen u) => Ended u | Some (Caught w) => Unwinds w | None => Aborts end).
Proof. exact @heap_key_life. Qed.
Print Assumptions C114_map_life.

Theorem C114_array_map_life : forall (cfg : Config) (K V : Type) (boom : list (K + V) -> K + V -> option panic) (drops_result : bool)
  (O : Ordinal K) (n : N), ordinal_bijection O n ->
  forall (eqd : forall a b : K, {a = b} + {a <> b}) (ks : list K), enumeration O ks ->
  forall (S : nat) (O1 : Ordinal K) (l : list (K * V)) log0 m0 (ops : list (Ordinal K * map_op K V)) outs log1 ks1 m1
    (cs : list (Ordinal K * dir)) got log2 lag rest log3 x,
  N.of_nat S = n -> panicking_version O1 O ->
  Forall (fun p => panicking_version (fst p) O) ops ->
  Forall (fun c => answers_all (fst c)) cs ->
  gathered boom drops_result O1 eqd ks [] l pm_empty = (log0, Some (Seen m0)) ->
  life_run (fun p => key_life_step boom drops_result eqd ks (fst p) (snd p)) ops (log0, (ks, m0)) =
    Some (outs, (log1, (ks1, m1))) ->
  life_run (fun c => owned_key_spec boom (fun o : option V => o) (fst c) (snd c)) cs (log1, (0, positions (map m1 ks))) =
    Some (got, (log2, (lag, rest))) ->
  rest_destroyed boom (fun o => o) log2 rest = (log3, x) ->
  exists a0 a1 it, array_from_iter_keys boom drops_result O1 S l ([], tt) = ((log0, tt), Ended a0) /\
    catch_run (fun p => array_keys boom drops_result (fst p) (S := S) (snd p)) ops (log0, a0) = Some (outs, (log1, a1)) /\
    catch_run (fun c => owned_key_next boom (fst c) (snd c)) cs (log1, OrdinalArrayMap_into_iter a1) = Some (got, (log2, it)) /\
    glue boom (map inr (stored (e_items it))) (log2, tt) = ((log3, tt), match x with Some (Seen u) => Ended u | Some (Caught w) => Unwinds w | None => Aborts end).
Proof. exact @array_key_life. Qed.
Print Assumptions C114_array_map_life.

(** ** Cases: the destructor of the key Eq panics if an odd number of destructors was started before, and that of
    the value 7 always. *)
Definition moody (log : list (comparison + N)) (x : comparison + N) : option panic :=
  match x with
  | inl Eq => if N.odd (N.of_nat (length log)) then Some PUser else None
  | inr 7 => Some PAssert
  | _ => None
  end.
Definition shy_of_lt : Ordinal comparison := {|
  ORDINAL_SIZE := ORDINAL_SIZE Ordinal_Ordering;
  ordinal := fun c => match c with Lt => Panic PAssert | _ => ordinal Ordinal_Ordering c end;
  from_ordinal := from_ordinal Ordinal_Ordering |}.
(** Its [from_ordinal] panics for 0. *)
Definition no_lt : Ordinal comparison := {|
  ORDINAL_SIZE := ORDINAL_SIZE Ordinal_Ordering;
  ordinal := ordinal Ordinal_Ordering;
  from_ordinal := fun i => if i =? 0 then Panic PAssert else from_ordinal Ordinal_Ordering i |}.
Definition ordering_dec (a b : comparison) : {a = b} + {a <> b}.
Proof. decide equality. Defined.
Notation all := [Lt; Eq; Gt] (only parsing).
Notation good := Ordinal_Ordering (only parsing).

Example C114_hypotheses : forall cfg : Config, ordinal_bijection good 3 /\ enumeration good all /\ panicking_version shy_of_lt good /\
  panicking_version good good /\ answers_all good /\ answers_all no_lt.
Proof.
  intros cfg. split; [apply Ordering_lawful|]. split; [split; [intros []; cbn; auto|]; repeat constructor; eexists _, _; repeat split|].
  split; [split; [reflexivity|]; split; [reflexivity|]; intros []; cbn; eauto|].
  split; [split; [reflexivity|]; split; [reflexivity|]; intros k; now left|].
  split; intros i; cbn [from_ordinal good no_lt].
  - left. destruct i as [|[[]|[]|]]; cbn; eauto.
  - destruct (i =? 0); [right; eauto|]. left. destruct i as [|[[]|[]|]]; cbn; eauto.
Qed.
Definition start (k : comparison) : N := match k with Lt => 1 | Eq => 2 | Gt => 3 end.
Definition totals : list (Ordinal comparison * total_op comparison N) :=
  [(good, TInsert Eq 5); (good, TInsert Eq 6); (good, TInsert Lt 4); (shy_of_lt, TInsert Lt 8); (good, TDebug_); (good, TInsert Gt 9);
   (good, TDebug_); (good, TClone_ _ (fun v => v + 10))].
(** If the replaced value 5 is leaked, the first [{:?}] does not panic. *)
Example C114_total_map_case : forall cfg : Config,
  catch_run (fun p => htotal_keys moody true (fst p) (snd p)) totals ([], map start all) =
    Some ([Seen (TOValue 2); Caught PUser; Seen (TOValue 1); Caught PAssert; Caught PUser; Seen (TOValue 3);
           Seen (TOList [(Lt, 4); (Eq, 6); (Gt, 9)]); Seen TOUnit],
          ([inl Eq; inl Eq; inr 5; inl Lt; inr 8; inl Lt; inl Lt; inl Eq; inl Gt; inl Lt; inl Eq; inl Gt; inr 4; inr 6; inr 9], [14; 16; 19])) /\
  catch_run (fun p => htotal_keys moody false (fst p) (snd p)) (firstn 5 totals) ([], map start all) =
    Some ([Seen (TOValue 2); Caught PUser; Seen (TOValue 1); Caught PAssert; Seen (TOList [(Lt, 4); (Eq, 6); (Gt, 3)])],
          ([inl Eq; inl Eq; inl Lt; inr 8; inl Lt; inl Lt; inl Eq; inl Gt], [4; 6; 3])) /\
  htotal_keys moody true shy_of_lt (TInsert Lt 7) ([], map start all) = (([inr 7], map start all), Aborts).
Proof. intros [[] [] []]; vm_compute; repeat split. Qed.
Example C114_total_map_spec :
  match life_run (fun p => total_key_life_step moody true ordering_dec all (fst p) (snd p)) totals ([], start) with
  | Some (outs, (log, m)) => map m all = [14; 16; 19] /\ nth_error outs 4 = Some (Caught PUser) /\ length log = 15%nat
  | None => False
  end /\
  life_run (fun p => total_key_life_step moody true ordering_dec all (fst p) (snd p)) [(good, TInsert Gt 7); (shy_of_lt, TInsert Lt 7)] ([], start) = None.
Proof. vm_compute. repeat split. Qed.
Example C114_total_array_map_case : forall cfg : Config,
  option_map (fun r => (fst r, fst (snd r), arr_list (snd (snd r))))
    (catch_run (fun p => atotal_keys moody true (fst p) (S := 3) (snd p)) (firstn 5 totals) ([], mk_arr 3 [1; 2; 3] eq_refl)) =
  Some ([Seen (TOValue 2); Caught PUser; Seen (TOValue 1); Caught PAssert; Caught PUser],
        [inl Eq; inl Eq; inr 5; inl Lt; inr 8; inl Lt; inl Lt; inl Eq], [4; 6; 3]).
Proof. intros [[] [] []]; vm_compute; reflexivity. Qed.
(** Keys are destroyed as they are inserted. A destructor of a key or of a replaced value that panics
    makes collecting panic, with or without leaking the replaced value; two panics abort it. *)
Example C114_collect_case : forall cfg : Config,
  heap_from_iter_keys moody true good [(Gt, 1); (Lt, 2); (Gt, 3); (Gt, 4)] ([], tt) =
    (([inl Gt; inl Lt; inl Gt; inr 1; inl Gt; inr 3], tt), Ended [Some 2; None; Some 4]) /\
  heap_from_iter_keys moody true good [(Eq, 2); (Eq, 5); (Gt, 4)] ([], tt) = (([inl Eq; inl Eq; inr 2; inl Gt; inr 4; inr 5], tt), Unwinds PUser) /\
  heap_from_iter_keys moody false good [(Eq, 2); (Eq, 5); (Gt, 4)] ([], tt) = (([inl Eq; inl Eq; inl Gt; inr 4; inr 5], tt), Unwinds PUser) /\
  heap_from_iter_keys moody true shy_of_lt [(Gt, 2); (Lt, 5); (Gt, 4)] ([], tt) =
    (([inl Gt; inr 5; inl Lt; inl Gt; inr 4; inr 2], tt), Unwinds PAssert) /\
  heap_from_iter_keys moody true good [(Gt, 7); (Gt, 5); (Gt, 4)] ([], tt) = (([inl Gt; inl Gt; inr 7; inl Gt; inr 4; inr 5], tt), Unwinds PAssert) /\
  heap_from_iter_keys moody true good [(Gt, 7); (Eq, 5); (Gt, 4)] ([], tt) = (([inl Gt; inl Eq; inl Gt; inr 4; inr 5; inr 7], tt), Aborts).
Proof. intros [[] [] []]; vm_compute; repeat split. Qed.
Example C114_collect_spec :
  gathered moody true good ordering_dec all [] [(Eq, 2); (Eq, 5); (Gt, 4)] pm_empty = ([inl Eq; inl Eq; inr 2; inl Gt; inr 4; inr 5], Some (Caught PUser)) /\
  gathered moody false good ordering_dec all [] [(Eq, 2); (Eq, 5); (Gt, 4)] pm_empty = ([inl Eq; inl Eq; inl Gt; inr 4; inr 5], Some (Caught PUser)) /\
  gathered moody true good ordering_dec all [] [(Gt, 7); (Eq, 5); (Gt, 4)] pm_empty = ([inl Gt; inl Eq; inl Gt; inr 4; inr 5; inr 7], None).
Proof. vm_compute; repeat split. Qed.
Example C114_collect_array_case : forall cfg : Config,
  array_from_iter_keys moody false good 3 [(Eq, 2); (Eq, 5); (Gt, 4)] ([], tt) = (([inl Eq; inl Eq; inl Gt; inr 4; inr 5], tt), Unwinds PUser) /\
  array_from_iter_keys moody true good 3 [(Gt, 7); (Eq, 5); (Gt, 4)] ([], tt) = (([inl Gt; inl Eq; inl Gt; inr 4; inr 5; inr 7], tt), Aborts).
Proof. intros [[] [] []]; vm_compute; repeat split. Qed.
(** Skipping an empty slot destroys its key, and ends the call if that panics; the next call goes on after it. *)
Example C114_into_iter_case : forall cfg : Config,
  catch_run (fun c => owned_key_next moody (fst c) (snd c)) [(good, Front); (good, Front); (good, Back)] ([], enumerate_new [None; None; Some 8] 0) =
    Some ([Caught PUser; Seen (Some (Gt, 8)); Seen None], ([inl Lt; inl Eq], {| e_next := 3; e_items := [] |})) /\
  life_run (fun c => owned_key_spec moody (fun o : option N => o) (fst c) (snd c)) [(good, Front); (good, Front); (good, Back)]
      ([], (0, positions [None; None; Some 8])) =
    Some ([Caught PUser; Seen (Some (Gt, 8)); Seen None], ([inl Lt; inl Eq], (0, []))) /\
  catch_run (fun c => owned_key_next moody (fst c) (snd c)) [(no_lt, Front); (good, Back); (good, Back)] ([], enumerate_new [Some 1; None; Some 8] 0) =
    Some ([Caught PAssert; Seen (Some (Eq, 8)); Seen None], ([inr 1; inl Lt], {| e_next := 0; e_items := [] |})) /\
  owned_key_next moody no_lt Front ([], enumerate_new [Some 7; None; Some 8] 0) = (([inr 7], {| e_next := 0; e_items := [None; Some 8] |}), Aborts) /\
  catch_run (fun c => total_key_next moody (fst c) (snd c)) [(no_lt, Front); (good, Back)] ([], enumerate_new [1; 2; 3] 0) =
    Some ([Caught PAssert; Seen (Some (Eq, 3))], ([inr 1], {| e_next := 0; e_items := [2] |})) /\
  rest_destroyed moody (@Some N) [inr 1] [(1, 7); (2, 4)] = ([inr 1; inr 7; inr 4], Some (Caught PAssert)).
Proof. intros [[] [] []]; vm_compute; repeat split. Qed.
Example C114_map_life_case :
  exists m0 m1, gathered moody true shy_of_lt ordering_dec all [] [(Gt, 1); (Gt, 3)] pm_empty = ([inl Gt; inl Gt; inr 1], Some (Seen m0)) /\
    life_run (fun p => key_life_step moody true ordering_dec all (fst p) (snd p)) [(shy_of_lt, OpInsert Lt 4); (good, OpInsert Eq 7)]
      ([inl Gt; inl Gt; inr 1], (all, m0)) =
      Some ([Caught PAssert; Caught PUser], ([inl Gt; inl Gt; inr 1; inr 4; inl Lt; inl Eq], (all, m1))) /\
    life_run (fun c => owned_key_spec moody (fun o : option N => o) (fst c) (snd c)) [(good, Back); (no_lt, Front)]
      ([inl Gt; inl Gt; inr 1; inr 4; inl Lt; inl Eq], (0, positions (map m1 all))) =
      Some ([Seen (Some (Gt, 3)); Caught PAssert], ([inl Gt; inl Gt; inr 1; inr 4; inl Lt; inl Eq], (1, [(1, Some 7)]))) /\
    rest_destroyed moody (fun o => o) [inl Gt; inl Gt; inr 1; inr 4; inl Lt; inl Eq] [(1, Some 7)] =
      ([inl Gt; inl Gt; inr 1; inr 4; inl Lt; inl Eq; inr 7], Some (Caught PAssert)).
Proof. eexists _, _. vm_compute. repeat split. Qed.
