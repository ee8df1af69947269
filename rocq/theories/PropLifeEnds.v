(** * PropLifeEnds: C110 (properties.jsonl). *)
From Verif Require Import Base Spec SpecMap SpecTotal SpecCatch SpecResume SpecLifeRun SpecLifeEnds ModelOrdinal ModelValues ModelArrayBuilder
  ModelIter ModelTotal ModelMap MapMachine TotalMachine ModelCatch ModelLife OrdinalProofs LifeProofs7.
From Coq Require Import List. Import ListNotations.

(** Collecting, with an implementation that is lawful except that [ordinal] panics on some keys: what is
    destroyed, in which order, and the map, the panic or the abort that results. *)
Theorem C110_collect : forall (cfg : Config) (K V : Type) (boom : list V -> V -> option panic) (O : Ordinal K) (n : N),
  ordinal_bijection O n ->
  forall (eqd : forall a b : K, {a = b} + {a <> b}) (ks : list K), enumeration O ks ->
  forall (O1 : Ordinal K) (l : list (K * V)) (log : list V), panicking_version O1 O ->
  let '(log', x) := collected boom O1 eqd ks log l pm_empty in
  exists e, heap_from_iter_life boom O1 l (log, tt) = ((log', tt), e) /\
    match x with
    | Some (Seen m) => exists st, e = Ended st /\ OrdinalMap_debug O st = Val (pm_entries ks m) /\ forall k, OrdinalMap_get O st k = Val (m k)
    | Some (Caught w) => e = Unwinds w
    | None => e = Aborts
    end.
Proof. exact @heap_collects. Qed.
Print Assumptions C110_collect.

Theorem C110_collect_array : forall (cfg : Config) (K V : Type) (boom : list V -> V -> option panic) (O : Ordinal K) (n : N),
  ordinal_bijection O n ->
  forall (eqd : forall a b : K, {a = b} + {a <> b}) (ks : list K), enumeration O ks ->
  forall (S : nat) (O1 : Ordinal K) (l : list (K * V)) (log : list V), N.of_nat S = n -> panicking_version O1 O ->
  let '(log', x) := collected boom O1 eqd ks log l pm_empty in
  exists e, array_from_iter_life boom O1 S l (log, tt) = ((log', tt), e) /\
    match x with
    | Some (Seen m) => exists a, e = Ended a /\ OrdinalArrayMap_debug O a = Val (pm_entries ks m) /\ forall k, OrdinalArrayMap_get O a k = Val (m k)
    | Some (Caught w) => e = Unwinds w
    | None => e = Aborts
    end.
Proof. exact @array_collects. Qed.
Print Assumptions C110_collect_array.

(** Making total maps, with an [init] that may have a state, fail and panic. *)
Theorem C110_try_new : forall (cfg : Config) (K V : Type) (boom : list V -> V -> option panic) (O : Ordinal K) (n : N),
  ordinal_bijection O n -> forall ks : list K, enumeration O ks ->
  forall (E St : Type) (init : St -> K -> St * seen (result V E)) (log : list V) (st : St),
  let '(s', x) := made_map boom init log st [] ks in
  htotal_try_new_life boom O (as_code init) (log, st) =
    (s', match x with Some (Seen r) => Ended r | Some (Caught w) => Unwinds w | None => Aborts end).
Proof. exact @htotal_makes. Qed.
Print Assumptions C110_try_new.

Theorem C110_try_new_array : forall (cfg : Config) (K V : Type) (boom : list V -> V -> option panic) (O : Ordinal K) (n : N),
  ordinal_bijection O n -> forall ks : list K, enumeration O ks ->
  forall (E St : Type) (init : St -> K -> St * seen (result V E)) (S : nat) (log : list V) (st : St), N.of_nat S = n ->
  let '(s', x) := made_array boom init log st [] ks in
  exists e, atotal_try_new_life boom O S (as_code init) (log, st) = (s', e) /\
    match x with
    | Some (Seen (ResOk vs)) => exists a, e = Ended (ResOk a) /\ arr_list a = vs
    | Some (Seen (ResErr er)) => e = Ended (ResErr er)
    | Some (Caught w) => e = Unwinds w
    | None => e = Aborts
    end.
Proof. exact @atotal_makes. Qed.
Print Assumptions C110_try_new_array.

(** Owning iterators, each call with any [from_ordinal] that returns or panics, inside its own
    [catch_unwind]: what the calls return and destroy, and what is left. The first part is about the iterators
    of sparse maps, the second about those of total maps. *)
Theorem C110_into_iter : forall (cfg : Config) (K V : Type) (boom : list V -> V -> option panic) (calls : list (Ordinal K * dir)) (log : list V),
  Forall (fun c => answers_all (fst c)) calls ->
  (forall items : list (option V), llen items <= usize_max ->
     match life_run (fun c => owned_spec boom (fun o => stored [o]) (fun o => o) (fst c) (snd c)) calls (log, (0, positions items)) with
     | Some (got, (log', (_, rest))) => exists it,
         catch_run (fun c => owned_next boom (fst c) (snd c)) calls (log, enumerate_new items 0) = Some (got, (log', it)) /\ e_items it = map snd rest
     | None => exists calls1 c calls2 got s, calls = calls1 ++ c :: calls2 /\
         catch_run (fun c => owned_next boom (fst c) (snd c)) calls1 (log, enumerate_new items 0) = Some (got, s) /\
         snd (owned_next boom (fst c) (snd c) s) = Aborts
     end) /\
  (forall items : list V, llen items <= usize_max ->
     match life_run (fun c => owned_spec boom (fun v => [v]) (@Some V) (fst c) (snd c)) calls (log, (0, positions items)) with
     | Some (got, (log', (_, rest))) => exists it,
         catch_run (fun c => total_next boom (fst c) (snd c)) calls (log, enumerate_new items 0) = Some (got, (log', it)) /\ e_items it = map snd rest
     | None => exists calls1 c calls2 got s, calls = calls1 ++ c :: calls2 /\
         catch_run (fun c => total_next boom (fst c) (snd c)) calls1 (log, enumerate_new items 0) = Some (got, s) /\
         snd (total_next boom (fst c) (snd c) s) = Aborts
     end).
Proof. exact @owned_exact. Qed.
Print Assumptions C110_into_iter.

(** A whole life: collect, any program of calls (as in C109), the owning iterator, its destruction. *)
Theorem C110_map_life : forall (cfg : Config) (K V : Type) (boom : list V -> V -> option panic) (O : Ordinal K) (n : N),
  ordinal_bijection O n ->
  forall (eqd : forall a b : K, {a = b} + {a <> b}) (ks : list K), enumeration O ks ->
  forall (O1 : Ordinal K) (l : list (K * V)) log0 m0 (ops : list (Ordinal K * map_op K V)) outs log1 m1, panicking_version O1 O ->
  Forall (fun p => panicking_version (fst p) O /\ heap_op (snd p) = true) ops ->
  collected boom O1 eqd ks [] l pm_empty = (log0, Some (Seen m0)) ->
  life_run (fun p => life_step boom eqd ks (fst p) (snd p)) ops (log0, m0) = Some (outs, (log1, m1)) ->
  exists st0 st1, heap_from_iter_life boom O1 l ([], tt) = ((log0, tt), Ended st0) /\
    catch_run (fun p => heap_life boom (fst p) (snd p)) ops (log0, st0) = Some (outs, (log1, st1)) /\
    forall cs : list (Ordinal K * dir), Forall (fun c => panicking_version (fst c) O) cs ->
    let '(got, rest) := deque_run (map snd cs) (pm_entries ks m1) in
    let '(log2, p) := destroyed_all boom None log1 (map snd rest) in
    exists it, catch_run (fun c => owned_next boom (fst c) (snd c)) cs (log1, OrdinalMap_into_iter st1) = Some (map Seen got, (log1, it)) /\
      glue boom (stored (e_items it)) (log1, tt) = ((log2, tt), match p with Some None => Ended tt | Some (Some w) => Unwinds w | None => Aborts end).
Proof. exact @heap_life_exact. Qed.
Print Assumptions C110_map_life.

Theorem C110_array_map_life : forall (cfg : Config) (K V : Type) (boom : list V -> V -> option panic) (O : Ordinal K) (n : N),
  ordinal_bijection O n ->
  forall (eqd : forall a b : K, {a = b} + {a <> b}) (ks : list K), enumeration O ks ->
  forall (S : nat) (O1 : Ordinal K) (l : list (K * V)) log0 m0 (ops : list (Ordinal K * map_op K V)) outs log1 m1, N.of_nat S = n -> panicking_version O1 O ->
  Forall (fun p => panicking_version (fst p) O) ops ->
  collected boom O1 eqd ks [] l pm_empty = (log0, Some (Seen m0)) ->
  life_run (fun p => life_step boom eqd ks (fst p) (snd p)) ops (log0, m0) = Some (outs, (log1, m1)) ->
  exists a0 a1, array_from_iter_life boom O1 S l ([], tt) = ((log0, tt), Ended a0) /\
    catch_run (fun p => array_life boom (fst p) (S := S) (snd p)) ops (log0, a0) = Some (outs, (log1, a1)) /\
    forall cs : list (Ordinal K * dir), Forall (fun c => panicking_version (fst c) O) cs ->
    let '(got, rest) := deque_run (map snd cs) (pm_entries ks m1) in
    let '(log2, p) := destroyed_all boom None log1 (map snd rest) in
    exists it, catch_run (fun c => owned_next boom (fst c) (snd c)) cs (log1, OrdinalArrayMap_into_iter a1) = Some (map Seen got, (log1, it)) /\
      glue boom (stored (e_items it)) (log1, tt) = ((log2, tt), match p with Some None => Ended tt | Some (Some w) => Unwinds w | None => Aborts end).
Proof. exact @array_life_exact. Qed.
Print Assumptions C110_array_map_life.

(** The end of total maps (C109 and the above cover the rest of their lives). *)
Theorem C110_total_map_end : forall (cfg : Config) (K V : Type) (boom : list V -> V -> option panic) (O : Ordinal K) (n : N),
  ordinal_bijection O n -> forall ks : list K, enumeration O ks ->
  forall (l : list V) (m : K -> V) (cs : list (Ordinal K * dir)) (log : list V), l = map m ks ->
  Forall (fun c => panicking_version (fst c) O) cs ->
  let '(got, rest) := deque_run (map snd cs) (tm_entries ks m) in
  let '(log', p) := destroyed_all boom None log (map snd rest) in
  exists it, catch_run (fun c => total_next boom (fst c) (snd c)) cs (log, OrdinalTotalMap_into_iter l) = Some (map Seen got, (log, it)) /\
    glue boom (e_items it) (log, tt) = ((log', tt), match p with Some None => Ended tt | Some (Some w) => Unwinds w | None => Aborts end).
Proof. exact @total_ends. Qed.
Print Assumptions C110_total_map_end.

Theorem C110_total_array_map_end : forall (cfg : Config) (K V : Type) (boom : list V -> V -> option panic) (O : Ordinal K) (n : N),
  ordinal_bijection O n -> forall ks : list K, enumeration O ks ->
  forall (S : nat) (a : OrdinalTotalArrayMap S V) (m : K -> V) (cs : list (Ordinal K * dir)) (log : list V), arr_list a = map m ks ->
  Forall (fun c => panicking_version (fst c) O) cs ->
  let '(got, rest) := deque_run (map snd cs) (tm_entries ks m) in
  let '(log', p) := destroyed_all boom None log (map snd rest) in
  exists it, catch_run (fun c => total_next boom (fst c) (snd c)) cs (log, OrdinalTotalArrayMap_into_iter a) = Some (map Seen got, (log, it)) /\
    glue boom (e_items it) (log, tt) = ((log', tt), match p with Some None => Ended tt | Some (Some w) => Unwinds w | None => Aborts end).
Proof. exact @atotal_ends. Qed.
Print Assumptions C110_total_array_map_end.

(** ** Cases: the destructors of multiples of 5 panic. *)
Definition fives (_ : list N) (v : N) : option panic := if v mod 5 =? 0 then Some PUser else None.
Definition shy_of_eq : Ordinal comparison := {|
  ORDINAL_SIZE := ORDINAL_SIZE Ordinal_Ordering;
  ordinal := fun c => match c with Eq => Panic PAssert | _ => ordinal Ordinal_Ordering c end;
  from_ordinal := from_ordinal Ordinal_Ordering |}.
(** Its [from_ordinal] panics for 0. *)
Definition no_first : Ordinal comparison := {|
  ORDINAL_SIZE := ORDINAL_SIZE Ordinal_Ordering;
  ordinal := ordinal Ordinal_Ordering;
  from_ordinal := fun i => if i =? 0 then Panic PAssert else from_ordinal Ordinal_Ordering i |}.
Definition comparison_eq_dec (a b : comparison) : {a = b} + {a <> b}.
Proof. decide equality. Defined.
Notation all := [Lt; Eq; Gt] (only parsing).
Notation good := Ordinal_Ordering (only parsing).

Example C110_hypotheses : forall cfg : Config, ordinal_bijection good 3 /\ enumeration good all /\ panicking_version shy_of_eq good /\
  panicking_version good good /\ answers_all good /\ answers_all no_first.
Proof.
  intros cfg. split; [apply Ordering_lawful|]. split; [split; [intros []; cbn; auto|]; repeat constructor; eexists _, _; repeat split|].
  split; [split; [reflexivity|]; split; [reflexivity|]; intros []; cbn; eauto|].
  split; [split; [reflexivity|]; split; [reflexivity|]; intros k; now left|].
  split; intros i; cbn [from_ordinal good no_first].
  - left. destruct i as [|[[]|[]|]]; cbn; eauto.
  - destruct (i =? 0); [right; eauto|]. left. destruct i as [|[[]|[]|]]; cbn; eauto.
Qed.
(** The replaced values are destroyed; a key without ordinal, and a replaced value whose destructor panics, make
    collecting panic; two such values abort it. *)
Example C110_collect_case : forall cfg : Config,
  heap_from_iter_life fives good [(Gt, 1); (Lt, 2); (Gt, 3); (Gt, 4)] ([], tt) = (([1; 3], tt), Ended [Some 2; None; Some 4]) /\
  heap_from_iter_life fives shy_of_eq [(Gt, 1); (Lt, 2); (Eq, 3); (Gt, 4)] ([], tt) = (([3; 4; 2; 1], tt), Unwinds PAssert) /\
  heap_from_iter_life fives good [(Gt, 1); (Lt, 10); (Lt, 3); (Gt, 4)] ([], tt) = (([10; 4; 3; 1], tt), Unwinds PUser) /\
  heap_from_iter_life fives good [(Gt, 15); (Lt, 10); (Lt, 3); (Gt, 4)] ([], tt) = (([10; 4; 3; 15], tt), Aborts).
Proof. intros [[] [] []]; vm_compute; repeat split. Qed.
Example C110_collect_spec :
  collected fives good comparison_eq_dec all [] [(Gt, 1); (Lt, 10); (Lt, 3); (Gt, 4)] pm_empty = ([10; 4; 3; 1], Some (Caught PUser)) /\
  collected fives shy_of_eq comparison_eq_dec all [] [(Gt, 1); (Lt, 2); (Eq, 3); (Gt, 4)] pm_empty = ([3; 4; 2; 1], Some (Caught PAssert)) /\
  collected fives good comparison_eq_dec all [] [(Gt, 15); (Lt, 10); (Lt, 3); (Gt, 4)] pm_empty = ([10; 4; 3; 15], None).
Proof. vm_compute; repeat split. Qed.
Example C110_collect_array_case : forall cfg : Config,
  array_from_iter_life fives shy_of_eq 3 [(Gt, 1); (Lt, 2); (Eq, 3); (Gt, 4)] ([], tt) = (([3; 4; 2; 1], tt), Unwinds PAssert) /\
  array_from_iter_life fives good 3 [(Gt, 15); (Lt, 10); (Lt, 3); (Gt, 4)] ([], tt) = (([10; 4; 3; 15], tt), Aborts).
Proof. intros [[] [] []]; vm_compute; repeat split. Qed.
(** [init] counts up from its state, and fails at [Gt] if the state is below 4, or panics. *)
Definition counts (st : N) (k : comparison) : N * seen (result N bool) :=
  match k with
  | Gt => (st + 1, if st =? 9 then Caught PAssert else if st <? 4 then Seen (ResErr true) else Seen (ResOk st))
  | _ => (st + 1, Seen (ResOk st))
  end.
Example C110_try_new_case : forall cfg : Config,
  htotal_try_new_life fives good (as_code counts) ([], 5) = (([], 8), Ended (ResOk [5; 6; 7])) /\
  htotal_try_new_life fives good (as_code counts) ([], 1) = (([1; 2], 4), Ended (ResErr true)) /\
  htotal_try_new_life fives good (as_code counts) ([], 0) = (([0; 1], 3), Unwinds PUser) /\
  htotal_try_new_life fives good (as_code counts) ([], 7) = (([7; 8], 10), Unwinds PAssert).
Proof. intros cfg. vm_compute. repeat split. Qed.
(** The array leaks 1. *)
Example C110_try_new_array_case : forall cfg : Config,
  atotal_try_new_life fives good 3 (as_code counts) ([], 1) = (([1; 2], 4), Ended (ResErr true)) /\
  atotal_try_new_life fives good 3 (as_code counts) ([], 0) = (([0], 3), Unwinds PUser) /\
  atotal_try_new_life fives good 3 (as_code counts) ([], 7) = (([7; 8], 10), Unwinds PAssert) /\
  made_array fives counts [] 0 [] all = (([0], 3), Some (Caught PUser)).
Proof. intros cfg. vm_compute. repeat split. Qed.
(** After a failure at the front the keys are one too low; the value is destroyed. *)
Example C110_into_iter_case : forall cfg : Config,
  life_run (fun c => owned_spec fives (fun o => stored [o]) (fun o => o) (fst c) (snd c)) [(no_first, Front); (good, Back); (good, Front)]
    ([], (0, positions [Some 7; None; Some 8])) = Some ([Caught PAssert; Seen (Some (Eq, 8)); Seen None], ([7], (1, []))) /\
  catch_run (fun c => owned_next fives (fst c) (snd c)) [(no_first, Front); (good, Back); (good, Front)] ([], enumerate_new [Some 7; None; Some 8] 0) =
    Some ([Caught PAssert; Seen (Some (Eq, 8)); Seen None], ([7], {| e_next := 1; e_items := [] |})) /\
  owned_next fives no_first Front ([], enumerate_new [Some 10; None; Some 8] 0) = (([10], {| e_next := 0; e_items := [None; Some 8] |}), Aborts) /\
  catch_run (fun c => total_next fives (fst c) (snd c)) [(no_first, Front); (no_first, Back)] ([], enumerate_new [7; 8; 9] 0) =
    Some ([Caught PAssert; Seen (Some (Eq, 9))], ([7], {| e_next := 0; e_items := [8] |})).
Proof. intros [[] [] []]; vm_compute; repeat split. Qed.
Example C110_map_life_case :
  exists m0 m1, collected fives shy_of_eq comparison_eq_dec all [] [(Gt, 1); (Lt, 2); (Gt, 3)] pm_empty = ([1], Some (Seen m0)) /\
    life_run (fun p => life_step fives comparison_eq_dec all (fst p) (snd p)) [(shy_of_eq, OpInsert Eq 4); (good, OpInsert Eq 10)] ([1], m0) =
      Some ([Caught PAssert; Seen (OutValue None)], ([1; 4], m1)) /\
    deque_run [Back] (pm_entries all m1) = ([Some (Gt, 3)], [(Lt, 2); (Eq, 10)]) /\
    destroyed_all fives None [1; 4] [2; 10] = ([1; 4; 2; 10], Some (Some PUser)).
Proof. eexists _, _. vm_compute. repeat split. Qed.
Example C110_total_map_end_case : forall cfg : Config,
  catch_run (fun c => total_next fives (fst c) (snd c)) [(good, Front); (good, Back)] ([], OrdinalTotalMap_into_iter [7; 10; 9]) =
    Some ([Seen (Some (Lt, 7)); Seen (Some (Gt, 9))], ([], {| e_next := 1; e_items := [10] |})) /\
  glue fives [10] ([], tt) = (([10], tt), Unwinds PUser).
Proof. intros [[] [] []]; vm_compute; repeat split. Qed.
