(** * PropLife: C107 and C108 (properties.jsonl). *)
From Verif Require Import Base Spec SpecIter SpecMap SpecTotal SpecCatch SpecResume SpecLedger SpecLife ModelOrdinal ModelValues ModelArrayBuilder
  ModelIter ModelTotal ModelMap MapMachine TotalMachine ModelCatch ModelLife OrdinalProofs LifeProofs LifeProofs2 LifeProofs3 LifeProofs4.
From Coq Require Import List Permutation. Import ListNotations.

(** ** C107. Destructors may panic: every value that leaves a map without being handed to the client is
    destroyed exactly once, and no other value is. *)
Theorem C107_map : forall (V : Type) (boom : list V -> V -> option panic) (cfg : Config) (K : Type)
  (ops : list (Ordinal K * map_op K V)) log (m : @OrdinalMap V) outs log' m',
  catch_run (fun p => heap_life boom (fst p) (snd p)) ops (log, m) = Some (outs, (log', m')) ->
  exists gs ts ds, log' = log ++ ds /\ books (fun p => life_account (snd p)) ops outs (stored m) gs ts ds (stored m') /\
    balanced (stored m) gs ts ds (stored m').
Proof. exact @heap_life_books. Qed.
Print Assumptions C107_map.

Theorem C107_array_map : forall (V : Type) (boom : list V -> V -> option panic) (cfg : Config) (K : Type) (S : nat)
  (ops : list (Ordinal K * map_op K V)) log (m : @OrdinalArrayMap V S) outs log' m',
  catch_run (fun p => array_life boom (fst p) (S := S) (snd p)) ops (log, m) = Some (outs, (log', m')) ->
  exists gs ts ds, log' = log ++ ds /\
    books (fun p => life_account (snd p)) ops outs (stored (arr_list m)) gs ts ds (stored (arr_list m')) /\
    balanced (stored (arr_list m)) gs ts ds (stored (arr_list m')).
Proof. exact @array_life_books. Qed.
Print Assumptions C107_array_map.

Theorem C107_total_map : forall (V : Type) (boom : list V -> V -> option panic) (cfg : Config) (K : Type)
  (ops : list (Ordinal K * total_op K V)) log (m : @OrdinalTotalMap V) outs log' m',
  catch_run (fun p => htotal_life boom (fst p) (snd p)) ops (log, m) = Some (outs, (log', m')) ->
  exists gs ts ds, log' = log ++ ds /\ books (fun p => total_life_account (snd p)) ops outs m gs ts ds m' /\ balanced m gs ts ds m'.
Proof. exact @htotal_life_books. Qed.
Print Assumptions C107_total_map.

Theorem C107_total_array_map : forall (V : Type) (boom : list V -> V -> option panic) (cfg : Config) (K : Type) (S : nat)
  (ops : list (Ordinal K * total_op K V)) log (m : OrdinalTotalArrayMap S V) outs log' m',
  catch_run (fun p => atotal_life boom (fst p) (S := S) (snd p)) ops (log, m) = Some (outs, (log', m')) ->
  exists gs ts ds, log' = log ++ ds /\
    books (fun p => total_life_account (snd p)) ops outs (arr_list m) gs ts ds (arr_list m') /\
    balanced (arr_list m) gs ts ds (arr_list m').
Proof. exact @atotal_life_books. Qed.
Print Assumptions C107_total_array_map.

(** If a call aborts the process, it is [insert], [clear], a Drain or the assignment of a clone; up to
    then no value has been destroyed twice. *)
Theorem C107_abort : forall (V : Type) (boom : list V -> V -> option panic) (cfg : Config) (K : Type) (O : Ordinal K) (S : nat) log log',
  (forall op m m', heap_life boom O op (log, m) = ((log', m'), Aborts) ->
     exists g ds rest, log' = log ++ ds /\ abort_account op (stored m) g /\ balanced (stored m) g [] ds rest) /\
  (forall op m m', array_life boom O (S := S) op (log, m) = ((log', m'), Aborts) ->
     exists g ds rest, log' = log ++ ds /\ abort_account op (stored (arr_list m)) g /\ balanced (stored (arr_list m)) g [] ds rest) /\
  (forall op m m', htotal_life boom O op (log, m) = ((log', m'), Aborts) ->
     exists g ds rest, log' = log ++ ds /\ total_abort_account op m g /\ balanced m g [] ds rest) /\
  (forall op m m', atotal_life boom O (S := S) op (log, m) = ((log', m'), Aborts) ->
     exists g ds rest, log' = log ++ ds /\ total_abort_account op (arr_list m) g /\ balanced (arr_list m) g [] ds rest).
Proof. exact @all_aborts. Qed.
Print Assumptions C107_abort.

(** ** C108. The beginning and the end of a map's life. *)

(** Collecting: each value is in the map or destroyed, and after a panic each is destroyed. *)
Theorem C108_collect : forall (V : Type) (boom : list V -> V -> option panic) (cfg : Config) (K : Type) (O : Ordinal K)
  (l : list (K * V)) log u s' e,
  heap_from_iter_life boom O l (log, u) = (s', e) ->
  match e with
  | Ended m => exists ds, fst s' = log ++ ds /\ Permutation (map snd l) (ds ++ stored m)
  | Unwinds _ => exists ds, fst s' = log ++ ds /\ Permutation (map snd l) ds
  | Aborts => exists ds rest, fst s' = log ++ ds /\ Permutation (map snd l) (ds ++ rest)
  | Stuck => True
  end.
Proof. exact @heap_begun. Qed.
Print Assumptions C108_collect.

Theorem C108_collect_array : forall (V : Type) (boom : list V -> V -> option panic) (cfg : Config) (K : Type) (O : Ordinal K) (S : nat)
  (l : list (K * V)) log u s' e,
  array_from_iter_life boom O S l (log, u) = (s', e) ->
  match e with
  | Ended m => exists ds, fst s' = log ++ ds /\ Permutation (map snd l) (ds ++ stored (arr_list m))
  | Unwinds _ => exists ds, fst s' = log ++ ds /\ Permutation (map snd l) ds
  | Aborts => exists ds rest, fst s' = log ++ ds /\ Permutation (map snd l) (ds ++ rest)
  | Stuck => True
  end.
Proof. exact @array_begun. Qed.
Print Assumptions C108_collect_array.

(** Making a total map: what [init] has made is the map, or is destroyed if [init] returns an error or
    panics. *)
Theorem C108_try_new : forall (V : Type) (boom : list V -> V -> option panic) (K : Type) (O : Ordinal K) (E St : Type)
  (init : St -> K -> St * res (result V E)) (made : St -> list V), records init made ->
  forall log st log' st' e, htotal_try_new_life boom O init (log, st) = ((log', st'), e) ->
  exists new, made st' = made st ++ new /\
    match e with
    | Ended (ResOk m) => log' = log /\ m = new
    | Ended (ResErr _) | Unwinds _ => log' = log ++ new
    | Aborts => exists a b, new = a ++ b /\ log' = log ++ a
    | Stuck => True
    end.
Proof. exact @htotal_made. Qed.
Print Assumptions C108_try_new.

(** The same for the array map; but when the destructor of the builder meets a value whose destructor panics,
    the values after it are leaked. *)
Theorem C108_try_new_array : forall (V : Type) (boom : list V -> V -> option panic) (K : Type) (O : Ordinal K) (E St : Type)
  (init : St -> K -> St * res (result V E)) (made : St -> list V), records init made ->
  forall (S : nat) log st log' st' e, atotal_try_new_life boom O S init (log, st) = ((log', st'), e) ->
  exists new, made st' = made st ++ new /\
    match e with
    | Ended (ResOk m) => log' = log /\ arr_list m = new
    | Ended (ResErr _) => log' = log ++ new
    | Unwinds w => exists ds, log' = log ++ ds /\
        (Permutation new ds \/ exists a v b, new = a ++ v :: b /\ ds = a ++ [v] /\ boom (log ++ a) v = Some w)
    | Aborts => exists ds rest, log' = log ++ ds /\ Permutation new (ds ++ rest)
    | Stuck => True
    end.
Proof. exact @atotal_made. Qed.
Print Assumptions C108_try_new_array.

(** Owning iterators, each call inside its own [catch_unwind]: each value is handed out, destroyed or still there. *)
Theorem C108_into_iter : forall (V : Type) (boom : list V -> V -> option panic) (cfg : Config) (K : Type)
  (calls : list (Ordinal K * dir)) log got log',
  (forall it it' : enumerate (option V),
     catch_run (fun p => owned_next boom (fst p) (snd p)) calls (log, it) = Some (got, (log', it')) ->
     exists ds, log' = log ++ ds /\ Permutation (stored (e_items it)) (handed got ++ ds ++ stored (e_items it'))) /\
  (forall it it' : enumerate V,
     catch_run (fun p => total_next boom (fst p) (snd p)) calls (log, it) = Some (got, (log', it')) ->
     exists ds, log' = log ++ ds /\ Permutation (e_items it) (handed got ++ ds ++ e_items it')).
Proof. exact @all_eaten. Qed.
Print Assumptions C108_into_iter.

(** From collecting a map, through a program of calls, to destroying its owning iterator: each value given is
    handed back or destroyed, and if the values given are distinct no value is destroyed twice. *)
Theorem C108_map_life : forall (V : Type) (boom : list V -> V -> option panic) (cfg : Config) (K : Type) (O : Ordinal K)
  (l : list (K * V)) u log0 m (ops : list (Ordinal K * map_op K V)) outs log1 m1 calls got log2 it2 log3 e,
  heap_from_iter_life boom O l ([], tt) = ((log0, u), Ended m) ->
  catch_run (fun p => heap_life boom (fst p) (snd p)) ops (log0, m) = Some (outs, (log1, m1)) ->
  catch_run (fun p : Ordinal K * dir => owned_next boom (fst p) (snd p)) calls (log1, OrdinalMap_into_iter m1) = Some (got, (log2, it2)) ->
  glue boom (stored (e_items it2)) (log2, tt) = ((log3, tt), e) -> e <> Aborts ->
  exists gs ts ds, books (fun p => life_account (snd p)) ops outs (stored m) gs ts ds (stored m1) /\
    Permutation (map snd l ++ gs) ((ts ++ handed got) ++ log3) /\
    (NoDup (map snd l ++ gs) -> NoDup log3 /\ forall v, In v log3 -> ~ In v (ts ++ handed got)).
Proof. exact @heap_whole_life. Qed.
Print Assumptions C108_map_life.

Theorem C108_array_map_life : forall (V : Type) (boom : list V -> V -> option panic) (cfg : Config) (K : Type) (O : Ordinal K) (S : nat)
  (l : list (K * V)) u log0 m (ops : list (Ordinal K * map_op K V)) outs log1 m1 calls got log2 it2 log3 e,
  array_from_iter_life boom O S l ([], tt) = ((log0, u), Ended m) ->
  catch_run (fun p => array_life boom (fst p) (S := S) (snd p)) ops (log0, m) = Some (outs, (log1, m1)) ->
  catch_run (fun p : Ordinal K * dir => owned_next boom (fst p) (snd p)) calls (log1, OrdinalArrayMap_into_iter m1) = Some (got, (log2, it2)) ->
  glue boom (stored (e_items it2)) (log2, tt) = ((log3, tt), e) -> e <> Aborts ->
  exists gs ts ds, books (fun p => life_account (snd p)) ops outs (stored (arr_list m)) gs ts ds (stored (arr_list m1)) /\
    Permutation (map snd l ++ gs) ((ts ++ handed got) ++ log3) /\
    (NoDup (map snd l ++ gs) -> NoDup log3 /\ forall v, In v log3 -> ~ In v (ts ++ handed got)).
Proof. exact @array_whole_life. Qed.
Print Assumptions C108_array_map_life.

Theorem C108_total_map_life : forall (V : Type) (boom : list V -> V -> option panic) (cfg : Config) (K : Type) (O : Ordinal K) (E St : Type)
  (init : St -> K -> St * res (result V E)) made st st1 log0 m (ops : list (Ordinal K * total_op K V)) outs log1 m1 calls got log2 it2 log3 e,
  records init made ->
  htotal_try_new_life boom O init ([], st) = ((log0, st1), Ended (ResOk m)) ->
  catch_run (fun p => htotal_life boom (fst p) (snd p)) ops (log0, m) = Some (outs, (log1, m1)) ->
  catch_run (fun p : Ordinal K * dir => total_next boom (fst p) (snd p)) calls (log1, OrdinalTotalMap_into_iter m1) = Some (got, (log2, it2)) ->
  glue boom (e_items it2) (log2, tt) = ((log3, tt), e) -> e <> Aborts ->
  exists new gs ts ds, made st1 = made st ++ new /\ books (fun p => total_life_account (snd p)) ops outs m gs ts ds m1 /\
    Permutation (new ++ gs) ((ts ++ handed got) ++ log3) /\
    (NoDup (new ++ gs) -> NoDup log3 /\ forall v, In v log3 -> ~ In v (ts ++ handed got)).
Proof. exact @htotal_whole_life. Qed.
Print Assumptions C108_total_map_life.

Theorem C108_total_array_map_life : forall (V : Type) (boom : list V -> V -> option panic) (cfg : Config) (K : Type) (O : Ordinal K) (S : nat)
  (E St : Type) (init : St -> K -> St * res (result V E)) made st st1 log0 m (ops : list (Ordinal K * total_op K V)) outs log1 m1 calls got log2 it2 log3 e,
  records init made ->
  atotal_try_new_life boom O S init ([], st) = ((log0, st1), Ended (ResOk m)) ->
  catch_run (fun p => atotal_life boom (fst p) (S := S) (snd p)) ops (log0, m) = Some (outs, (log1, m1)) ->
  catch_run (fun p : Ordinal K * dir => total_next boom (fst p) (snd p)) calls (log1, OrdinalTotalArrayMap_into_iter m1) = Some (got, (log2, it2)) ->
  glue boom (e_items it2) (log2, tt) = ((log3, tt), e) -> e <> Aborts ->
  exists new gs ts ds, made st1 = made st ++ new /\ books (fun p => total_life_account (snd p)) ops outs (arr_list m) gs ts ds (arr_list m1) /\
    Permutation (new ++ gs) ((ts ++ handed got) ++ log3) /\
    (NoDup (new ++ gs) -> NoDup log3 /\ forall v, In v log3 -> ~ In v (ts ++ handed got)).
Proof. exact @atotal_whole_life. Qed.
Print Assumptions C108_total_array_map_life.

(** ** Cases *)

(** The destructors of multiples of 5 panic. [gappy] is [Ordering] with an [ordinal] that panics for [Gt] and a
    [from_ordinal] that panics for 2. *)
Definition fives (_ : list N) (v : N) : option panic := if v mod 5 =? 0 then Some PUser else None.
Definition gappy : Ordinal comparison := {|
  ORDINAL_SIZE := Val 3;
  ordinal := fun k => match k with Gt => Panic PAssert | k => ordinal Ordinal_Ordering k end;
  from_ordinal := fun i => if i =? 2 then Panic PAssert else from_ordinal Ordinal_Ordering i |}.
Notation good := Ordinal_Ordering (only parsing).

Example C107_map_case : forall cfg : Config,
  catch_run (fun p => heap_life fives (fst p) (snd p))
    [(good, OpInsert Lt 1); (good, OpInsert Eq 5); (good, OpInsert Gt 3); (gappy, OpInsert Gt 4);
     (good, OpEntryOrInsert Lt 10 11); (good, OpEntryOrInsert Lt 12 13); (good, OpClear); (good, OpInsert Lt 15); (good, OpClone _ (fun v => v + 1));
     (gappy, OpDrain [Front] false)]
    ([], OrdinalMap_new) =
  Some ([Seen (OutValue None); Seen (OutValue None); Seen (OutValue None); Caught PAssert; Caught PUser; Seen (OutValue (Some 1));
         Caught PUser; Seen (OutValue None); Caught PUser; Caught PAssert],
        ([4; 10; 12; 13; 5; 15; 3; 16], [None; None; Some 4])).
Proof. intros [[] [] []]; vm_compute; reflexivity. Qed.
Example C107_array_map_case : forall cfg : Config,
  option_map (fun r => (fst r, fst (snd r), arr_list (snd (snd r))))
    (catch_run (fun p => array_life fives (fst p) (S := 3) (snd p))
      [(good, OpRetain (fun _ v => (v + 2, v <? 2))); (good, OpRetain (fun _ v => (v, false)))] ([], mk_arr 3 [Some 1; Some 3; Some 4] eq_refl)) =
  Some ([Caught PUser; Seen OutUnit], [5; 3; 4], [None; None; None]).
Proof. intros [[] [] []]; vm_compute; reflexivity. Qed.
Example C107_total_map_case : forall cfg : Config,
  catch_run (fun p => htotal_life fives (fst p) (snd p))
    [(gappy, TInsert Gt 7); (good, TInsert Lt 10); (good, TClone_ _ (fun v => v + 1))] ([], [1; 2; 3]) =
  Some ([Caught PAssert; Seen (TOValue 1); Caught PUser], ([7; 10; 2; 3], [11; 3; 4])).
Proof. intros [[] [] []]; vm_compute; reflexivity. Qed.
(** Two destructors of a clone's predecessor panic; and [insert] panics with a value whose destructor panics. *)
Example C107_abort_case : forall cfg : Config,
  heap_life fives good (OpClone _ (fun v => v + 1)) ([], [Some 5; Some 1; Some 10; Some 2]) =
    (([5; 1; 10], [Some 6; Some 2; Some 11; Some 3]), Aborts) /\
  htotal_life fives gappy (TInsert Gt 5) ([], [1; 2; 3]) = (([5], [1; 2; 3]), Aborts).
Proof. intros [[] [] []]; vm_compute; split; reflexivity. Qed.
Example C108_collect_case : forall cfg : Config,
  heap_from_iter_life fives good [(Lt, 1); (Lt, 2); (Eq, 5); (Eq, 3); (Gt, 4)] ([], tt) = (([1; 5; 4; 2; 3], tt), Unwinds PUser) /\
  heap_from_iter_life fives gappy [(Lt, 1); (Gt, 2); (Eq, 4)] ([], tt) = (([2; 4; 1], tt), Unwinds PAssert).
Proof. intros [[] [] []]; vm_compute; split; reflexivity. Qed.

(** An [init] that makes the numbers from 4, and fails for [Gt]. *)
Definition counts (st : list N) (k : comparison) : list N * res (result N unit) :=
  match k with
  | Gt => (st, Val (ResErr tt))
  | _ => (st ++ [4 + N.of_nat (length st)], Val (ResOk (4 + N.of_nat (length st))))
  end.
Definition counts_all (st : list N) (k : comparison) : list N * res (result N unit) :=
  (st ++ [4 + N.of_nat (length st)], Val (ResOk (4 + N.of_nat (length st)))).
Example C108_records : records counts (fun st => st) /\ records counts_all (fun st => st).
Proof. split; [intros st []; cbn; rewrite ?app_nil_r; reflexivity|intros st k; reflexivity]. Qed.
Example C108_try_new_case : forall cfg : Config,
  htotal_try_new_life fives good counts ([], []) = (([4; 5], [4; 5]), Unwinds PUser) /\
  htotal_try_new_life fives good counts ([], [0; 0]) = (([6; 7], [0; 0; 6; 7]), Ended (ResErr tt)).
Proof. intros [[] [] []]; vm_compute; split; reflexivity. Qed.
(** The builder leaks 6, which comes after 5; the vector does not. *)
Example C108_leak_case : forall cfg : Config,
  atotal_try_new_life fives good 3 counts ([], [0]) = (([5], [0; 5; 6]), Unwinds PUser) /\
  htotal_try_new_life fives good counts ([], [0]) = (([5; 6], [0; 5; 6]), Unwinds PUser).
Proof. intros [[] [] []]; vm_compute; split; reflexivity. Qed.
Example C108_into_iter_case : forall cfg : Config, exists it,
  catch_run (fun p => owned_next fives (fst p) (snd p)) [(gappy, Back); (good, Front); (good, Back)]
    ([], OrdinalMap_into_iter [Some 1; Some 2; Some 3]) = Some ([Caught PAssert; Seen (Some (Lt, 1)); Seen (Some (Eq, 2))], ([3], it)) /\
  stored (e_items it) = [].
Proof. intros [[] [] []]; eexists; vm_compute; split; reflexivity. Qed.
Example C108_map_life_case : forall cfg : Config, exists m it,
  heap_from_iter_life fives good [(Lt, 1); (Lt, 2); (Eq, 5); (Gt, 3)] ([], tt) = (([1], tt), Ended m) /\
  catch_run (fun p => heap_life fives (fst p) (snd p)) [(gappy, OpInsert Gt 4); (good, OpInsert Lt 6)] ([1], m) =
    Some ([Caught PAssert; Seen (OutValue (Some 2))], ([1; 4], [Some 6; Some 5; Some 3])) /\
  catch_run (fun p : Ordinal comparison * dir => owned_next fives (fst p) (snd p)) [(good, Front)]
    ([1; 4], OrdinalMap_into_iter [Some 6; Some 5; Some 3]) = Some ([Seen (Some (Lt, 6))], ([1; 4], it)) /\
  glue fives (stored (e_items it)) ([1; 4], tt) = (([1; 4; 5; 3], tt), Unwinds PUser).
Proof. intros [[] [] []]; do 2 eexists; vm_compute; repeat split. Qed.
