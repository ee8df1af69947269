(** * PropLifeRun: C109 (properties.jsonl). *)
From Verif Require Import Base Spec SpecMap SpecTotal SpecCatch SpecLifeRun ModelOrdinal ModelValues ModelArrayBuilder
  ModelIter ModelTotal ModelMap MapMachine TotalMachine ModelCatch ModelLife OrdinalProofs LifeProofs5.
From Coq Require Import List. Import ListNotations.

(** Every call is made inside [catch_unwind], with an implementation that is lawful except that its
    [ordinal] panics on some keys (not always the same); the destructors of the values may panic at any
    time. What the program sees, what is destroyed, in which order, and what the map contains in the end
    are as SpecLifeRun.v says; the process is aborted exactly if it says so. *)
Theorem C109_map : forall (cfg : Config) (K V : Type) (boom : list V -> V -> option panic) (O : Ordinal K) (n : N),
  ordinal_bijection O n ->
  forall (eqd : forall a b : K, {a = b} + {a <> b}) (ks : list K), enumeration O ks ->
  forall ops : list (Ordinal K * map_op K V),
  Forall (fun p => panicking_version (fst p) O /\ heap_op (snd p) = true) ops ->
  match life_run (fun p => life_step boom eqd ks (fst p) (snd p)) ops ([], pm_empty) with
  | Some (outs, (log, m)) => exists st,
      catch_run (fun p => heap_life boom (fst p) (snd p)) ops ([], OrdinalMap_new) = Some (outs, (log, st)) /\
      OrdinalMap_debug O st = Val (pm_entries ks m) /\ forall k, OrdinalMap_get O st k = Val (m k)
  | None => exists ops1 p ops2 outs s, ops = ops1 ++ p :: ops2 /\
      catch_run (fun p => heap_life boom (fst p) (snd p)) ops1 ([], OrdinalMap_new) = Some (outs, s) /\
      snd (heap_life boom (fst p) (snd p) s) = Aborts
  end.
Proof. exact @heap_exact. Qed.
Print Assumptions C109_map.

Theorem C109_array_map : forall (cfg : Config) (K V : Type) (boom : list V -> V -> option panic) (O : Ordinal K) (n : N),
  ordinal_bijection O n ->
  forall (eqd : forall a b : K, {a = b} + {a <> b}) (ks : list K), enumeration O ks ->
  forall (S : nat) (ops : list (Ordinal K * map_op K V)), N.of_nat S = n ->
  Forall (fun p => panicking_version (fst p) O) ops ->
  exists a0 : @OrdinalArrayMap V S, OrdinalArrayMap_new O S = Val a0 /\
  match life_run (fun p => life_step boom eqd ks (fst p) (snd p)) ops ([], pm_empty) with
  | Some (outs, (log, m)) => exists a,
      catch_run (fun p => array_life boom (fst p) (S := S) (snd p)) ops ([], a0) = Some (outs, (log, a)) /\
      OrdinalArrayMap_debug O a = Val (pm_entries ks m) /\ forall k, OrdinalArrayMap_get O a k = Val (m k)
  | None => exists ops1 p ops2 outs s, ops = ops1 ++ p :: ops2 /\
      catch_run (fun p => array_life boom (fst p) (S := S) (snd p)) ops1 ([], a0) = Some (outs, s) /\
      snd (array_life boom (fst p) (S := S) (snd p) s) = Aborts
  end.
Proof. exact @array_exact. Qed.
Print Assumptions C109_array_map.

(** Total maps: [map m0 ks] are the values of a new map. *)
Theorem C109_total_map : forall (cfg : Config) (K V : Type) (boom : list V -> V -> option panic) (O : Ordinal K) (n : N),
  ordinal_bijection O n ->
  forall (eqd : forall a b : K, {a = b} + {a <> b}) (ks : list K), enumeration O ks ->
  forall (ops : list (Ordinal K * total_op K V)) (m0 : K -> V), Forall (fun p => panicking_version (fst p) O) ops ->
  match life_run (fun p => total_life_step boom eqd ks (fst p) (snd p)) ops ([], m0) with
  | Some (outs, (log, m)) =>
      catch_run (fun p => htotal_life boom (fst p) (snd p)) ops ([], map m0 ks) = Some (outs, (log, map m ks))
  | None => exists ops1 p ops2 outs s, ops = ops1 ++ p :: ops2 /\
      catch_run (fun p => htotal_life boom (fst p) (snd p)) ops1 ([], map m0 ks) = Some (outs, s) /\
      snd (htotal_life boom (fst p) (snd p) s) = Aborts
  end.
Proof. exact @htotal_exact. Qed.
Print Assumptions C109_total_map.

Theorem C109_total_array_map : forall (cfg : Config) (K V : Type) (boom : list V -> V -> option panic) (O : Ordinal K) (n : N),
  ordinal_bijection O n ->
  forall (eqd : forall a b : K, {a = b} + {a <> b}) (ks : list K), enumeration O ks ->
  forall (S : nat) (ops : list (Ordinal K * total_op K V)) (m0 : K -> V) (a0 : OrdinalTotalArrayMap S V), arr_list a0 = map m0 ks ->
  Forall (fun p => panicking_version (fst p) O) ops ->
  match life_run (fun p => total_life_step boom eqd ks (fst p) (snd p)) ops ([], m0) with
  | Some (outs, (log, m)) => exists a,
      catch_run (fun p => atotal_life boom (fst p) (S := S) (snd p)) ops ([], a0) = Some (outs, (log, a)) /\ arr_list a = map m ks
  | None => exists ops1 p ops2 outs s, ops = ops1 ++ p :: ops2 /\
      catch_run (fun p => atotal_life boom (fst p) (S := S) (snd p)) ops1 ([], a0) = Some (outs, s) /\
      snd (atotal_life boom (fst p) (S := S) (snd p) s) = Aborts
  end.
Proof. exact @atotal_exact. Qed.
Print Assumptions C109_total_array_map.

(** ** Cases: the destructors of multiples of 5 panic, and the third destructor does. *)
Definition fifths (log : list N) (v : N) : option panic :=
  if (v mod 5 =? 0) || (N.of_nat (length log) =? 2) then Some PUser else None.
Definition shy_of_eq : Ordinal comparison := {|
  ORDINAL_SIZE := ORDINAL_SIZE Ordinal_Ordering;
  ordinal := fun c => match c with Eq => Panic PAssert | _ => ordinal Ordinal_Ordering c end;
  from_ordinal := from_ordinal Ordinal_Ordering |}.
Definition comparison_eq_dec (a b : comparison) : {a = b} + {a <> b}.
Proof. decide equality. Defined.
Notation all := [Lt; Eq; Gt] (only parsing).
Notation good := Ordinal_Ordering (only parsing).
Example C109_shy : forall cfg : Config, panicking_version shy_of_eq good /\ panicking_version good good /\
  ordinal_bijection good 3 /\ enumeration good all.
Proof.
  intros cfg. split; [split; [reflexivity|]; split; [reflexivity|]; intros []; cbn; eauto|].
  split; [split; [reflexivity|]; split; [reflexivity|]; intros k; now left|].
  split; [apply Ordering_lawful|]. split; [intros []; cbn; auto|]. repeat constructor; eexists _, _; repeat split.
Qed.
Definition sample : list (Ordinal comparison * map_op comparison N) :=
  [(good, OpInsert Lt 1); (good, OpInsert Eq 5); (shy_of_eq, OpInsert Eq 4); (shy_of_eq, OpInsert Gt 3); (good, OpClear); (good, OpDebug);
   (good, OpInsert Lt 6); (good, OpEntryOrInsert Lt 10 11); (good, OpEntryOrInsert Lt 12 13); (shy_of_eq, OpClone _ (fun v => v + 1));
   (good, OpInsert Lt 15); (good, OpDrain [Back] false); (good, OpDebug)].
Definition seen_by_sample : list (seen (map_out comparison N)) :=
  [Seen (OutValue None); Seen (OutValue None); Caught PAssert; Seen (OutValue None); Caught PUser; Seen (OutList [(Gt, 3)]);
   Seen (OutValue None); Caught PUser; Seen (OutValue (Some 6)); Seen OutUnit; Seen (OutValue (Some 14)); Caught PUser; Seen (OutList [])].
Example C109_map_case : forall cfg : Config,
  catch_run (fun p => heap_life fifths (fst p) (snd p)) sample ([], OrdinalMap_new) =
  Some (seen_by_sample, ([4; 1; 5; 10; 12; 13; 3; 15; 4], [None; None; None])).
Proof. intros [[] [] []]; vm_compute; reflexivity. Qed.
Example C109_map_hypotheses : Forall (fun p => panicking_version (fst p) good /\ heap_op (snd p) = true) sample.
Proof.
  assert (G : panicking_version good good) by (repeat split; intros k; now left).
  assert (H : panicking_version shy_of_eq good) by (repeat split; intros []; cbn; eauto).
  unfold sample. repeat (apply Forall_cons; [split; [assumption|reflexivity]|]). apply Forall_nil.
Qed.
(** The specification says the same; and a program that aborts. *)
Example C109_map_spec :
  match life_run (fun p => life_step fifths comparison_eq_dec all (fst p) (snd p)) sample ([], pm_empty) with
  | Some (outs, (log, m)) => outs = seen_by_sample /\ log = [4; 1; 5; 10; 12; 13; 3; 15; 4] /\ pm_entries all m = []
  | None => False
  end /\
  life_run (fun p => life_step fifths comparison_eq_dec all (fst p) (snd p)) [(good, OpInsert Lt 5); (good, OpInsert Gt 10); (good, OpClone _ (fun v => v))]
    ([], pm_empty) = None.
Proof. split; vm_compute; repeat split. Qed.
Example C109_array_map_case : forall cfg : Config,
  option_map (fun r => (fst r, fst (snd r), arr_list (snd (snd r))))
    (catch_run (fun p => array_life fifths (fst p) (S := 3) (snd p))
      [(good, OpInsert Lt 3); (good, OpInsert Eq 4); (good, OpInsert Gt 6); (shy_of_eq, OpRetain (fun k v => (v + 1, match k with Lt => true | _ => false end)));
       (good, OpDebug); (good, OpClear)] ([], mk_arr 3 [None; None; None] eq_refl)) =
  Some ([Seen (OutValue None); Seen (OutValue None); Seen (OutValue None); Caught PUser; Seen (OutList [(Lt, 4); (Gt, 6)]); Caught PUser],
        [5; 4; 6], [None; None; None]).
Proof. intros [[] [] []]; vm_compute; reflexivity. Qed.
Example C109_total_map_case : forall cfg : Config,
  catch_run (fun p => htotal_life fifths (fst p) (snd p))
    [(shy_of_eq, TInsert Eq 4); (shy_of_eq, TInsert Gt 7); (good, TClone_ _ (fun v => v + 1)); (good, TDebug_)] ([], map (fun _ => 1) all) =
  Some ([Caught PAssert; Seen (TOValue 1); Caught PUser; Seen (TOList [(Lt, 2); (Eq, 2); (Gt, 8)])], ([4; 1; 1; 7], map (fun c => match c with Gt => 8 | _ => 2 end) all)).
Proof. intros [[] [] []]; vm_compute; reflexivity. Qed.
Example C109_total_array_map_case : forall cfg : Config,
  option_map (fun r => (fst r, fst (snd r), arr_list (snd (snd r))))
    (catch_run (fun p => atotal_life fifths (fst p) (S := 3) (snd p))
      [(shy_of_eq, TInsert Eq 4); (good, TInsert Eq 4); (good, TClone_ _ (fun v => v + 1))] ([], mk_arr 3 [1; 2; 3] eq_refl)) =
  Some ([Caught PAssert; Seen (TOValue 2); Caught PUser], [4; 1; 4; 3], [2; 5; 4]).
Proof. intros [[] [] []]; vm_compute; reflexivity. Qed.
