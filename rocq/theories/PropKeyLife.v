(** * PropKeyLife: C111 (properties.jsonl). *)
From Verif Require Import Base Spec SpecMap SpecCatch SpecLifeRun SpecKeyLife ModelOrdinal ModelValues ModelArrayBuilder
  ModelIter ModelTotal ModelMap MapMachine ModelCatch ModelLife ModelKeyLife OrdinalProofs KeyLifeProofs5.
From Coq Require Import List. Import ListNotations.

(** Every call is made inside [catch_unwind], with an implementation that is lawful except that its
    [ordinal] panics on some keys; the destructors of the keys and of the values may panic at any time.
    What the program sees, which keys and values are destroyed, in which order, and what the map
    contains in the end are as SpecKeyLife.v says; the process is aborted exactly if it says so.
    This holds whether or not a compiler destroys the result of a function whose locals panic. *)
Theorem C111_map : forall (cfg : Config) (K V : Type) (boom : list (K + V) -> K + V -> option panic) (drops_result : bool)
  (O : Ordinal K) (n : N), ordinal_bijection O n ->
  forall (eqd : forall a b : K, {a = b} + {a <> b}) (ks : list K), enumeration O ks ->
  forall ops : list (Ordinal K * map_op K V),
  Forall (fun p => panicking_version (fst p) O /\ heap_op (snd p) = true) ops ->
  match life_run (fun p => key_life_step boom drops_result eqd ks (fst p) (snd p)) ops ([], ([], pm_empty)) with
  | Some (outs, (log, (ks', m))) => exists st,
      catch_run (fun p => heap_keys boom drops_result (fst p) (snd p)) ops ([], OrdinalMap_new) = Some (outs, (log, st)) /\
      length st = length ks' /\
      OrdinalMap_debug O st = Val (pm_entries ks m) /\ forall k, OrdinalMap_get O st k = Val (m k)
  | None => exists ops1 p ops2 outs s, ops = ops1 ++ p :: ops2 /\
      catch_run (fun p => heap_keys boom drops_result (fst p) (snd p)) ops1 ([], OrdinalMap_new) = Some (outs, s) /\
      snd (heap_keys boom drops_result (fst p) (snd p) s) = Aborts
  end.
Proof. exact @heap_keys_exact. Qed.
Print Assumptions C111_map.

Theorem C111_array_map : forall (cfg : Config) (K V : Type) (boom : list (K + V) -> K + V -> option panic) (drops_result : bool)
  (O : Ordinal K) (n : N), ordinal_bijection O n ->
  forall (eqd : forall a b : K, {a = b} + {a <> b}) (ks : list K), enumeration O ks ->
  forall (S : nat) (ops : list (Ordinal K * map_op K V)), N.of_nat S = n ->
  Forall (fun p => panicking_version (fst p) O) ops ->
  exists a0 : @OrdinalArrayMap V S, OrdinalArrayMap_new O S = Val a0 /\
  match life_run (fun p => key_life_step boom drops_result eqd ks (fst p) (snd p)) ops ([], (ks, pm_empty)) with
  | Some (outs, (log, (ks', m))) => exists a,
      catch_run (fun p => array_keys boom drops_result (fst p) (S := S) (snd p)) ops ([], a0) = Some (outs, (log, a)) /\
      OrdinalArrayMap_debug O a = Val (pm_entries ks m) /\ forall k, OrdinalArrayMap_get O a k = Val (m k)
  | None => exists ops1 p ops2 outs s, ops = ops1 ++ p :: ops2 /\
      catch_run (fun p => array_keys boom drops_result (fst p) (S := S) (snd p)) ops1 ([], a0) = Some (outs, s) /\
      snd (array_keys boom drops_result (fst p) (S := S) (snd p) s) = Aborts
  end.
Proof. exact @array_keys_exact. Qed.
Print Assumptions C111_array_map.

(** ** Cases: the destructor of the key Eq panics if an odd number of destructors was started before, and that of
    the value 7 always. *)
Definition moody (log : list (comparison + N)) (x : comparison + N) : option panic :=
  match x with
  | inl Eq => if N.odd (N.of_nat (length log)) then Some PUser else None
  | inr 7 => Some PAssert
  | _ => None
  end.
Definition shy_of_lt : Ordinal comparison := {|
  ORDINAL_SIZE := ORDINAL_SIZE Ordinal_Ordering;
  ordinal := fun c => match c with Lt => Panic PAssert | _ => ordinal Ordinal_Ordering c end;
  from_ordinal := from_ordinal Ordinal_Ordering |}.
Definition ordering_eq_dec (a b : comparison) : {a = b} + {a <> b}.
Proof. decide equality. Defined.
Notation all := [Lt; Eq; Gt] (only parsing).
Notation good := Ordinal_Ordering (only parsing).
Definition sample : list (Ordinal comparison * map_op comparison N) :=
  [(good, OpLen); (good, OpInsert Lt 1); (shy_of_lt, OpInsert Lt 4); (good, OpInsert Eq 2); (good, OpLen); (good, OpInsert Eq 3);
   (good, OpInsert Eq 5); (good, OpIter [Front; Back]); (good, OpValues [Back]); (good, OpEntryMatch Eq 5 6); (good, OpEntryOrInsert Eq 8 9);
   (good, OpEntryOrInsert Eq 8 9); (good, OpDrain [Front] false); (good, OpDebug); (good, OpClear); (shy_of_lt, OpEntryDrop Lt)].
Definition destroyed_in_sample : list (comparison + N) :=
  [inl Lt; inr 4; inl Lt; inl Eq; inl Lt; inl Eq; inl Eq; inl Eq; inr 3; inl Gt; inl Gt; inl Eq; inl Eq; inl Eq; inr 8; inl Eq; inr 8; inl Eq; inr 6;
   inl Lt; inr 1; inl Lt; inl Eq; inl Gt; inl Lt; inl Eq; inl Lt].
Definition seen_by_sample : list (seen (map_out comparison N)) :=
  [Seen (OutNum 0); Seen (OutValue None); Caught PAssert; Caught PUser; Caught PUser; Seen (OutValue (Some 2));
   Caught PUser; Seen (OutEntries [Some (Lt, 1); Some (Eq, 5)]); Caught PUser; Seen (OutEntry Eq (Some 5)); Caught PUser;
   Caught PUser; Caught PUser; Seen (OutList []); Caught PUser; Caught PAssert].
Example C111_map_case : forall cfg : Config,
  catch_run (fun p => heap_keys moody true (fst p) (snd p)) sample ([], OrdinalMap_new) =
  Some (seen_by_sample, (destroyed_in_sample, [None; None; None])).
Proof. intros [[] [] []]; vm_compute; reflexivity. Qed.
Example C111_map_hypotheses : forall cfg : Config, ordinal_bijection good 3 /\ enumeration good all /\
  Forall (fun p => panicking_version (fst p) good /\ heap_op (snd p) = true) sample.
Proof.
  intros cfg. split; [apply Ordering_lawful|]. split; [split; [intros []; cbn; auto|]; repeat constructor; eexists _, _; repeat split|].
  assert (G : panicking_version good good) by (repeat split; intros k; now left).
  assert (H : panicking_version shy_of_lt good) by (repeat split; intros []; cbn; eauto).
  unfold sample. repeat (apply Forall_cons; [split; [assumption|reflexivity]|]). apply Forall_nil.
Qed.
(** The specification says the same. A compiler that does not destroy the result of [insert] leaks the
    old value 3, after which the rest of the program sees something else. And a program that aborts. *)
Example C111_map_spec :
  match life_run (fun p => key_life_step moody true ordering_eq_dec all (fst p) (snd p)) sample ([], ([], pm_empty)) with
  | Some (outs, (log, (ks', m))) => outs = seen_by_sample /\ log = destroyed_in_sample /\ ks' = all /\ pm_entries all m = []
  | None => False
  end /\
  match life_run (fun p => key_life_step moody false ordering_eq_dec all (fst p) (snd p)) sample ([], ([], pm_empty)) with
  | Some (outs, (log, _)) => firstn 8 outs = firstn 8 seen_by_sample /\ nth_error outs 8 = Some (Seen (OutValues [Some 5])) /\ ~ In (inr 3) log
  | None => False
  end /\
  life_run (fun p => key_life_step moody true ordering_eq_dec all (fst p) (snd p))
    [(good, OpInsert Gt 7); (good, OpInsert Eq 7); (good, OpClear)] ([], ([], pm_empty)) = None.
Proof.
  split; [vm_compute; repeat split|]. split; [|vm_compute; reflexivity].
  vm_compute. repeat split. intros H. repeat (destruct H as [H|H]; [discriminate H|]). exact H.
Qed.
Definition array_sample : list (Ordinal comparison * map_op comparison N) :=
  [(good, OpLen); (good, OpInsert Lt 3); (good, OpInsert Gt 4);
   (shy_of_lt, OpRetain (fun k v => (v + 1, match k with Lt => true | _ => false end)));
   (good, OpRetain (fun k v => (v + 1, match k with Lt => true | _ => false end)));
   (good, OpIterMut [Front; Front] (fun _ v => v * 2)); (good, OpValuesMut _ [Front; Front] (fun v => v * 2)); (good, OpIsEmpty); (good, OpDebug)].
Example C111_array_map_case : forall cfg : Config,
  option_map (fun r => (fst r, fst (snd r), arr_list (snd (snd r))))
    (catch_run (fun p => array_keys moody true (fst p) (S := 3) (snd p)) array_sample ([], mk_arr 3 [None; None; None] eq_refl)) =
  Some ([Caught PUser; Seen (OutValue None); Seen (OutValue None); Caught PUser; Caught PUser; Seen (OutEntries [Some (Lt, 5); Some (Gt, 4)]);
         Seen (OutValues [Some 10; Some 8]); Seen (OutBool false); Seen (OutList [(Lt, 20); (Gt, 16)])],
        [inl Lt; inl Eq; inl Lt; inl Gt; inl Lt; inl Eq; inl Lt; inl Eq; inl Eq; inl Lt; inl Eq; inl Gt; inl Lt; inl Lt; inl Eq; inl Gt],
        [Some 20; None; Some 16]) /\
  match life_run (fun p => key_life_step moody true ordering_eq_dec all (fst p) (snd p)) array_sample ([], (all, pm_empty)) with
  | Some (_, (_, (_, m))) => pm_entries all m = [(Lt, 20); (Gt, 16)]
  | None => False
  end.
Proof. intros [[] [] []]; vm_compute; split; reflexivity. Qed.
