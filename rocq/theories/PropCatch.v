(** * PropCatch: C96 (properties.jsonl). *)
From Verif Require Import Base Spec SpecMap SpecTotal SpecSet SpecCatch ModelOrdinal ModelValues ModelArrayBuilder ModelIter
  ModelTotal ModelMap ModelSet MapMachine TotalMachine SetMachine ModelCatch OrdinalProofs ArrayProofs CatchProofs CatchProofs2
  CatchProofs3 CatchProofs4 CatchProofs5.
From Coq Require Import List. Import ListNotations.

(** ** C96. A panic in [ordinal] that is caught leaves a map or set that stands for the same map or
    set. ModelCatch.v says what each call leaves behind. *)

(** Its calls return exactly when those of the other model files do, with the same results. *)
Theorem C96_same_calls : forall (cfg : Config) (K V : Type) (O : Ordinal K) (S : nat),
  (forall op m (o : map_out K V) m', heap_step O op m = Val (o, m') <-> heap_act O op m = (m', Ended o)) /\
  (forall op (m : @OrdinalArrayMap V S) o m', array_step O op m = Val (o, m') <-> array_act O op m = (m', Ended o)) /\
  (forall op m (o : total_out K V) m', htotal_step O op m = Val (o, m') <-> htotal_act O op m = (m', Ended o)) /\
  (forall op (m : OrdinalTotalArrayMap S V) o m', atotal_step O op m = Val (o, m') <-> atotal_act O op m = (m', Ended o)) /\
  (forall op s o s', set_step O op s = Val (o, s') <-> set_act O op s = (s', Ended o)) /\
  (forall op (s : OrdinalArraySet S) o s', array_set_step O op s = Val (o, s') <-> array_set_act O op s = (s', Ended o)) /\
  (forall op s o s', set64_step O op s = Val (o, s') <-> set64_act O op s = (s', Ended o)).
Proof. exact @same_calls. Qed.
Print Assumptions C96_same_calls.

(** For every implementation of the trait, whatever panics: no slot or word has changed, except that
    those of an OrdinalMap or a large OrdinalSet may have been created, empty. *)
Theorem C96_left_behind : forall (cfg : Config) (K V : Type) (O : Ordinal K) (S : nat) (w : panic),
  (forall (op : map_op K V) m m', bulk op = false -> heap_act O op m = (m', Unwinds w) ->
    m' = m \/ m = [] /\ exists n, ORDINAL_SIZE O = Val n /\ m' = repeat None (N.to_nat n)) /\
  (forall op (m m' : @OrdinalArrayMap V S), bulk op = false -> array_act O op m = (m', Unwinds w) -> m = m') /\
  (forall (op : total_op K V) m m', htotal_act O op m = (m', Unwinds w) -> m = m') /\
  (forall op (m m' : OrdinalTotalArrayMap S V), atotal_act O op m = (m', Unwinds w) -> m = m') /\
  (forall op s s', set_act O op s = (s', Unwinds w) ->
    s' = s \/ s = Large [] /\ exists n, ORDINAL_SIZE O = Val n /\ s' = Large (repeat 0 (N.to_nat ((n + 63) / 64)))) /\
  (forall op (s s' : OrdinalArraySet S), array_set_act O op s = (s', Unwinds w) -> s = s') /\
  (forall op s s', set64_act O op s = (s', Unwinds w) -> s = s').
Proof. exact @left_behind. Qed.
Print Assumptions C96_left_behind.

(** Programs that catch every panic. [O] is a lawful implementation, except that its [ordinal]
    panics on some keys: a call panics exactly if [ordinal] panics on its key, and then it is as if
    the call had not been made. *)
Theorem C96_map_programs : forall (cfg : Config) (K V : Type) (O O0 : Ordinal K), panicking_version O O0 ->
  forall n, ordinal_bijection O0 n ->
  forall (eqd : forall a b : K, {a = b} + {a <> b}) (ks : list K), enumeration O0 ks ->
  forall ops : list (map_op K V), forallb heap_op ops = true ->
  exists outs st m, catch_run (heap_act O) ops OrdinalMap_new = Some (outs, st) /\
    caught_program (spec_step eqd ks) (fun op => key_returns O (map_key op)) (fun op => key_panics O (map_key op))
      ops outs pm_empty m /\
    OrdinalMap_debug O st = Val (pm_entries ks m) /\
    forall k, (exists i, ordinal O k = Val i) -> OrdinalMap_get O st k = Val (m k).
Proof. exact @heap_behaves. Qed.
Print Assumptions C96_map_programs.

Theorem C96_array_map_programs : forall (cfg : Config) (K V : Type) (O O0 : Ordinal K), panicking_version O O0 ->
  forall n, ordinal_bijection O0 n ->
  forall (eqd : forall a b : K, {a = b} + {a <> b}) (ks : list K), enumeration O0 ks ->
  forall (S : nat) (ops : list (map_op K V)), N.of_nat S = n ->
  exists (a0 : @OrdinalArrayMap V S) outs a m, OrdinalArrayMap_new O S = Val a0 /\
    catch_run (array_act O (S := S)) ops a0 = Some (outs, a) /\
    caught_program (spec_step eqd ks) (fun op => key_returns O (map_key op)) (fun op => key_panics O (map_key op))
      ops outs pm_empty m /\
    OrdinalArrayMap_debug O a = Val (pm_entries ks m) /\
    forall k, (exists i, ordinal O k = Val i) -> OrdinalArrayMap_get O a k = Val (m k).
Proof. exact @array_behaves. Qed.
Print Assumptions C96_array_map_programs.

Theorem C96_total_map_programs : forall (cfg : Config) (K V : Type) (O O0 : Ordinal K), panicking_version O O0 ->
  forall n, ordinal_bijection O0 n ->
  forall (eqd : forall a b : K, {a = b} + {a <> b}) (ks : list K), enumeration O0 ks ->
  forall (ops : list (total_op K V)) (m0 : K -> V),
  exists outs m, catch_run (htotal_act O) ops (map m0 ks) = Some (outs, map m ks) /\
    caught_program (total_step eqd ks) (fun op => key_returns O (total_key op)) (fun op => key_panics O (total_key op))
      ops outs m0 m.
Proof. exact @htotal_catch_law. Qed.
Print Assumptions C96_total_map_programs.

Theorem C96_total_array_map_programs : forall (cfg : Config) (K V : Type) (O O0 : Ordinal K), panicking_version O O0 ->
  forall n, ordinal_bijection O0 n ->
  forall (eqd : forall a b : K, {a = b} + {a <> b}) (ks : list K), enumeration O0 ks ->
  forall (S : nat) (ops : list (total_op K V)) (a0 : OrdinalTotalArrayMap S V) (m0 : K -> V), arr_list a0 = map m0 ks ->
  exists outs a m, catch_run (atotal_act O (S := S)) ops a0 = Some (outs, a) /\ arr_list a = map m ks /\
    caught_program (total_step eqd ks) (fun op => key_returns O (total_key op)) (fun op => key_panics O (total_key op))
      ops outs m0 m.
Proof. exact @atotal_catch_law. Qed.
Print Assumptions C96_total_array_map_programs.

(** Sets: iteration and {:?} ask for the ordinals of elements that are not in the set. The
    hypotheses on [n] are those of C50 and C52. *)
Theorem C96_set_programs : forall (cfg : Config) (T : Type) (O O0 : Ordinal T), panicking_version O O0 ->
  forall n, ordinal_bijection O0 n ->
  forall (eqd : forall a b : T, {a = b} + {a <> b}) (ks : list T), enumeration O0 ks ->
  forall ops : list (set_op T), n <= usize_max - 64 \/ n <= 64 -> 1 <= n \/ debug_assertions = false ->
  exists s0 outs s m, OrdinalSet_new O = Val s0 /\ catch_run (set_act O) ops s0 = Some (outs, s) /\
    caught_program (sspec_step eqd ks) (set_returns O) (set_panics O scans_words) ops outs ms_empty m /\
    forall t, (exists i, ordinal O t = Val i) -> OrdinalSet_contains O s t = Val (m t).
Proof. exact @set_behaves. Qed.
Print Assumptions C96_set_programs.

Theorem C96_array_set_programs : forall (cfg : Config) (T : Type) (O O0 : Ordinal T), panicking_version O O0 ->
  forall n, ordinal_bijection O0 n ->
  forall (eqd : forall a b : T, {a = b} + {a <> b}) (ks : list T), enumeration O0 ks ->
  forall (S : nat) (ops : list (set_op T)), N.of_nat S = (n + 63) / 64 -> forallb not_iter ops = true ->
  exists s0 outs s m, OrdinalArraySet_new O S = Val s0 /\ catch_run (array_set_act O (S := S)) ops s0 = Some (outs, s) /\
    caught_program (sspec_step eqd ks) (set_returns O) (set_panics O scans_words) ops outs ms_empty m /\
    forall t, (exists i, ordinal O t = Val i) -> OrdinalArraySet_contains O s t = Val (m t).
Proof. exact @array_set_behaves. Qed.
Print Assumptions C96_array_set_programs.

Theorem C96_set64_programs : forall (cfg : Config) (T : Type) (O O0 : Ordinal T), panicking_version O O0 ->
  forall n, ordinal_bijection O0 n ->
  forall (eqd : forall a b : T, {a = b} + {a <> b}) (ks : list T), enumeration O0 ks ->
  forall ops : list (set_op T), n <= 64 -> forallb not_debug ops = true \/ 1 <= n \/ debug_assertions = false ->
  exists s0 outs s m, OrdinalSet64_new O = Val s0 /\ catch_run (set64_act O) ops s0 = Some (outs, s) /\
    caught_program (sspec_step eqd ks) (set_returns O) (set_panics O scans_set64) ops outs ms_empty m /\
    forall t, (exists i, ordinal O t = Val i) -> OrdinalSet64_contains O s t = Val (m t).
Proof. exact @set64_behaves. Qed.
Print Assumptions C96_set64_programs.

(** The exception: OrdinalMap::contains_key tells whether slots exist (C27), so it sees that an
    insertion into a new map has been tried. *)
Theorem C96_contains_key_sees_storage : forall (cfg : Config) (K V : Type) (O O0 : Ordinal K), panicking_version O O0 ->
  forall n, ordinal_bijection O0 n -> forall (k : K) (w : panic) (v : V), ordinal O k = Panic w ->
  forall k', (exists i, ordinal O k' = Val i) ->
    catch_run (heap_act (V := V) O) [OpContainsKey k'] OrdinalMap_new = Some ([Seen (OutBool false)], OrdinalMap_new) /\
    catch_run (heap_act O) [OpInsert k v; OpContainsKey k'] OrdinalMap_new =
      Some ([Caught w; Seen (OutBool true)], repeat None (N.to_nat n)).
Proof. exact @storage_seen. Qed.
Print Assumptions C96_contains_key_sees_storage.

(** [Ordering], with an [ordinal] that panics on [Equal]. *)
Definition shy : Ordinal comparison := {|
  ORDINAL_SIZE := ORDINAL_SIZE Ordinal_Ordering;
  ordinal := fun c => match c with Eq => Panic PUser | _ => ordinal Ordinal_Ordering c end;
  from_ordinal := from_ordinal Ordinal_Ordering |}.
Example C96_shy : panicking_version shy Ordinal_Ordering /\ @ordinal_bijection debug64 _ Ordinal_Ordering 3 /\
  enumeration Ordinal_Ordering [Lt; Eq; Gt].
Proof.
  split.
  - split; [reflexivity|]. split; [reflexivity|]. intros []; cbn; eauto.
  - split; [apply (@Ordering_lawful debug64)|]. split; [intros []; cbn; auto|].
    repeat constructor; eexists _, _; repeat split.
Qed.
Example C96_map_case : forall cfg : Config,
  catch_run (heap_act (V := N) shy) [OpInsert Eq 1; OpLen; OpInsert Gt 2; OpRemove Eq; OpInsert Lt 3; OpEntryDrop Eq; OpGet Gt; OpDebug]
    OrdinalMap_new =
  Some ([Caught PUser; Seen (OutNum 0); Seen (OutValue None); Caught PUser; Seen (OutValue None); Caught PUser;
         Seen (OutValue (Some 2)); Seen (OutList [(Lt, 3); (Gt, 2)])], [Some 3; None; Some 2]).
Proof. intros [[] [] []]; vm_compute; reflexivity. Qed.
Example C96_set_case : forall cfg : Config,
  (s <- OrdinalSet_new shy ;; Val (catch_run (set_act shy) [SInsert Gt; SInsert Eq; SFromIter [Lt; Eq]; SContains Gt; SIter [Back]; SDebug] s)) =
  Val (Some ([Seen (SBool true); Caught PUser; Caught PUser; Seen (SBool true); Seen (SItems [Some Gt]); Caught PUser], Small 4)).
Proof. intros [[] [] []]; vm_compute; reflexivity. Qed.
Example C96_set64_case : forall cfg : Config,
  (s <- OrdinalSet64_new shy ;; Val (catch_run (set64_act shy) [SInsert Gt; SInsert Eq; SContains Gt; SIter [Back; Front]; SDebug] s)) =
  Val (Some ([Seen (SBool true); Caught PUser; Seen (SBool true); Seen (SItems [Some Gt; None]); Caught PUser], 4)).
Proof. intros [[] [] []]; vm_compute; reflexivity. Qed.
Example C96_array_map_case : forall cfg : Config,
  (a <- OrdinalArrayMap_new (V := N) shy 3 ;;
   Val (option_map (fun r => (fst r, arr_list (snd r)))
     (catch_run (array_act shy (S := 3)) [OpInsert Eq 1; OpInsert Gt 2; OpGet Eq; OpDrain [Front] false; OpLen] a))) =
  Val (Some ([Caught PUser; Seen (OutValue None); Caught PUser; Seen (OutEntries [Some (Gt, 2)]); Seen (OutNum 0)], [None; None; None])).
Proof. intros [[] [] []]; vm_compute; reflexivity. Qed.
Example C96_total_map_case : forall cfg : Config,
  catch_run (htotal_act (V := N) shy) [TInsert Eq 1; TInsert Gt 2; TGetMut Eq 5; TDebug_] (map (fun _ => 0) [Lt; Eq; Gt]) =
  Some ([Caught PUser; Seen (TOValue 0); Caught PUser; Seen (TOList [(Lt, 0); (Eq, 0); (Gt, 2)])], [0; 0; 2]).
Proof. intros [[] [] []]; vm_compute; reflexivity. Qed.
(** Draining: the destructor of the Drain goes on after a panic in [from_ordinal]; a second panic
    aborts. After a panic in [next] it asks for the same ordinal again (C80). *)
Definition mute (bad : N) : Ordinal comparison := {|
  ORDINAL_SIZE := ORDINAL_SIZE Ordinal_Ordering;
  ordinal := ordinal Ordinal_Ordering;
  from_ordinal := fun i => if i =? bad then Panic PUser else from_ordinal Ordinal_Ordering i |}.
Example C96_abort_case : forall cfg : Config,
  catch_run (heap_act (V := N) (mute 2)) [OpInsert Eq 1; OpDrain [Back] false; OpGet Eq] OrdinalMap_new =
    Some ([Seen (OutValue None); Caught PUser; Seen (OutValue None)], [None; None; None]) /\
  catch_run (heap_act (V := N) (mute 0)) [OpInsert Eq 1; OpDrain [Front] false; OpGet Eq] OrdinalMap_new = None.
Proof. intros [[] [] []]; split; vm_compute; reflexivity. Qed.
