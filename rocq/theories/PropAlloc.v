(** * PropAlloc: C98 (properties.jsonl). *)
From Verif Require Import Base Spec SpecMap SpecTotal SpecSet SpecCatch SpecAlloc ModelOrdinal ModelValues
  ModelArrayBuilder ModelIter ModelTotal ModelMap ModelSet ModelResume ModelUnwind MapMachine TotalMachine SetMachine
  ModelCatch ModelAlloc OrdinalProofs AllocProofs AllocProofs2 AllocProofs3 AllocProofs4.
From Coq Require Import List. Import ListNotations.

(** ** C98. A call that does not get the memory it needs panics or aborts before it has done anything. *)

(** One call, for any implementation of [Ordinal]: how much memory it needs, and what becomes of it. *)
Theorem C98_map_call : forall (cfg : Config) (ask : allocator) (K V : Type) (O : Ordinal K) (slot n : N),
  ORDINAL_SIZE O = Val n ->
  forall (op : map_op K V) (h : list N) (m : @OrdinalMap V),
    heap_mem ask O slot op (h, m) =
    outcome Unwinds Aborts ask h (map_bytes slot n op (llen m)) m (heap_act O op m).
Proof. exact @heap_call. Qed.
Print Assumptions C98_map_call.

Theorem C98_total_map_call : forall (cfg : Config) (ask : allocator) (K V : Type) (O : Ordinal K) (slot : N)
    (op : total_op K V) (h : list N) (m : @OrdinalTotalMap V),
    htotal_mem ask O slot op (h, m) =
    outcome Unwinds Aborts ask h (total_bytes slot op (llen m)) m (htotal_act O op m).
Proof. exact @htotal_call. Qed.
Print Assumptions C98_total_map_call.

Theorem C98_set_call : forall (cfg : Config) (ask : allocator) (T : Type) (O : Ordinal T) (n : N),
  ORDINAL_SIZE O = Val n ->
  forall (op : set_op T) (h : list N) (s : OrdinalSet),
    match s with Small _ => n <= 64 | Large _ => 64 < n end ->
    set_mem ask O op (h, s) =
    outcome Unwinds Aborts ask h
      (set_bytes n op match s with Small _ => 1 | Large ws => llen ws end) s (set_act O op s).
Proof. exact @set_call. Qed.
Print Assumptions C98_set_call.

(** Building a map: the values are not asked for before there is memory for all of them. *)
Theorem C98_try_new : forall (cfg : Config) (ask : allocator) (K V : Type) (O : Ordinal K) (slot n : N),
  ORDINAL_SIZE O = Val n ->
  forall (E St : Type) (init : St -> K -> St * res (result V E)) (h : list N) (st : St),
    OrdinalTotalMap_try_new_mem ask O slot init (h, st) =
    outcome Unwinds Aborts ask h (slot * n) st
      (fst (OrdinalTotalMap_try_new O init st), ending_of (snd (OrdinalTotalMap_try_new O init st))).
Proof. exact @try_new_call. Qed.
Print Assumptions C98_try_new.

Theorem C98_new : forall (cfg : Config) (ask : allocator) (K V : Type) (O : Ordinal K) (slot n : N),
  ORDINAL_SIZE O = Val n ->
  forall (St : Type) (init : St -> K -> St * res V) (h : list N) (st : St),
    OrdinalTotalMap_new_mem ask O slot init (h, st) =
    outcome Unwinds Aborts ask h (slot * n) st
      (fst (OrdinalTotalMap_new O init st), ending_of (snd (OrdinalTotalMap_new O init st))).
Proof. exact @new_call. Qed.
Print Assumptions C98_new.

(** Collecting into a map makes one request at most. *)
Theorem C98_from_iter : forall (cfg : Config) (ask : allocator) (K V : Type) (O : Ordinal K) (slot n : N),
  ORDINAL_SIZE O = Val n ->
  forall (M : Type) (l : list (K * V)) (h : list N) (x : M),
    OrdinalMap_from_iter_mem ask O slot l (h, x) =
    outcome Unwinds Aborts ask h (match l with [] => 0 | _ => slot * n end) x
      (x, ending_of (OrdinalMap_from_iter (V := V) O l)).
Proof. exact @from_iter_call. Qed.
Print Assumptions C98_from_iter.

(** Programs that catch panics, for any implementation: a program in which some requests are refused sees
    what the program without those calls sees, and leaves the same object. *)
Theorem C98_map_programs : forall (cfg : Config) (ask : allocator) (K V : Type) (O : Ordinal K) (slot n : N),
  ORDINAL_SIZE O = Val n ->
  forall (ops : list (map_op K V)) (h : list N) (m : @OrdinalMap V) outs h' m',
    catch_run (heap_mem ask O slot) ops (h, m) = Some (outs, (h', m')) ->
    exists ops' outs',
      leaves_out (fun op w => map_requests op = true /\ refusal ask w) ops outs ops' outs' /\
      catch_run (heap_act O) ops' m = Some (outs', m').
Proof. exact @map_leaves_out. Qed.
Print Assumptions C98_map_programs.

Theorem C98_total_map_programs : forall (cfg : Config) (ask : allocator) (K V : Type) (O : Ordinal K) (slot : N)
    (ops : list (total_op K V)) (h : list N) (m : @OrdinalTotalMap V) outs h' m',
    catch_run (htotal_mem ask O slot) ops (h, m) = Some (outs, (h', m')) ->
    exists ops' outs',
      leaves_out (fun op w => total_requests op = true /\ refusal ask w) ops outs ops' outs' /\
      catch_run (htotal_act O) ops' m = Some (outs', m').
Proof. exact @total_leaves_out. Qed.
Print Assumptions C98_total_map_programs.

Theorem C98_set_programs : forall (cfg : Config) (ask : allocator) (T : Type) (O : Ordinal T) (n : N),
  ORDINAL_SIZE O = Val n ->
  forall (ops : list (set_op T)) (h : list N) s0 outs h' s',
    OrdinalSet_new O = Val s0 ->
    catch_run (set_mem ask O) ops (h, s0) = Some (outs, (h', s')) ->
    exists ops' outs',
      leaves_out (fun op w => set_requests op = true /\ refusal ask w) ops outs ops' outs' /\
      catch_run (set_act O) ops' s0 = Some (outs', s').
Proof. exact @set_leaves_out. Qed.
Print Assumptions C98_set_programs.

(** A lawful type, when a refused request does not abort: every call returns what a map or set returns, or
    panics because of a refusal and changes nothing. A set never asks for too much. *)
Theorem C98_lawful_maps : forall (cfg : Config) (ask : allocator), (forall h b, ask h b <> Dies) ->
  forall (K V : Type) (O : Ordinal K) (slot n : N), ordinal_bijection O n ->
  forall (eqd : forall a b : K, {a = b} + {a <> b}) (ks : list K), enumeration O ks ->
  forall ops : list (map_op K V), forallb heap_op ops = true ->
    exists outs h st m,
      catch_run (heap_mem ask O slot) ops ([], OrdinalMap_new) = Some (outs, (h, st)) /\
      caught_program (spec_step eqd ks) (fun _ => True) (fun op w => map_requests op = true /\ refusal ask w)
        ops outs pm_empty m /\
      OrdinalMap_debug O st = Val (pm_entries ks m) /\ forall k, OrdinalMap_get O st k = Val (m k).
Proof. exact @map_lawful. Qed.
Print Assumptions C98_lawful_maps.

Theorem C98_lawful_total_maps : forall (cfg : Config) (ask : allocator), (forall h b, ask h b <> Dies) ->
  forall (K V : Type) (O : Ordinal K) (slot n : N), ordinal_bijection O n ->
  forall (eqd : forall a b : K, {a = b} + {a <> b}) (ks : list K), enumeration O ks ->
  forall (ops : list (total_op K V)) (m0 : K -> V) (h0 : list N),
    exists outs h m,
      catch_run (htotal_mem ask O slot) ops (h0, map m0 ks) = Some (outs, (h, map m ks)) /\
      caught_program (total_step eqd ks) (fun _ => True) (fun op w => total_requests op = true /\ refusal ask w)
        ops outs m0 m.
Proof. exact @total_lawful. Qed.
Print Assumptions C98_lawful_total_maps.

Theorem C98_lawful_sets : forall (cfg : Config) (ask : allocator), (forall h b, ask h b <> Dies) ->
  forall (T : Type) (O : Ordinal T) (n : N), ordinal_bijection O n ->
  forall (eqd : forall a b : T, {a = b} + {a <> b}) (ks : list T), enumeration O ks ->
  forall ops : list (set_op T), n <= usize_max - 64 \/ n <= 64 -> 1 <= n \/ debug_assertions = false ->
    exists s0 outs h s m,
      OrdinalSet_new O = Val s0 /\
      catch_run (set_mem ask O) ops ([], s0) = Some (outs, (h, s)) /\
      caught_program (sspec_step eqd ks) (fun _ => True)
        (fun op w => set_requests op = true /\ exists h b, ask h b = Throws w) ops outs ms_empty m /\
      forall t, OrdinalSet_contains O s t = Val (m t).
Proof. exact @set_lawful. Qed.
Print Assumptions C98_lawful_sets.

(** A map with more than isize::MAX bytes of slots: every insert and entry panics, whatever the allocator,
    which is not asked. The map stays empty. *)
Theorem C98_too_large : forall (cfg : Config) (ask : allocator) (K V : Type) (O : Ordinal K) (slot n : N),
  ordinal_bijection O n ->
  forall (eqd : forall a b : K, {a = b} + {a <> b}) (ks : list K), enumeration O ks ->
  forall ops : list (map_op K V), Z.to_N isize_max < slot * n -> forallb has_heap ops = true ->
  forall h : list N, exists outs,
    catch_run (heap_mem ask O slot) ops (h, OrdinalMap_new) = Some (outs, (h, OrdinalMap_new)) /\
    Forall2 (fun op o => if allocates op then o = Caught PCapacity else exists x, o = Seen x) ops outs.
Proof. exact @too_large. Qed.
Print Assumptions C98_too_large.

(** When every request is granted the object is the one of the model without an allocator. Each request is
    for all slots or words. [map_count] and [set_count] say how many there are. *)
Theorem C98_granted : forall (cfg : Config) (ask : allocator) (K V : Type) (O : Ordinal K) (slot n : N),
  ORDINAL_SIZE O = Val n ->
  (forall h b, ask h b = Granted) -> slot * n <= Z.to_N isize_max ->
  forall (ops : list (map_op K V)) outs st, heap_run O ops OrdinalMap_new = Val (outs, st) ->
    catch_run (heap_mem ask O slot) ops ([], OrdinalMap_new) =
      Some (map Seen outs, (if slot * n =? 0 then [] else repeat (slot * n) (map_count false ops), st)).
Proof. exact @granted_new. Qed.
Print Assumptions C98_granted.

Theorem C98_granted_sets : forall (cfg : Config) (ask : allocator) (T : Type) (O : Ordinal T) (n : N),
  ORDINAL_SIZE O = Val n ->
  (forall h b, ask h b = Granted) -> 64 < n -> n <= usize_max ->
  forall (ops : list (set_op T)) s0 outs s, OrdinalSet_new O = Val s0 -> set_run O ops s0 = Val (outs, s) ->
    catch_run (set_mem ask O) ops ([], s0) =
      Some (map Seen outs, (repeat (8 * ((n + 63) / 64)) (set_count false ops), s)).
Proof. exact @set_granted. Qed.
Print Assumptions C98_granted_sets.

(** C28: without [clone], a map asks for memory once if some call may store something, and never otherwise. *)
Theorem C28_one_request : forall (cfg : Config) (ask : allocator) (K V : Type) (O : Ordinal K) (slot n : N),
  ORDINAL_SIZE O = Val n ->
  (forall h b, ask h b = Granted) -> slot * n <= Z.to_N isize_max -> slot * n <> 0 ->
  forall (ops : list (map_op K V)) outs st, Forall (fun op => forall cl, op <> OpClone K cl) ops ->
    heap_run O ops OrdinalMap_new = Val (outs, st) ->
    catch_run (heap_mem ask O slot) ops ([], OrdinalMap_new) =
      Some (map Seen outs, (if existsb allocates ops then [slot * n] else [], st)).
Proof. exact @granted_once. Qed.
Print Assumptions C28_one_request.
(** C75: without [clone] and collecting, a set of a type with more than 64 values asks for memory once if
    something is inserted, and never otherwise. *)
Theorem C75_one_request : forall (cfg : Config) (ask : allocator) (T : Type) (O : Ordinal T) (n : N),
  ORDINAL_SIZE O = Val n ->
  (forall h b, ask h b = Granted) -> 64 < n -> n <= usize_max ->
  forall (ops : list (set_op T)) s0 outs s, Forall (fun op => op <> SClone /\ forall l, op <> SFromIter l) ops ->
    OrdinalSet_new O = Val s0 -> set_run O ops s0 = Val (outs, s) ->
    catch_run (set_mem ask O) ops ([], s0) =
      Some (map Seen outs,
            (if existsb (fun op => match op with SInsert _ => true | _ => false end) ops then [8 * ((n + 63) / 64)] else [], s)).
Proof. exact @set_granted_once. Qed.
Print Assumptions C75_one_request.
Example C75_one_request_case : forall cfg : Config,
  let O := Ordinal_array Ordinal_bool 7 in
  let k5 := mk_arr 7 [false; false; false; false; true; false; true] eq_refl in
  catch_run (set_mem (fun _ _ => Granted) O) [SContains k5; SInsert k5; SDebug; SInsert k5] ([], Large []) =
    Some (map Seen [SBool false; SBool true; SElems [k5]; SBool false], ([16], Large [32; 0])) /\
  catch_run (set_mem (fun _ _ => Granted) O) [SClone; SFromIter [k5]; SClone; SFromIter []; SInsert k5] ([], Large []) =
    Some (map Seen [SUnit_; SUnit_; SUnit_; SUnit_; SBool true], ([16; 16; 16], Large [32; 0])).
Proof. intros [[] [] []]; split; vm_compute; reflexivity. Qed.
Example C28_one_request_case : forall cfg : Config,
  catch_run (heap_mem (V := N) (fun _ _ => Granted) Ordinal_Ordering 16) [OpRemove Lt; OpInsert Gt 2; OpClear; OpInsert Lt 3; OpEntryDrop Eq]
    ([], OrdinalMap_new) =
  Some (map Seen [OutValue None; OutValue None; OutUnit; OutValue None; OutBool false], ([48], [Some 3; None; None])).
Proof. intros [[] [] []]; vm_compute; reflexivity. Qed.

(** A set of a type with at most 64 values makes no request. *)
Theorem C98_small_sets : forall (cfg : Config) (ask : allocator) (T : Type) (O : Ordinal T) (n : N),
  ORDINAL_SIZE O = Val n -> n <= 64 ->
  forall (ops : list (set_op T)) (h : list N) s0 outs h' s',
    OrdinalSet_new O = Val s0 ->
    catch_run (set_mem ask O) ops (h, s0) = Some (outs, (h', s')) -> h' = h.
Proof. exact @small_quiet. Qed.
Print Assumptions C98_small_sets.

(** An allocator that refuses the first two requests by panicking, and one that aborts. *)
Definition late : allocator := fun h _ => if llen h <? 2 then Throws PUser else Granted.
Definition dead : allocator := fun _ _ => Dies.
Definition kind : allocator := fun _ _ => Granted.

Example C98_late : forall cfg : Config, (forall h b, late h b <> Dies) /\ refusal late PUser /\
  ordinal_bijection Ordinal_Ordering 3 /\ enumeration Ordinal_Ordering [Lt; Eq; Gt] /\
  ordinal_bijection Ordinal_u8 256 /\ 256 <= usize_max - 64.
Proof.
  intros cfg. split; [intros h b; unfold late; destruct (_ <? _); discriminate|].
  split; [right; exists [], 0; reflexivity|]. split; [apply Ordering_lawful|].
  split; [split; [intros []; cbn; auto|]; repeat constructor; eexists _, _; repeat split|].
  split; [apply u8_lawful|]. destruct cfg as [[] ? ?]; vm_compute; discriminate.
Qed.
(** The first two calls find no memory; the map is made by the third, the clone asks again. *)
Example C98_map_case : forall cfg : Config,
  catch_run (heap_mem (V := N) late Ordinal_Ordering 16)
    [OpInsert Eq 1; OpLen; OpEntryMatch Lt 4 5; OpInsert Gt 2; OpInsert Lt 3; OpClone _ (fun v => v); OpDebug] ([], OrdinalMap_new) =
  Some ([Caught PUser; Seen (OutNum 0); Caught PUser; Seen (OutValue None); Seen (OutValue None); Seen OutUnit;
         Seen (OutList [(Lt, 3); (Gt, 2)])], ([48; 48; 48; 48], [Some 3; None; Some 2])).
Proof. intros [[] [] []]; vm_compute; reflexivity. Qed.
(** The clone of a map is refused: the map is as it was. *)
Example C98_total_map_case : forall cfg : Config,
  catch_run (htotal_mem (V := N) late Ordinal_Ordering 8) [TInsert Gt 2; TClone_ _ (fun v => v + 1); TDebug_] ([], [0; 0; 0]) =
  Some ([Seen (TOValue 0); Caught PUser; Seen (TOList [(Lt, 0); (Eq, 0); (Gt, 2)])], ([24], [0; 0; 2])).
Proof. intros [[] [] []]; vm_compute; reflexivity. Qed.
Definition byte (z : Z) (H : ((0 <=? z) && (z <=? 255))%Z = true) : u8 := mk_int 0 255 z H.
Definition b7 := byte 7 eq_refl.
Definition b200 := byte 200 eq_refl.
Example C98_set_case : forall cfg : Config,
  (s <- OrdinalSet_new Ordinal_u8 ;;
   Val (catch_run (set_mem late Ordinal_u8) [SInsert b7; SFromIter [b7; b200]; SContains b7; SInsert b200; SClone; SDebug] ([], s))) =
  Val (Some ([Caught PUser; Caught PUser; Seen (SBool false); Seen (SBool true); Seen SUnit_; Seen (SElems [b200])],
             ([32; 32; 32; 32], Large [0; 0; 0; 256]))).
Proof. intros [[] [] []]; vm_compute; reflexivity. Qed.
(** An allocator that aborts: nothing is seen after the insert. *)
Example C98_abort_case : forall cfg : Config,
  catch_run (heap_mem (V := N) dead Ordinal_Ordering 16) [OpLen; OpGet Lt] ([], OrdinalMap_new) =
    Some ([Seen (OutNum 0); Seen (OutValue None)], ([], [])) /\
  catch_run (heap_mem (V := N) dead Ordinal_Ordering 16) [OpLen; OpInsert Lt 1] ([], OrdinalMap_new) = None.
Proof. intros [[] [] []]; split; vm_compute; reflexivity. Qed.
Definition w3 : u16 := mk_int 0 65535 3 eq_refl.
(** [OrdinalMap<u16, [u8; 65536]>] on a 32-bit target: 65536 slots of 65537 bytes. *)
Example C98_large_case : let cfg := debug32 in
  Z.to_N isize_max < 65537 * 65536 /\ ordinal_bijection Ordinal_u16 65536 /\
  catch_run (heap_mem (V := N) kind Ordinal_u16 65537) [OpInsert w3 1; OpGet w3; OpEntryDrop w3; OpLen] ([], OrdinalMap_new) =
  Some ([Caught PCapacity; Seen (OutValue None); Caught PCapacity; Seen (OutNum 0)], ([], [])).
Proof. split; [reflexivity|]. split; [apply u16_lawful|]. vm_compute. reflexivity. Qed.
(** Values of no size are never asked for. *)
Example C98_unit_case : forall cfg : Config,
  catch_run (htotal_mem (V := unit) dead Ordinal_Ordering 0) [TClone_ _ (fun v => v); TDebug_] ([], [tt; tt; tt]) =
  Some ([Seen TOUnit; Seen (TOList [(Lt, tt); (Eq, tt); (Gt, tt)])], ([], [tt; tt; tt])).
Proof. intros [[] [] []]; vm_compute; reflexivity. Qed.
(** [init] counts its calls in the state. *)
Example C98_new_case : forall cfg : Config,
  OrdinalTotalMap_new_mem late Ordinal_Ordering 8 (fun st k => (st + 1, Val (st + 10))) ([], 0) = (([24], 0), Unwinds PUser) /\
  OrdinalTotalMap_new_mem kind Ordinal_Ordering 8 (fun st k => (st + 1, Val (st + 10))) ([], 0) = (([24], 3), Ended [10; 11; 12]) /\
  OrdinalMap_from_iter_mem late Ordinal_Ordering 16 [(Lt, 1); (Gt, 2)] ([], tt) = (([48], tt), Unwinds PUser) /\
  OrdinalMap_from_iter_mem kind Ordinal_Ordering 16 [(Lt, 1); (Gt, 2)] ([], tt) = (([48], tt), Ended [Some 1; None; Some 2]).
Proof. intros [[] [] []]; repeat split; vm_compute; reflexivity. Qed.
Example C98_granted_case : forall cfg : Config,
  (forall h b, kind h b = Granted) /\ 16 * 3 <= Z.to_N isize_max /\
  catch_run (heap_mem (V := N) kind Ordinal_Ordering 16) [OpClone _ (fun v => v); OpInsert Gt 2; OpClear; OpInsert Lt 3; OpClone _ (fun v => v)]
    ([], OrdinalMap_new) =
  Some (map Seen [OutUnit; OutValue None; OutUnit; OutValue None; OutUnit], ([48; 48], [Some 3; None; None])).
Proof. intros [[] [] []]; split; try (split; [vm_compute; discriminate|vm_compute; reflexivity]); reflexivity. Qed.
