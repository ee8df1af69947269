(** * PropClone: C94 (properties.jsonl). *)
From Verif Require Import Base Spec SpecMap SpecTotal SpecIter SpecApi SpecMem SpecDrop SpecClone ModelOrdinal ModelValues
  ModelArrayBuilder ModelIter ModelTotal ModelMap ModelClone MapMachine TotalMachine CloneProofs ModelOrdinal OrdinalProofs.
From Coq Require Import List. Import ListNotations.

(** ** C94. [clone] of any map, and of any owning iterator at any point, clones each remaining value
    once, in order. The result has the same keys with the clones, and is a map that a client
    program could also have built. A panic in a value's Clone drops the clones made so far, in
    order, and goes on; a panic in one of their destructors then aborts. *)
Theorem C94_map : forall (cfg : Config) (K V : Type) (O : Ordinal K) (n : N),
  ordinal_bijection O n -> forall (St : Type) (cl : St -> V -> St * res V) (drop : St -> V -> St * res unit),
  (forall st v, safe (snd (cl st v))) -> (forall st v, safe (snd (drop st v))) ->
  forall m : @OrdinalMap V, heap_reachable O m -> forall l, lists_entries O (OrdinalMap_get O m) l ->
  forall st, copied cl drop st l (fun c l' => heap_reachable O c /\ lists_entries O (OrdinalMap_get O c) l')
    (OrdinalMap_clone_with cl drop m st).
Proof. exact @heap_copied. Qed.
Print Assumptions C94_map.

Theorem C94_array_map : forall (cfg : Config) (K V : Type) (O : Ordinal K) (n : N),
  ordinal_bijection O n -> forall (St : Type) (cl : St -> V -> St * res V) (drop : St -> V -> St * res unit),
  (forall st v, safe (snd (cl st v))) -> (forall st v, safe (snd (drop st v))) ->
  forall (S : nat) (m : @OrdinalArrayMap V S), array_reachable O m -> forall l, lists_entries O (OrdinalArrayMap_get O m) l ->
  forall st, copied cl drop st l (fun c l' => array_reachable O c /\ lists_entries O (OrdinalArrayMap_get O c) l')
    (OrdinalArrayMap_clone_with cl drop m st).
Proof. exact @array_copied. Qed.
Print Assumptions C94_array_map.

Theorem C94_total_map : forall (cfg : Config) (K V : Type) (O : Ordinal K) (n : N),
  ordinal_bijection O n -> forall (St : Type) (cl : St -> V -> St * res V) (drop : St -> V -> St * res unit),
  (forall st v, safe (snd (cl st v))) -> (forall st v, safe (snd (drop st v))) ->
  forall m : @OrdinalTotalMap V, htotal_reachable O m -> forall l, lists_total O (OrdinalTotalMap_get O m) l ->
  forall st, copied cl drop st l (fun c l' => htotal_reachable O c /\ lists_total O (OrdinalTotalMap_get O c) l')
    (OrdinalTotalMap_clone_with cl drop m st).
Proof. exact @htotal_copied. Qed.
Print Assumptions C94_total_map.

Theorem C94_total_array_map : forall (cfg : Config) (K V : Type) (O : Ordinal K) (n : N),
  ordinal_bijection O n -> forall (St : Type) (cl : St -> V -> St * res V) (drop : St -> V -> St * res unit),
  (forall st v, safe (snd (cl st v))) -> (forall st v, safe (snd (drop st v))) ->
  forall (S : nat) (m : OrdinalTotalArrayMap S V), atotal_reachable O m -> forall l, lists_total O (OrdinalTotalArrayMap_get O m) l ->
  forall st, copied cl drop st l (fun c l' => atotal_reachable O c /\ lists_total O (OrdinalTotalArrayMap_get O c) l')
    (OrdinalTotalArrayMap_clone_with cl drop m st).
Proof. exact @atotal_copied. Qed.
Print Assumptions C94_total_array_map.

Theorem C94_into_iter : forall (cfg : Config) (K V : Type) (O : Ordinal K) (n : N),
  ordinal_bijection O n -> forall (St : Type) (cl : St -> V -> St * res V) (drop : St -> V -> St * res unit),
  (forall st v, safe (snd (cl st v))) -> (forall st v, safe (snd (drop st v))) ->
  forall m : @OrdinalMap V, heap_reachable O m -> forall l, lists_entries O (OrdinalMap_get O m) l ->
  double_ended (IntoIter_step O) (OrdinalMap_into_iter m) l (fun s rest => forall st,
    copied cl drop st rest (fun c l' => double_ended (IntoIter_step O) c l' anything /\
        IntoIter_size_hint c = IntoIter_size_hint s)
      (IntoIter_clone_with cl drop s st)).
Proof. exact @heap_iter_copied. Qed.
Print Assumptions C94_into_iter.

Theorem C94_into_iter_array : forall (cfg : Config) (K V : Type) (O : Ordinal K) (n : N),
  ordinal_bijection O n -> forall (St : Type) (cl : St -> V -> St * res V) (drop : St -> V -> St * res unit),
  (forall st v, safe (snd (cl st v))) -> (forall st v, safe (snd (drop st v))) ->
  forall (S : nat) (m : @OrdinalArrayMap V S), array_reachable O m -> forall l, lists_entries O (OrdinalArrayMap_get O m) l ->
  double_ended (IntoIterArray_step O) (OrdinalArrayMap_into_iter m) l (fun s rest => forall st,
    copied cl drop st rest (fun c l' => double_ended (IntoIterArray_step O) c l' anything)
      (IntoIterArray_clone_with cl drop s st)).
Proof. exact @array_iter_copied. Qed.
Print Assumptions C94_into_iter_array.

Theorem C94_total_into_iter : forall (cfg : Config) (K V : Type) (O : Ordinal K) (n : N),
  ordinal_bijection O n -> forall (St : Type) (cl : St -> V -> St * res V) (drop : St -> V -> St * res unit),
  (forall st v, safe (snd (cl st v))) -> (forall st v, safe (snd (drop st v))) ->
  forall m : @OrdinalTotalMap V, htotal_reachable O m -> forall l, lists_total O (OrdinalTotalMap_get O m) l ->
  double_ended (TIntoIter_step O) (OrdinalTotalMap_into_iter m) l (fun s rest => forall st,
    copied cl drop st rest (fun c l' => double_ended (TIntoIter_step O) c l' anything /\
        TIntoIter_size_hint c = TIntoIter_size_hint s)
      (TIntoIter_clone_with cl drop s st)).
Proof. exact @htotal_iter_copied. Qed.
Print Assumptions C94_total_into_iter.

Theorem C94_total_into_iter_array : forall (cfg : Config) (K V : Type) (O : Ordinal K) (n : N),
  ordinal_bijection O n -> forall (St : Type) (cl : St -> V -> St * res V) (drop : St -> V -> St * res unit),
  (forall st v, safe (snd (cl st v))) -> (forall st v, safe (snd (drop st v))) ->
  forall (S : nat) (m : OrdinalTotalArrayMap S V), atotal_reachable O m -> forall l, lists_total O (OrdinalTotalArrayMap_get O m) l ->
  double_ended (TIntoIterArray_step O) (OrdinalTotalArrayMap_into_iter m) l (fun s rest => forall st,
    copied cl drop st rest (fun c l' => double_ended (TIntoIterArray_step O) c l' anything /\
        TIntoIterArray_len c = TIntoIterArray_len s)
      (TIntoIterArray_clone_with cl drop s st)).
Proof. exact @atotal_iter_copied. Qed.
Print Assumptions C94_total_into_iter_array.

(** With a Clone that only computes a value, these are the clones of C38. *)
Theorem C94_pure : forall (V St : Type) (f : V -> V) (drop : St -> V -> St * res unit) (st : St),
  let cl := fun st v => (st, Val (f v)) in
  (forall m, OrdinalMap_clone_with cl drop m st = (st, Cloned (OrdinalMap_clone f m))) /\
  (forall S (m : @OrdinalArrayMap V S), OrdinalArrayMap_clone_with cl drop m st = (st, Cloned (OrdinalArrayMap_clone f m))) /\
  (forall m, OrdinalTotalMap_clone_with cl drop m st = (st, Cloned (OrdinalTotalMap_clone f m))) /\
  (forall S (m : OrdinalTotalArrayMap S V),
     OrdinalTotalArrayMap_clone_with cl drop m st = (st, Cloned (OrdinalTotalArrayMap_clone f m))) /\
  (forall s, IntoIter_clone_with cl drop s st = (st, Cloned (IntoIter_clone f s))) /\
  (forall s, IntoIterArray_clone_with cl drop s st = (st, Cloned (IntoIterArray_clone f s))) /\
  (forall s, TIntoIter_clone_with cl drop s st = (st, Cloned (TIntoIter_clone f s))) /\
  (forall s, TIntoIterArray_clone_with cl drop s st = (st, Cloned (TIntoIterArray_clone f s))).
Proof. exact @clones_pure. Qed.
Print Assumptions C94_pure.

(** [default] of the total maps calls [V::default()] once per key, in order, up to the first panic. *)
Theorem C94_default : forall (cfg : Config) (K V : Type) (O : Ordinal K) (n : N), ordinal_bijection O n ->
  forall ks, enumeration O ks -> forall (St : Type) (default : St -> St * res V) (st : St),
  let called := calls_ok (fun st (_ : K) => default st) ks st in
  (fst (OrdinalTotalMap_default_with O default st) = fst called /\
   constructed_ok (OrdinalTotalMap_get O) ks (snd called) (snd (OrdinalTotalMap_default_with O default st))) /\
  forall S, N.of_nat S = n ->
    fst (OrdinalTotalArrayMap_default_with O S default st) = fst called /\
    constructed_ok (OrdinalTotalArrayMap_get O (S := S)) ks (snd called)
      (snd (OrdinalTotalArrayMap_default_with O S default st)).
Proof. exact @defaults_called. Qed.
Print Assumptions C94_default.

(** The state is the list of events, newest first: (false, v) when [v] is cloned, (true, v) when it is
    dropped. A clone is 100 more than the original; 7 cannot be cloned and 103 cannot be dropped. *)
Definition ev_clone (st : list (bool * N)) (v : N) : list (bool * N) * res N :=
  ((false, v) :: st, if v =? 7 then Panic PUser else Val (v + 100)).
Definition ev_drop (st : list (bool * N)) (v : N) : list (bool * N) * res unit :=
  ((true, v) :: st, if v =? 103 then Panic PUser else Val tt).
Example C94_hypotheses : (forall st v, safe (snd (ev_clone st v))) /\ (forall st v, safe (snd (ev_drop st v))).
Proof. split; intros st v; cbn; destruct (v =? _); exact I. Qed.
Example C94_all_cloned : OrdinalMap_clone_with ev_clone ev_drop [Some 1; None; Some 2] [] =
  ([(false, 2); (false, 1)], Cloned [Some 101; None; Some 102]).
Proof. reflexivity. Qed.
Example C94_clone_panics : OrdinalMap_clone_with ev_clone ev_drop [Some 1; None; Some 2; Some 7; Some 3] [] =
  ([(true, 102); (true, 101); (false, 7); (false, 2); (false, 1)], Unwound PUser).
Proof. reflexivity. Qed.
Example C94_drop_panics : OrdinalMap_clone_with ev_clone ev_drop [Some 3; None; Some 2; Some 7; Some 3] [] =
  ([(true, 103); (false, 7); (false, 2); (false, 3)], Aborted).
Proof. reflexivity. Qed.
(** A map over [Option<bool>] with entries at the first and the last key, cloned after one step. *)
Example C94_reachable : @heap_reachable debug64 (option bool) N (@Ordinal_Option debug64 bool Ordinal_bool) [Some 1; None; Some 2].
Proof.
  exists [OpInsert None 1; OpInsert (Some true) 2]. eexists. vm_compute. reflexivity.
Qed.
Example C94_iter_cloned :
  (let O := @Ordinal_Option debug64 bool Ordinal_bool in
   '(o, s) <- @IntoIter_step debug64 (option bool) O N Front (OrdinalMap_into_iter [Some 1; None; Some 2]) ;;
   Val (o, IntoIter_clone_with ev_clone ev_drop s [])) =
  Val (Some (None, 1), ([(false, 2)], Cloned {| e_next := 1; e_items := [None; Some 102] |})).
Proof. vm_compute. reflexivity. Qed.
(** A counter as [V::default()], and one that panics at its third call. *)
Example C94_default_case :
  @OrdinalTotalMap_default_with debug64 _ N _ Ordinal_Ordering (fun st => (st + 1, Val st)) 5 = (8, Val [5; 6; 7]) /\
  @OrdinalTotalMap_default_with debug64 _ N _ Ordinal_Ordering
    (fun st => (st + 1, if st =? 7 then Panic PUser else Val st)) 5 = (8, Panic PUser).
Proof. split; vm_compute; reflexivity. Qed.
