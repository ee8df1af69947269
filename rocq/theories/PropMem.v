(** * PropMem: property C49, memory safety and leak freedom of array construction.

    In the model a read or drop of an uninitialised slot, and a write out of bounds, is the
    outcome [UB]; [safe r] says that [r] is neither that nor anything but a value or a panic.
    [logged f] behaves like the callback [f] and records the values it handed out; [kept]
    are the values in the returned array; [dropped] those dropped before returning or
    unwinding (SpecMem.v). "[Permutation log (kept .. ++ dropped ..)]": each value handed out
    is in the array or was dropped, exactly once. No law is assumed of the Ordinal impl: its
    [from_ordinal] may return anything or panic. *)
From Verif Require Import Base Spec SpecMem ModelOrdinal ModelValues ModelArrayBuilder ModelIter ModelTotal MemProofs.
From Coq Require Import List Permutation.
Import ListNotations.

(** Every sequence of pushes, then dropping or finishing the builder. *)
Theorem C49_builder : forall (T : Type) (S : nat) (vs : list T),
  if Nat.leb (length vs) S then
    exists b, pushes S vs (builder_new S) = Val b /\ builder_drop b = Val vs /\
      (length vs <> S -> builder_try_finish S b = Val (None, vs)) /\
      (length vs = S -> exists a, builder_try_finish S b = Val (Some a, []) /\ arr_list a = vs)
  else pushes S vs (builder_new S) = Panic PAssert.
Proof. exact @builder_law. Qed.
Print Assumptions C49_builder.

Theorem C49_try_new : forall (K : Type) (O : Ordinal K) (S : nat),
  (forall i, safe (from_ordinal O i)) ->
  forall (V E St : Type) (init : St -> K -> St * res (result V E)) (st : St) (n : N),
  ORDINAL_SIZE O = Val n -> (forall st k, safe (snd (init st k))) ->
  let '((st', log), o) := OrdinalTotalArrayMap_try_new O S (logged init) (st, []) in
  OrdinalTotalArrayMap_try_new O S init st = (st', o) /\
  (if n =? N.of_nat S then safe (returned o) else returned o = NoCompile) /\
  Permutation log (kept (returned o) ++ dropped o).
Proof. exact @try_new_conserves. Qed.
Print Assumptions C49_try_new.

Theorem C49_new : forall (K : Type) (O : Ordinal K) (S : nat),
  (forall i, safe (from_ordinal O i)) ->
  forall (V St : Type) (init : St -> K -> St * res V) (st : St) (n : N),
  ORDINAL_SIZE O = Val n -> (forall st k, safe (snd (init st k))) ->
  let '((st', log), o) := OrdinalTotalArrayMap_new O S (logged_ok init) (st, []) in
  OrdinalTotalArrayMap_new O S init st = (st', o) /\
  (if n =? N.of_nat S then safe (returned o) else returned o = NoCompile) /\
  Permutation log (kept_ok (returned o) ++ dropped o).
Proof. exact @new_conserves. Qed.
Print Assumptions C49_new.

Theorem C49_map : forall (cfg : Config) (K : Type) (O : Ordinal K) (S : nat),
  (forall i, safe (from_ordinal O i)) ->
  forall (V W St : Type) (f : St -> K -> V -> St * res W) (m : OrdinalTotalArrayMap S V) (st : St),
  (forall st k v, safe (snd (f st k v))) ->
  let '((st', log), o) := OrdinalTotalArrayMap_map O (logged_kv f) m (st, []) in
  OrdinalTotalArrayMap_map O f m st = (st', o) /\ safe (returned o) /\
  Permutation log (kept_ok (returned o) ++ dropped o).
Proof. exact @map_conserves. Qed.
Print Assumptions C49_map.

Theorem C49_zip : forall (S : nat) (V W : Type) (m : OrdinalTotalArrayMap S V) (m' : OrdinalTotalArrayMap S W),
  let o := OrdinalTotalArrayMap_zip m m' in
  safe (returned o) /\ exists log, log = combine (arr_list m) (arr_list m') /\
  Permutation log (kept_ok (returned o) ++ dropped o).
Proof. exact @zip_conserves. Qed.
Print Assumptions C49_zip.

(** array_from_iter (public) over any iterator. *)
Theorem C49_array_from_iter : forall (S : nat) (T It A St : Type) (next : It -> res (option A * It))
    (f : St -> A -> St * res T) (it : It) (st : St),
  (forall it, safe (next it)) -> (forall st a, safe (snd (f st a))) ->
  let '((st', log), o) := array_from_iter S next (logged_ok f) it (st, []) in
  array_from_iter S next f it st = (st', o) /\ safe (returned o) /\
  Permutation log (kept_ok (returned o) ++ dropped o).
Proof. exact @from_iter_conserves. Qed.
Print Assumptions C49_array_from_iter.

(** [T; N]::from_ordinal; [decoded]: the elements decoded until a decode fails. *)
Theorem C49_array_from_ordinal : forall (T : Type) (O : Ordinal T) (len : nat),
  (forall i, safe (from_ordinal O i)) -> forall (size m : N), ORDINAL_SIZE O = Val size ->
  let o := array_from_ordinal O len m in
  safe (returned o) /\ Permutation (decoded O size len m) (kept_opt (returned o) ++ dropped o).
Proof. exact @array_from_ordinal_conserves. Qed.
Print Assumptions C49_array_from_ordinal.

(** The callback panics at the third key: the two values made so far are dropped. *)
Example C49_panic :
  OrdinalTotalArrayMap_try_new (V := N) (E := N) Ordinal_Ordering 3
    (fun st k => (st + 1, match k with Gt => Panic PUser | _ => Val (ResOk (st + 50)) end)) 0 =
  (3, {| returned := Panic PUser; dropped := [50; 51] |}).
Proof. reflexivity. Qed.
(** An unlawful key type that claims two values but decodes neither. *)
Example C49_unlawful :
  OrdinalTotalArrayMap_try_new (V := N) (E := N)
    {| ORDINAL_SIZE := Val 2; ordinal := fun b : bool => Val 77; from_ordinal := fun i => Val (if i =? 0 then Some true else None) |} 2
    (fun st k => (st + 1, Val (ResOk (st + 50)))) 0 =
  (1, {| returned := Panic PUnwrap; dropped := [50] |}).
Proof. reflexivity. Qed.
