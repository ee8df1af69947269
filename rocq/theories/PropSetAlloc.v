(** * PropSetAlloc: C75, when OrdinalSet allocates (set/set.rs).

    [set_run]: client programs on the modelled set (SetMachine.v); [filled ops]: something was
    inserted since the set was created (SpecSet.v). A [Small] set is one word in place, a
    [Large] set a vector. The Ordinal impl may be wrong: only its ORDINAL_SIZE is used. *)
From Verif Require Import Base Spec SpecSet ModelOrdinal ModelArrayBuilder ModelSet SetMachine SetAllocProofs.
From Coq Require Import List. Import ListNotations.

Theorem C75_lazy_allocation : forall (cfg : Config) (T : Type) (O : Ordinal T) (n : N), ORDINAL_SIZE O = Val n ->
  forall (ops : list (set_op T)) s0 outs s, OrdinalSet_new O = Val s0 -> set_run O ops s0 = Val (outs, s) ->
  (n <= 64 -> exists w, s = Small w) /\
  (64 < n -> exists ws, s = Large ws /\ if filled ops then n <= 64 * llen ws < n + 64 else ws = []).
Proof. exact @alloc_law. Qed.
Print Assumptions C75_lazy_allocation.
Definition b7 (l : list bool) (H : Nat.eqb (length l) 7 = true) : arr bool 7 := mk_arr 7 l H.
Example C75_case : forall cfg : Config,
  let O := Ordinal_array Ordinal_bool 7 in
  let k5 := b7 [false; false; false; false; true; false; true] eq_refl in
  let k64 := b7 [true; false; false; false; false; false; false] eq_refl in
  ORDINAL_SIZE O = Val 128 /\ OrdinalSet_new O = Val (Large []) /\
  set_run O [SContains k5; SDebug; SClone] (Large []) = Val ([SBool false; SElems []; SUnit_], Large []) /\
  set_run O [SContains k5; SInsert k5; SInsert k64] (Large []) =
    Val ([SBool false; SBool true; SBool true], Large [32; 1]) /\
  set_run Ordinal_bool [SInsert true; SFromIter []; SInsert false] (Small 0) =
    Val ([SBool true; SUnit_; SBool true], Small 1).
Proof. intros [[] [] []]; repeat split; vm_compute; reflexivity. Qed.
