(** * UseProofs3: what goes wrong without overflow checks. *)
From Verif Require Import Base Spec SpecMap SpecTotal SpecAtomic SpecMem ModelOrdinal ModelValues
  ModelArrayBuilder ModelIter ModelTotal ModelAtomic SpecUniverse ModelUniverse ModelMono TotalMachine ModelUse
  UniverseProofs4 UniverseProofs6 UniverseProofs7 MonoProofs.
From Coq Require Import List Lia.
Import ListNotations.
Set Implicit Arguments.
Unset Strict Implicit.

Section Unchecked.
  Context {cfg : Config} (C : overflow_checks = false).

  (** [Some(Some(NonZeroUsize::MAX))] and [None] have the ordinal 0. *)
  Lemma wrapped : exists y : type_of two_options, y <> None /\ ordinal (impl_of two_options) y = Val 0.
  Proof.
    destruct cfg as [[] [] da]; cbn [overflow_checks] in C; try discriminate C; clear C.
    - set (c := {| usize_width := W32; overflow_checks := false; debug_assertions := da |}).
      destruct (try_int 0 4294967295 4294967295) as [x|] eqn:Hx; [|vm_compute in Hx; discriminate Hx].
      destruct (nz_new x) as [y|] eqn:Hy.
      + exists (Some (Some y)). split; [discriminate|].
        vm_compute in Hx. injection Hx as <-. vm_compute in Hy. injection Hy as <-. vm_compute. reflexivity.
      + exfalso. vm_compute in Hx. injection Hx as <-. vm_compute in Hy. discriminate Hy.
    - set (c := {| usize_width := W64; overflow_checks := false; debug_assertions := da |}).
      destruct (try_int 0 18446744073709551615 18446744073709551615) as [x|] eqn:Hx; [|vm_compute in Hx; discriminate Hx].
      destruct (nz_new x) as [y|] eqn:Hy.
      + exists (Some (Some y)). split; [discriminate|].
        vm_compute in Hx. injection Hx as <-. vm_compute in Hy. injection Hy as <-. vm_compute. reflexivity.
      + exfalso. vm_compute in Hx. injection Hx as <-. vm_compute in Hy. discriminate Hy.
  Qed.

  Lemma two_options_zero : ordinal (impl_of two_options) None = Val 0 /\
    from_ordinal (impl_of two_options) 0 = Val (Some None).
  Proof. split; reflexivity. Qed.

  Lemma two_options_many : has_values (type_of two_options) (usize_max + 2).
  Proof.
    replace (usize_max + 2) with (card two_options) by (cbn [card two_options prim_card]; lia). apply values_card.
  Qed.

  Lemma load_refuted : exists t n (v w : type_of t) cell,
    has_values (type_of t) n /\ usize_max < n /\ w <> v /\
    compiled_atomic t v [CLoad SeqCst] = Val ([OVal w], cell).
  Proof.
    destruct wrapped as (y & D & H). exists two_options, (usize_max + 2), y, None, 0.
    split; [exact two_options_many|]. split; [lia|]. split; [intros E; apply D; symmetry; exact E|].
    unfold compiled_atomic. change (inst_needs two_options (needs_atomic_new ++ flat_map needs_atomic [CLoad SeqCst])) with (Val tt).
    cbn [bind]. unfold AtomicOrdinal_new. rewrite H. reflexivity.
  Qed.

  Lemma exchange_refuted : exists t n (v w : type_of t) cell,
    has_values (type_of t) n /\ usize_max < n /\ w <> v /\
    compiled_atomic t v [CCas w v SeqCst SeqCst] = Val ([OOk v], cell).
  Proof.
    destruct wrapped as (y & D & H). exists two_options, (usize_max + 2), None, y, 0.
    split; [exact two_options_many|]. split; [lia|]. split; [exact D|].
    unfold compiled_atomic. change (inst_needs two_options (needs_atomic_new ++ flat_map needs_atomic [CCas y None SeqCst SeqCst])) with (Val tt).
    cbn [bind]. unfold AtomicOrdinal_new. rewrite (proj1 two_options_zero). cbn [bind calls_alone].
    unfold call_alone, call_method, AtomicOrdinal_compare_exchange. rewrite H. reflexivity.
  Qed.

  Lemma slots_refuted : exists t n (k k' : type_of t) (a : arr N 1) ops m,
    has_values (type_of t) n /\ usize_max < n /\ k <> k' /\ ops = [TGet k'; TInsert k 8; TGet k'] /\
    compiled_from_array t a ops = Val ([TOValue 7; TOValue 7; TOValue 8], m).
  Proof.
    destruct wrapped as (y & D & H). exists two_options, (usize_max + 2), y, None, (mk_arr 1 [7] eq_refl).
    eexists _, _. split; [exact two_options_many|]. split; [lia|]. split; [exact D|]. split; [reflexivity|].
    unfold compiled_from_array.
    change (inst_needs two_options (needs_from_array ++ flat_map needs_total_array [TGet None; TInsert y 8; TGet (K := type_of two_options) None])) with (Val tt).
    cbn [bind OrdinalTotalArrayMap_from_array atotal_run atotal_step].
    unfold OrdinalTotalArrayMap_get, OrdinalTotalArrayMap_insert.
    rewrite (proj1 two_options_zero), H. cbn. reflexivity.
  Qed.
End Unchecked.
