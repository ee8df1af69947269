(** * PropSafety: property C64.

    [Ordinal] is a safe trait, so an impl may be wrong in every respect: the wrong
    [ORDINAL_SIZE], ordinals out of range or shared, [from_ordinal] that disagrees with
    [ordinal], panics ([any_impl], SpecSafety.v). Whatever it does, no function of the crate
    reaches undefined behaviour or runs forever ([no_ub]): each call returns, panics or is
    rejected at compile time. In the programs below every operation may even use a different
    impl (the answers of an impl may change over time), the key type has any number of values,
    and the program starts from any content of the map or set. *)
From Verif Require Import Base Spec SpecMap SpecTotal SpecSet SpecIter SpecAtomic SpecDerive SpecUniverse SpecSafety
  ModelOrdinal ModelValues ModelArrayBuilder ModelDerive ModelIter ModelMap ModelTotal ModelSet ModelAtomic ModelUniverse
  MapMachine TotalMachine SetMachine SafetyProofs SafetyProofs2 SafetyProofs3 SafetyProofs4.
From Coq Require Import String List. Import ListNotations.

(** The impls the examples use: [liar] has the wrong size and the wrong ordinals, and panics when
    decoding; [shrunk] says there are no values. *)
Definition liar : Ordinal bool := {|
  ORDINAL_SIZE := Val 3;
  ordinal := fun b => Val (if b then 2 else 900);
  from_ordinal := fun i => if i =? 0 then Val None else if i =? 2 then Val (Some false) else Panic PUser
|}.
Definition shrunk : Ordinal bool := {|
  ORDINAL_SIZE := Val 0;
  ordinal := fun b => Val (if b then 1 else 0);
  from_ordinal := fun _ => Val None
|}.
Example liars_any : any_impl liar /\ any_impl shrunk.
Proof.
  split; (split; [exact I|split; [intros []; exact I|intros i; cbn]]); [|exact I].
  destruct (i =? 0); [exact I|]. destruct (i =? 2); exact I.
Qed.

(** ** The containers *)
Theorem C64_map_programs : forall (cfg : Config) (K V : Type) (ops : list (Ordinal K * map_op K V)),
  Forall (fun p => any_impl (fst p)) ops ->
  (forall m : @OrdinalMap V, no_ub (run_ops (fun p => heap_step (fst p) (snd p)) ops m)) /\
  (forall (S : nat) (m : @OrdinalArrayMap V S), no_ub (run_ops (fun p => array_step (fst p) (S := S) (snd p)) ops m)).
Proof. exact @maps_any. Qed.
Print Assumptions C64_map_programs.

Theorem C64_total_map_programs : forall (cfg : Config) (K V : Type) (ops : list (Ordinal K * total_op K V)),
  Forall (fun p => any_impl (fst p)) ops ->
  (forall m : @OrdinalTotalMap V, no_ub (run_ops (fun p => htotal_step (fst p) (snd p)) ops m)) /\
  (forall (S : nat) (m : OrdinalTotalArrayMap S V), no_ub (run_ops (fun p => atotal_step (fst p) (S := S) (snd p)) ops m)).
Proof. exact @totals_any. Qed.
Print Assumptions C64_total_map_programs.

Theorem C64_set_programs : forall (cfg : Config) (K : Type) (ops : list (Ordinal K * set_op K)),
  Forall (fun p => any_impl (fst p)) ops ->
  (forall s : OrdinalSet, no_ub (run_ops (fun p => set_step (fst p) (snd p)) ops s)) /\
  (forall (S : nat) (s : OrdinalArraySet S), no_ub (run_ops (fun p => array_set_step (fst p) (S := S) (snd p)) ops s)) /\
  (forall s : OrdinalSet64, no_ub (run_ops (fun p => set64_step (fst p) (snd p)) ops s)).
Proof. exact @sets_any. Qed.
Print Assumptions C64_set_programs.

(** Programs with [liar]: the map takes the first insert and can be used with another impl; an
    insert outside the storage panics, and so do iterating past a key that cannot be decoded and
    unwrapping a missing key. *)
Example C64_liar_map :
  let run := run_ops (fun p => heap_step (cfg := release64) (K := bool) (V := N) (fst p) (snd p)) in
  run [(liar, OpInsert true 5); (liar, OpGet true); (shrunk, OpInsert false 7); (liar, OpIter [Back])] [] =
    Val ([OutValue None; OutValue (Some 5); OutValue None; OutEntries [Some (false, 5)]], [Some 7; None; Some 5]) /\
  run [(liar, OpInsert true 5); (liar, OpInsert false 5)] [] = Panic PIndex /\
  run [(liar, OpInsert true 5); (shrunk, OpInsert true 7); (liar, OpIter [Back; Back])] [] = Panic PUser /\
  run [(liar, OpInsert true 5); (shrunk, OpInsert false 7); (liar, OpIter [Front])] [] = Panic PUnwrap.
Proof. vm_compute. tauto. Qed.
Example C64_liar_array_map :
  run_ops (fun p => array_step (cfg := debug64) (K := bool) (V := N) (S := 2) (fst p) (snd p))
    [(liar, OpInsert true 5)] (mk_arr 2 [None; None] eq_refl) = Panic PIndex.
Proof. vm_compute. reflexivity. Qed.
Example C64_liar_set64 :
  let run := run_ops (fun p => set64_step (cfg := debug64) (T := bool) (fst p) (snd p)) in
  run [(liar, SInsert true); (liar, SIter [Front; Front])] 0 = Val ([SBool true; SItems [Some false; None]], 4) /\
  run [(liar, SInsert false)] 0 = Panic POverflow.
Proof. vm_compute. tauto. Qed.

(** The constructors. *)
Theorem C64_new_and_collect : forall (cfg : Config) (K V : Type) (O : Ordinal K) (S : nat) (l : list (K * V)),
  any_impl O ->
  no_ub (OrdinalMap_from_iter O l) /\ no_ub (@OrdinalArrayMap_new K V O S) /\ no_ub (OrdinalArrayMap_from_iter O S l) /\
  no_ub (OrdinalSet64_all O).
Proof. exact @constructors_any. Qed.
Print Assumptions C64_new_and_collect.

(** [init] and [f] are closures with a state; they may panic. *)
Theorem C64_total_constructors : forall (cfg : Config) (K V E St : Type) (O : Ordinal K) (S : nat)
  (try_init : St -> K -> St * res (result V E)) (init : St -> K -> St * res V) (st : St),
  any_impl O -> (forall st k, no_ub (snd (try_init st k))) -> (forall st k, no_ub (snd (init st k))) ->
  no_ub (snd (OrdinalTotalMap_try_new O try_init st)) /\
  no_ub (snd (OrdinalTotalMap_new O init st)) /\
  no_ub (returned (snd (OrdinalTotalArrayMap_try_new O S try_init st))) /\
  no_ub (returned (snd (OrdinalTotalArrayMap_new O S init st))).
Proof. exact @total_constructors_any. Qed.
Print Assumptions C64_total_constructors.
Theorem C64_total_map_and_as_ref : forall (cfg : Config) (K V W St : Type) (O : Ordinal K) (S : nat)
  (f : St -> K -> V -> St * res W) (m : OrdinalTotalArrayMap S V) (st : St),
  any_impl O -> (forall st k v, no_ub (snd (f st k v))) ->
  no_ub (returned (snd (OrdinalTotalArrayMap_map O f m st))) /\ no_ub (OrdinalTotalArrayMap_as_ref O m).
Proof. exact @total_mapping_any. Qed.
Print Assumptions C64_total_map_and_as_ref.
Example C64_liar_total :
  snd (OrdinalTotalMap_new liar (fun st k => (st, Val (if k then 1%N else 0))) tt) = Panic PUnwrap.
Proof. vm_compute. reflexivity. Qed.

(** [retain] with a closure that keeps a state, writes to the values and may panic: the storage
    keeps its length. *)
Theorem C64_retain : forall (cfg : Config) (K V St : Type) (O : Ordinal K) (S : nat)
  (f : St -> K -> V -> St * V * res bool) (m : @OrdinalArrayMap V S) (st : St),
  any_impl O -> (forall st k v, no_ub (snd (f st k v))) ->
  exists st' storage' r, OrdinalArrayMap_retain O f m st = (st', storage', r) /\ List.length storage' = S /\ no_ub r.
Proof. exact @retain_any. Qed.
Print Assumptions C64_retain.

(** ** Iterators *)

(** Every schedule of steps and of writes through the references already handed out: no
    reference is ever invalid. *)
Theorem C64_mutable_iteration : forall (cfg : Config) (K V : Type) (O : Ordinal K) (evs : list (mut_event V)),
  any_impl O ->
  (forall m : @OrdinalMap V,
     no_ub (mut_run (fun st => IterMut_step O st) snd write_some evs m (OrdinalMap_iter_mut m) []) /\
     no_ub (mut_run (fun st => ValuesMut_step O st) (fun i : N => i) write_some evs m (OrdinalMap_values_mut m) [])) /\
  (forall (S : nat) (a : @OrdinalArrayMap V S),
     no_ub (mut_run (fun st => IterMut_step O st) snd write_some evs (arr_list a) (OrdinalArrayMap_iter_mut a) []) /\
     no_ub (mut_run (fun st => ValuesMut_step O st) (fun i : N => i) write_some evs (arr_list a) (OrdinalArrayMap_values_mut a) [])) /\
  (forall m : @OrdinalTotalMap V,
     no_ub (mut_run (fun _ => TIterMut_step O) snd write_slot evs m (OrdinalTotalMap_iter_mut m) [])) /\
  (forall (S : nat) (a : OrdinalTotalArrayMap S V),
     no_ub (mut_run (fun _ => TIterMut_step O) snd write_slot evs (arr_list a) (OrdinalTotalArrayMap_iter_mut a) [])).
Proof. exact @mutable_any. Qed.
Print Assumptions C64_mutable_iteration.
Example C64_liar_iter_mut :
  mut_run (fun st => IterMut_step (cfg := debug64) liar st) snd write_some
    [EStep Back; EWrite 0 9] [None; None; Some 5] (OrdinalMap_iter_mut [None; None; Some 5%N]) [] =
  Val ([Some (false, 2)], [None; None; Some 9]).
Proof. vm_compute. reflexivity. Qed.

Theorem C64_ordinal_values : forall (K : Type) (O : Ordinal K) (sched : list dir) (show : K -> string) (s : OrdinalValues),
  any_impl O ->
  no_ub (values_new O) /\ no_ub (drive (values_step O) sched s) /\ no_ub (values_last O s) /\ no_ub (values_debug O show s).
Proof. exact @values_all_any. Qed.
Print Assumptions C64_ordinal_values.

(** Printing an iterator, in any state it can be in. *)
Theorem C64_iterator_debug : forall (cfg : Config) (K V : Type) (O : Ordinal K) (sched : list dir),
  any_impl O ->
  (forall s : @Iter V, no_ub (Iter_debug O s)) /\ (forall s : @Keys V, no_ub (Keys_debug O s)) /\
  (forall s : @Values V, no_ub (Values_debug O s)) /\ (forall s : @TIter V, no_ub (TIter_debug O s)) /\
  (forall s, no_ub (SetIter_debug O s)) /\ (forall w, w < 2 ^ 64 -> no_ub (Iter64_debug O w)) /\
  (forall m : list (option V),
     no_ub ('(_, it) <- drive (IterMut_step O m) sched (OrdinalMap_iter_mut m) ;; IterMut_debug O m it) /\
     no_ub ('(_, it) <- drive (ValuesMut_step O m) sched (OrdinalMap_values_mut m) ;; ValuesMut_debug O m it)) /\
  (forall m : list V,
     no_ub ('(_, it) <- drive (TIterMut_step O) sched (OrdinalTotalMap_iter_mut m) ;; TIterMut_debug O m it)).
Proof. exact @debug_all_any. Qed.
Print Assumptions C64_iterator_debug.

(** ** AtomicOrdinal: a call on any content of the cell. *)
Theorem C64_atomic : forall (K : Type) (O : Ordinal K) (c : call K) (cell : N),
  any_impl O -> no_ub (fst (call_alone O c cell)).
Proof. exact @atomic_any. Qed.
Print Assumptions C64_atomic.
Example C64_liar_atomic : fst (call_alone liar (CLoad SeqCst) 0) = Panic PUnwrap /\
  fst (call_alone liar (CStore false Relaxed) 0) = Val OUnit.
Proof. vm_compute. tauto. Qed.

(** ** The provided and the derived impls keep the guarantee, whatever their components do. *)
Theorem C64_provided_impls : forall (cfg : Config) (A B : Type) (OA : Ordinal A) (OB : Ordinal B) (len : nat),
  any_impl OA -> any_impl OB ->
  any_impl (Ordinal_Box OA) /\ any_impl (Ordinal_Option OA) /\ any_impl (Ordinal_Result OA OB) /\
  any_impl (Ordinal_Either OA OB) /\ any_impl (Ordinal_array OA len).
Proof. exact @provided_any. Qed.
Print Assumptions C64_provided_impls.
Theorem C64_derived_impls : forall (cfg : Config) (f : fields) (vs : list variant) (tys : list ftype),
  Forall (fun ty => any_impl (ft_ord ty)) (field_types f) ->
  Forall (fun v => Forall (fun ty => any_impl (ft_ord ty)) (field_types (v_fields v))) vs ->
  Forall (fun ty => any_impl (ft_ord ty)) tys ->
  any_impl (derive_struct f) /\ any_impl (derive_enum vs) /\ any_impl (impl_ordinal_for_tuple_n tys).
Proof. exact @derived_any. Qed.
Print Assumptions C64_derived_impls.
Theorem C64_every_provided_type : forall (cfg : Config) (t : ty), any_impl (impl_of t).
Proof. exact @any_type. Qed.
Print Assumptions C64_every_provided_type.

(** A derive over a lying field: unwrapping the missing value panics. *)
Example C64_liar_struct :
  let ty := {| ft_T := bool; ft_ord := liar; ft_lt := fun _ _ => False |} in
  from_ordinal (derive_struct (cfg := debug64) (FUnnamed [ty; ty])) 2 = Panic PUnwrap /\
  from_ordinal (derive_struct (cfg := debug64) (FUnnamed [ty; ty])) 8 = Val (Some (false, (false, tt))).
Proof. vm_compute. tauto. Qed.
