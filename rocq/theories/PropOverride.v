(** * PropOverride: C97 (properties.jsonl).

    [..._with O av]: the function of that name when the call of [K::all_values()] it makes returns [av],
    a range of ordinals or a panic (ModelOverride.v). [slice ks lo hi]: the keys number [lo] to [hi - 1];
    [within O lo hi l]: the elements of [l] with such ordinals; [right_range n lo hi]: the range [0..n],
    or an empty one if [n] is 0; [all_decode n lo hi]: the range does not run past the last ordinal
    (SpecOverride.v). [calls]: SpecTotal.v; [logged], [kept]: SpecMem.v; [double_ended]: SpecIter.v. *)
From Verif Require Import Base Spec SpecMap SpecMem SpecTotal SpecSafety SpecSet SpecIter SpecOverride ModelOrdinal ModelValues
  ModelArrayBuilder ModelIter ModelTotal ModelMap ModelSet ModelOverride SetMachine OrdinalProofs OverrideProofs OverrideProofs2.
From Coq Require Import List Permutation. Import ListNotations.

(** ** C97 *)

(** If the impl keeps the default, these are the functions of the other model files. *)
Theorem C97_default : forall (cfg : Config) (K : Type) (O : Ordinal K) (S : nat),
  ((forall V E St (init : St -> K -> St * res (result V E)) st,
      OrdinalTotalMap_try_new_with O (values_new O) init st = OrdinalTotalMap_try_new O init st) /\
   (forall V St (init : St -> K -> St * res V) st,
      OrdinalTotalMap_new_with O (values_new O) init st = OrdinalTotalMap_new O init st) /\
   (forall V (d : V), OrdinalTotalMap_default_with O (values_new O) d = OrdinalTotalMap_default O d) /\
   (forall V (m : @OrdinalTotalMap V), OrdinalTotalMap_keys_with (values_new O) m = OrdinalTotalMap_keys O m) /\
   (forall V (m : @OrdinalTotalMap V), OrdinalTotalMap_into_keys_with (values_new O) m = OrdinalTotalMap_into_keys O m)) /\
  ((forall V E St (init : St -> K -> St * res (result V E)) st,
      OrdinalTotalArrayMap_try_new_with O (values_new O) S init st = OrdinalTotalArrayMap_try_new O S init st) /\
   (forall V St (init : St -> K -> St * res V) st,
      OrdinalTotalArrayMap_new_with O (values_new O) S init st = OrdinalTotalArrayMap_new O S init st) /\
   (forall V (d : V), OrdinalTotalArrayMap_default_with O (values_new O) S d = OrdinalTotalArrayMap_default O S d) /\
   (forall V (m : OrdinalTotalArrayMap S V), OrdinalTotalArrayMap_keys_with (values_new O) m = OrdinalTotalArrayMap_keys O m) /\
   (forall V (m : OrdinalTotalArrayMap S V), OrdinalTotalArrayMap_into_keys_with (values_new O) m = OrdinalTotalArrayMap_into_keys O m) /\
   (forall V (m : OrdinalTotalArrayMap S V), OrdinalTotalArrayMap_as_ref_with O (values_new O) m = OrdinalTotalArrayMap_as_ref O m) /\
   (forall V, OrdinalArrayMap_new_with O (values_new O) S V = OrdinalArrayMap_new O S) /\
   (forall V, OrdinalArrayMap_default_with O (values_new O) S V = OrdinalArrayMap_default O S) /\
   (forall V (l : list (K * V)), OrdinalArrayMap_from_iter_with O (values_new O) S l = OrdinalArrayMap_from_iter O S l)) /\
  ((forall s, OrdinalSet_iter_with O (values_new O) s = OrdinalSet_iter O s) /\
   (forall s, OrdinalSet_debug_with O (values_new O) s = OrdinalSet_debug O s) /\
   (forall S (s : OrdinalArraySet S), OrdinalArraySet_debug_with O (values_new O) s = OrdinalArraySet_debug O s) /\
   (forall s, OrdinalSet64_debug_with O (values_new O) s = OrdinalSet64_debug O s)).
Proof. exact @with_default_all. Qed.
Print Assumptions C97_default.

(** [all_values] panics: so do its callers, before any call of the callback. *)
Theorem C97_panics : forall (cfg : Config) (K : Type) (O : Ordinal K) (n : N) (w : panic) (S : nat), ORDINAL_SIZE O = Val n ->
  (forall V E St (init : St -> K -> St * res (result V E)) st,
     OrdinalTotalMap_try_new_with O (Panic w) init st = (st, Panic w)) /\
  (N.of_nat S = n -> forall V E St (init : St -> K -> St * res (result V E)) st,
     OrdinalTotalArrayMap_try_new_with O (Panic w) S init st = (st, {| returned := Panic w; dropped := [] |})) /\
  (N.of_nat S = n -> forall V, OrdinalArrayMap_new_with O (Panic w) S V = Panic w) /\
  (forall s ws, OrdinalSet_as_ref O s = Val ws ->
     OrdinalSet_iter_with O (Panic w) s = Panic w /\ OrdinalSet_debug_with O (Panic w) s = Panic w).
Proof. exact @panicking_all_values. Qed.
Print Assumptions C97_panics.

(** Whatever the impl and whatever [all_values] returns, no undefined behaviour. *)
Theorem C97_maps_no_ub : forall (cfg : Config) (K : Type) (O : Ordinal K), any_impl O ->
  forall av : res OrdinalValues, no_ub av ->
  (forall V E St (init : St -> K -> St * res (result V E)) st, (forall st k, no_ub (snd (init st k))) ->
     no_ub (snd (OrdinalTotalMap_try_new_with O av init st)) /\
     forall S, no_ub (returned (snd (OrdinalTotalArrayMap_try_new_with O av S init st)))) /\
  (forall V St (init : St -> K -> St * res V) st, (forall st k, no_ub (snd (init st k))) ->
     no_ub (snd (OrdinalTotalMap_new_with O av init st)) /\
     forall S, no_ub (returned (snd (OrdinalTotalArrayMap_new_with O av S init st)))) /\
  (forall V S (m : OrdinalTotalArrayMap S V), no_ub (OrdinalTotalArrayMap_as_ref_with O av m)) /\
  (forall V S (l : list (K * V)), no_ub (OrdinalArrayMap_from_iter_with O av S l)).
Proof. exact @with_maps_good. Qed.
Print Assumptions C97_maps_no_ub.
Theorem C97_sets_no_ub : forall (cfg : Config) (K : Type) (O : Ordinal K), any_impl O ->
  forall av : res OrdinalValues, no_ub av ->
  (forall s, no_ub (OrdinalSet_iter_with O av s) /\ no_ub (OrdinalSet_debug_with O av s) /\
     forall it sched, OrdinalSet_iter_with O av s = Val it -> no_ub (drive (SetIter_step O) sched it)) /\
  (forall S (s : OrdinalArraySet S), no_ub (OrdinalArraySet_debug_with O av s)) /\
  (forall s, no_ub (OrdinalSet64_debug_with O av s)).
Proof. exact @with_sets_good. Qed.
Print Assumptions C97_sets_no_ub.

(** Every value the callback made is in the array or was dropped, exactly once. *)
Theorem C97_try_new_conserves : forall (K : Type) (O : Ordinal K) (S : nat), (forall i, safe (from_ordinal O i)) ->
  forall (V E St : Type) (av : res OrdinalValues) (init : St -> K -> St * res (result V E)) (st : St) (n : N),
  safe av -> ORDINAL_SIZE O = Val n -> (forall st k, safe (snd (init st k))) ->
  let '((st', log), o) := OrdinalTotalArrayMap_try_new_with O av S (logged init) (st, []) in
  OrdinalTotalArrayMap_try_new_with O av S init st = (st', o) /\
  (if n =? N.of_nat S then safe (returned o) else returned o = NoCompile) /\
  Permutation log (kept (returned o) ++ dropped o).
Proof. exact @with_try_new_conserves. Qed.
Print Assumptions C97_try_new_conserves.
Theorem C97_new_conserves : forall (K : Type) (O : Ordinal K) (S : nat), (forall i, safe (from_ordinal O i)) ->
  forall (V St : Type) (av : res OrdinalValues) (init : St -> K -> St * res V) (st : St) (n : N),
  safe av -> ORDINAL_SIZE O = Val n -> (forall st k, safe (snd (init st k))) ->
  let '((st', log), o) := OrdinalTotalArrayMap_new_with O av S (logged_ok init) (st, []) in
  OrdinalTotalArrayMap_new_with O av S init st = (st', o) /\
  (if n =? N.of_nat S then safe (returned o) else returned o = NoCompile) /\
  Permutation log (kept_ok (returned o) ++ dropped o).
Proof. exact @with_new_conserves. Qed.
Print Assumptions C97_new_conserves.
(** Two values made for a range that is too short, then dropped. *)
Example C97_dropped : OrdinalTotalArrayMap_try_new_with (V := N) (E := N) Ordinal_Ordering
    (Val {| r_start := 1; r_end := 3 |}) 3 (fun st k => (st + 1, Val (ResOk (st + 50)))) 0 =
  (2, {| returned := Panic PUnwrap; dropped := [50; 51] |}).
Proof. reflexivity. Qed.

(** The array maps are right or not there: with any other range construction panics (unless the
    callback failed first). *)
Theorem C97_arrays_right : forall (cfg : Config) (K : Type) (O : Ordinal K) (n : N), lawful O n ->
  forall S : nat, N.of_nat S = n -> forall lo hi : N, right_range n lo hi ->
  (forall V E St (init : St -> K -> St * res (result V E)) st,
     OrdinalTotalArrayMap_try_new_with O (Val {| r_start := lo; r_end := hi |}) S init st =
     OrdinalTotalArrayMap_try_new O S init st) /\
  (forall V St (init : St -> K -> St * res V) st,
     OrdinalTotalArrayMap_new_with O (Val {| r_start := lo; r_end := hi |}) S init st =
     OrdinalTotalArrayMap_new O S init st) /\
  (forall V (d : V), OrdinalTotalArrayMap_default_with O (Val {| r_start := lo; r_end := hi |}) S d =
     OrdinalTotalArrayMap_default O S d) /\
  (forall V (m : OrdinalTotalArrayMap S V),
     OrdinalTotalArrayMap_as_ref_with O (Val {| r_start := lo; r_end := hi |}) m = OrdinalTotalArrayMap_as_ref O m) /\
  (forall V, OrdinalArrayMap_new_with O (Val {| r_start := lo; r_end := hi |}) S V = OrdinalArrayMap_new O S) /\
  (forall V (l : list (K * V)),
     OrdinalArrayMap_from_iter_with O (Val {| r_start := lo; r_end := hi |}) S l = OrdinalArrayMap_from_iter O S l).
Proof. exact @with_arrays_right. Qed.
Print Assumptions C97_arrays_right.
Theorem C97_arrays_wrong : forall (cfg : Config) (K : Type) (O : Ordinal K) (n : N), lawful O n ->
  forall ks : list K, enumeration O ks -> forall S : nat, N.of_nat S = n ->
  forall lo hi : N, hi <= usize_max -> ~ right_range n lo hi ->
  (forall V E St (init : St -> K -> St * res (result V E)) st,
     fst (OrdinalTotalArrayMap_try_new_with O (Val {| r_start := lo; r_end := hi |}) S init st) =
       fst (calls init (slice ks lo hi) st) /\
     returned (snd (OrdinalTotalArrayMap_try_new_with O (Val {| r_start := lo; r_end := hi |}) S init st)) =
       then_panics PUnwrap (snd (calls init (slice ks lo hi) st))) /\
  (forall V St (init : St -> K -> St * res V) st,
     fst (OrdinalTotalArrayMap_new_with O (Val {| r_start := lo; r_end := hi |}) S init st) =
       fst (calls_ok init (slice ks lo hi) st) /\
     returned (snd (OrdinalTotalArrayMap_new_with O (Val {| r_start := lo; r_end := hi |}) S init st)) =
       (snd (calls_ok init (slice ks lo hi) st) ;;; Panic PUnwrap)) /\
  (forall V (d : V), OrdinalTotalArrayMap_default_with O (Val {| r_start := lo; r_end := hi |}) S d = Panic PUnwrap) /\
  (forall V (m : OrdinalTotalArrayMap S V),
     OrdinalTotalArrayMap_as_ref_with O (Val {| r_start := lo; r_end := hi |}) m = Panic PUnwrap) /\
  (forall V, OrdinalArrayMap_new_with O (Val {| r_start := lo; r_end := hi |}) S V = Panic PUnwrap) /\
  (forall V (l : list (K * V)), OrdinalArrayMap_from_iter_with O (Val {| r_start := lo; r_end := hi |}) S l = Panic PUnwrap).
Proof. exact @with_arrays_wrong. Qed.
Print Assumptions C97_arrays_wrong.

(** OrdinalTotalMap takes the range as it is. *)
Theorem C97_total_map : forall (cfg : Config) (K : Type) (O : Ordinal K) (n : N), lawful O n ->
  forall ks : list K, enumeration O ks ->
  forall (V E St : Type) (init : St -> K -> St * res (result V E)) (st : St) (lo hi : N), hi <= usize_max ->
  OrdinalTotalMap_try_new_with O (Val {| r_start := lo; r_end := hi |}) init st =
  (fst (calls init (slice ks lo hi) st),
   if all_decode n lo hi then snd (calls init (slice ks lo hi) st)
   else then_panics PUnwrap (snd (calls init (slice ks lo hi) st))).
Proof. exact @with_try_new_law. Qed.
Print Assumptions C97_total_map.
(** A lookup then reads the value made for the key [lo] places further on, or panics; [len] does not
    tell. *)
Theorem C97_total_map_lookup : forall (cfg : Config) (K : Type) (O : Ordinal K) (n : N), lawful O n ->
  forall ks : list K, enumeration O ks ->
  forall (V : Type) (f : K -> V) (lo hi : N), lo <= hi -> hi <= n ->
  exists m, OrdinalTotalMap_new_with O (Val {| r_start := lo; r_end := hi |}) (fun st k => (st, Val (f k))) tt = (tt, Val m) /\
    OrdinalTotalMap_len O m = Val n /\
    (forall k k' i, ordinal O k = Val i -> ordinal O k' = Val (lo + i) -> lo + i < hi ->
       OrdinalTotalMap_get O m k = Val (f k')) /\
    (forall k i, ordinal O k = Val i -> hi <= lo + i -> OrdinalTotalMap_get O m k = Panic PIndex).
Proof. exact @with_new_lookup. Qed.
Print Assumptions C97_total_map_lookup.
(** So each key finds its own value exactly if the range is right. *)
Theorem C97_total_map_right : forall (cfg : Config) (K : Type) (O : Ordinal K) (n : N), lawful O n ->
  forall ks : list K, enumeration O ks -> forall lo hi : N, hi <= usize_max ->
  ((exists m, snd (OrdinalTotalMap_new_with O (Val {| r_start := lo; r_end := hi |}) (fun st k => (st, Val k)) tt) = Val m /\
      forall k, OrdinalTotalMap_get O m k = Val k) <-> right_range n lo hi).
Proof. exact @with_new_right. Qed.
Print Assumptions C97_total_map_right.

(** [keys] and [into_keys] hand the range on. *)
Theorem C97_keys : forall (cfg : Config) (K : Type) (O : Ordinal K) (n : N), lawful O n ->
  forall ks : list K, enumeration O ks -> forall (V : Type) (m : @OrdinalTotalMap V) (lo hi : N), lo <= hi -> hi <= n ->
  OrdinalTotalMap_keys_with (Val {| r_start := lo; r_end := hi |}) m = Val {| r_start := lo; r_end := hi |} /\
  double_ended (values_step O) {| r_start := lo; r_end := hi |} (slice ks lo hi) (fun it r => values_len it = llen r).
Proof. exact @with_keys. Qed.
Print Assumptions C97_keys.

(** Sets never show an element they do not contain, whatever the impl. *)
Theorem C97_sets_sound : forall (cfg : Config) (K : Type) (O : Ordinal K) (av : res OrdinalValues) (s : OrdinalSet)
    (it : SetIter) (sched : list dir) (outs : list (option K)) (it' : SetIter) (t : K),
  OrdinalSet_iter_with O av s = Val it -> drive (SetIter_step O) sched it = Val (outs, it') ->
  In (Some t) outs -> OrdinalSet_contains O s t = Val true.
Proof. exact @set_shows_members. Qed.
Print Assumptions C97_sets_sound.
(** They show those in the range. *)
Theorem C97_set : forall (cfg : Config) (K : Type) (O : Ordinal K) (n : N), lawful O n ->
  forall ks : list K, enumeration O ks ->
  forall (s : OrdinalSet) (l : list K) (lo hi : N), 1 <= n \/ debug_assertions = false -> set_reachable O s ->
  lists_members O (OrdinalSet_contains O s) l -> lo <= hi -> hi <= n ->
  (exists it, OrdinalSet_iter_with O (Val {| r_start := lo; r_end := hi |}) s = Val it /\
     double_ended (SetIter_step O) it (within O lo hi l) (fun it r => hint_ok (SetIter_size_hint it) (llen r))) /\
  OrdinalSet_debug_with O (Val {| r_start := lo; r_end := hi |}) s = Val (within O lo hi l).
Proof. exact @with_set_law. Qed.
Print Assumptions C97_set.
Theorem C97_array_set : forall (cfg : Config) (K : Type) (O : Ordinal K) (n : N), lawful O n ->
  forall ks : list K, enumeration O ks ->
  forall (S : nat) (s : OrdinalArraySet S) (l : list K) (lo hi : N), array_set_reachable O s ->
  lists_members O (OrdinalArraySet_contains O s) l -> lo <= hi -> hi <= n ->
  OrdinalArraySet_debug_with O (Val {| r_start := lo; r_end := hi |}) s = Val (within O lo hi l).
Proof. exact @with_array_set_law. Qed.
Print Assumptions C97_array_set.
Theorem C97_set64 : forall (cfg : Config) (K : Type) (O : Ordinal K) (n : N), lawful O n ->
  forall ks : list K, enumeration O ks ->
  forall (s : OrdinalSet64) (l : list K) (lo hi : N), 1 <= n \/ debug_assertions = false -> set64_reachable O s ->
  lists_members O (OrdinalSet64_contains O s) l -> lo <= hi -> hi <= n ->
  OrdinalSet64_debug_with O (Val {| r_start := lo; r_end := hi |}) s = Val (within O lo hi l).
Proof. exact @with_set64_law. Qed.
Print Assumptions C97_set64.
(** A range that runs past the last ordinal makes their Debug panic. *)
Theorem C97_debug_past : forall (cfg : Config) (K : Type) (O : Ordinal K) (n : N), lawful O n ->
  forall ks : list K, enumeration O ks -> forall lo hi : N, lo < hi -> n < hi -> hi <= usize_max ->
  (forall s, 1 <= n \/ debug_assertions = false -> set_reachable O s ->
     OrdinalSet_debug_with O (Val {| r_start := lo; r_end := hi |}) s = Panic PUnwrap) /\
  (forall S (s : OrdinalArraySet S), array_set_reachable O s ->
     OrdinalArraySet_debug_with O (Val {| r_start := lo; r_end := hi |}) s = Panic PUnwrap) /\
  (forall s, 1 <= n \/ debug_assertions = false -> set64_reachable O s ->
     OrdinalSet64_debug_with O (Val {| r_start := lo; r_end := hi |}) s = Panic PUnwrap).
Proof. exact @with_debug_past. Qed.
Print Assumptions C97_debug_past.

(** Examples: [Ordering], with [Less] left out of [all_values]. *)
Example C97_ordering : forall cfg : Config, lawful Ordinal_Ordering 3 /\ enumeration Ordinal_Ordering [Lt; Eq; Gt] /\
  ~ right_range 3 1 3 /\ 3 <= usize_max.
Proof.
  intros cfg. split; [apply Ordering_lawful|]. split; [|split].
  - split; [intros []; cbn; auto|]. repeat constructor; (eexists; eexists; split; [reflexivity|]; split; [reflexivity|]; reflexivity).
  - unfold right_range. lia.
  - unfold usize_max. destruct usize_width; vm_compute; discriminate.
Qed.
Example C97_wrong_value : exists m,
  OrdinalTotalMap_new_with (V := comparison) Ordinal_Ordering (Val {| r_start := 1; r_end := 3 |}) (fun st k => (st, Val k)) tt = (tt, Val m) /\
  OrdinalTotalMap_get Ordinal_Ordering m Lt = Val Eq /\ OrdinalTotalMap_get Ordinal_Ordering m Gt = Panic PIndex.
Proof. eexists. repeat split. Qed.
Example C97_hidden_element : forall cfg : Config,
  OrdinalSet_debug_with (cfg := cfg) Ordinal_Ordering (Val {| r_start := 1; r_end := 3 |}) (Small 5) = Val [Gt] /\
  OrdinalSet64_debug_with (cfg := cfg) Ordinal_Ordering (Val {| r_start := 1; r_end := 3 |}) 5 = Val [Gt] /\
  within Ordinal_Ordering 1 3 [Lt; Gt] = [Gt].
Proof. intros [[] [] []]; repeat split. Qed.
Example C97_range_past : forall cfg : Config,
  OrdinalSet_debug_with (cfg := cfg) Ordinal_Ordering (Val {| r_start := 1; r_end := 4 |}) (Small 5) = Panic PUnwrap.
Proof. intros [[] [] []]; reflexivity. Qed.
