(** * PropTotal: the properties C41 - C48 of the total maps (map/total/map.rs,
    map/total/array_map.rs, map/total/iter.rs) and their part of C32, C38 and C62.

    [htotal_reachable] / [atotal_reachable]: maps built by [try_new] (or [from_array] with
    the right size) and changed by client programs (TotalMachine.v). [calls] / [calls_ok]:
    calling a stateful callback on a list in order; [constructed]: the outcome is what the
    calls' results say; [total_run]: the program on a mathematical function (SpecTotal.v).
    [lists_total O get l]: [l] lists the entries in key order. [double_ended], ...:
    SpecIter.v. [tref_to], [tvalue_ref]: SpecApi.v. *)
From Verif Require Import Base Spec SpecMap SpecTotal SpecIter SpecApi ModelOrdinal ModelValues ModelArrayBuilder ModelIter
  ModelTotal ModelMap MapMachine TotalMachine OrdinalProofs TotalProofs3.
From Coq Require Import List. Import ListNotations.

(** A reachable total map with content 3, 5, 7. *)
Example total_reached : forall cfg : Config, @htotal_reachable cfg _ N Ordinal_Ordering [3; 5; 7].
Proof.
  intros cfg. exists Empty_set, N. exists (fun st _ => (st + 2, Val (ResOk st))). exists 3.
  eexists. eexists. exists []. eexists. split; [|reflexivity]. destruct cfg as [[] oc da]; reflexivity.
Qed.
Example total_array_reached : forall cfg : Config, @atotal_reachable cfg _ N Ordinal_Ordering 3 (@mk_arr N 3 [3; 5; 7] eq_refl).
Proof.
  intros cfg. eexists. exists []. eexists. split; [|reflexivity]. right. eexists. split; reflexivity.
Qed.
Example total_listed : lists_total Ordinal_Ordering (OrdinalTotalMap_get Ordinal_Ordering [3; 5; 7]) [(Lt, 3); (Eq, 5); (Gt, 7)].
Proof.
  split; [|split].
  - intros [] v; cbn; split; intros H; repeat destruct H as [H|H]; try congruence; try contradiction; injection H as <-; auto.
  - intros []; cbn; auto.
  - cbn. repeat constructor; eexists; eexists; (split; [reflexivity|]); (split; [reflexivity|]); reflexivity.
Qed.

(** ** C32 *)
Theorem C32_total_map_iter_mut : forall (cfg : Config) (K V : Type) (O : Ordinal K) (n : N), ordinal_bijection O n ->
  forall (eqd : forall a b : K, {a = b} + {a <> b}) (m : @OrdinalTotalMap V),
  htotal_reachable O m ->
  exists f l, (forall k, OrdinalTotalMap_get O m k = Val (f k)) /\ lists_total O (OrdinalTotalMap_get O m) l /\
  forall evs,
    let keys := fst (mut_spec eqd (fun v => v) evs (map fst l) [] f) in
    let f' := snd (mut_spec eqd (fun v => v) evs (map fst l) [] f) in
    (exists got m',
       mut_run (fun _ => TIterMut_step O) snd write_slot evs m (OrdinalTotalMap_iter_mut m) [] = Val (got, m') /\
       Forall2 (opt_rel (fun ki k => fst ki = k /\ ordinal O k = Val (snd ki))) got keys /\
       NoDup (map snd (somes got)) /\ forall k, OrdinalTotalMap_get O m' k = Val (f' k)) /\
    (exists got m',
       mut_run (fun _ => slice_step) (fun i : N => i) write_slot evs m (OrdinalTotalMap_values_mut m) [] = Val (got, m') /\
       Forall2 (opt_rel (fun i k => ordinal O k = Val i)) got keys /\
       NoDup (somes got) /\ forall k, OrdinalTotalMap_get O m' k = Val (f' k)).
Proof. exact @htotal_mut_law. Qed.
Print Assumptions C32_total_map_iter_mut.
Theorem C32_total_array_map_iter_mut : forall (cfg : Config) (K V : Type) (O : Ordinal K) (n : N), ordinal_bijection O n ->
  forall (eqd : forall a b : K, {a = b} + {a <> b}) (S : nat) (m : OrdinalTotalArrayMap S V),
  atotal_reachable O m ->
  exists f l, (forall k, OrdinalTotalArrayMap_get O m k = Val (f k)) /\ lists_total O (OrdinalTotalArrayMap_get O m) l /\
  forall evs,
    let keys := fst (mut_spec eqd (fun v => v) evs (map fst l) [] f) in
    let f' := snd (mut_spec eqd (fun v => v) evs (map fst l) [] f) in
    (exists got st',
       mut_run (fun _ => TIterMut_step O) snd write_slot evs (arr_list m) (OrdinalTotalArrayMap_iter_mut m) [] = Val (got, st') /\
       Forall2 (opt_rel (fun ki k => fst ki = k /\ ordinal O k = Val (snd ki))) got keys /\
       NoDup (map snd (somes got)) /\ forall k, total_storage_get O S st' k = Val (f' k)) /\
    (exists got st',
       mut_run (fun _ => slice_step) (fun i : N => i) write_slot evs (arr_list m) (OrdinalTotalArrayMap_values_mut m) [] = Val (got, st') /\
       Forall2 (opt_rel (fun i k => ordinal O k = Val i)) got keys /\
       NoDup (somes got) /\ forall k, total_storage_get O S st' k = Val (f' k)).
Proof. exact @atotal_mut_law. Qed.
Print Assumptions C32_total_array_map_iter_mut.
Example C32_total_case :
  mut_run (fun _ => TIterMut_step (cfg := debug64) Ordinal_Ordering) snd write_slot
    [EStep Back; EWrite 0 10; EStep Front; EWrite 1 20; EWrite 0 30]
    [3; 5; 7] (OrdinalTotalMap_iter_mut [3; 5; 7]) [] = Val ([Some (Gt, 2); Some (Lt, 0)], [20; 5; 30]).
Proof. reflexivity. Qed.

(** ** C38 *)
Theorem C38_total_map_clone : forall (cfg : Config) (K V : Type) (O : Ordinal K) (n : N), ordinal_bijection O n ->
  forall (m : @OrdinalTotalMap V),
  htotal_reachable O m ->
  forall (cl : V -> V) l, lists_total O (OrdinalTotalMap_get O m) l ->
  (forall k, OrdinalTotalMap_get O (OrdinalTotalMap_clone cl m) k = (v <- OrdinalTotalMap_get O m k ;; Val (cl v))) /\
  double_ended (TIter_step O) (OrdinalTotalMap_iter m) l
    (fun s r => double_ended (TIter_step O) (TIter_clone s) r anything) /\
  double_ended (TIntoIter_step O) (OrdinalTotalMap_into_iter m) l
    (fun s r => double_ended (TIntoIter_step O) (TIntoIter_clone cl s)
                  (map (fun kv => (fst kv, cl (snd kv))) r) anything).
Proof. exact @htotal_clones. Qed.
Print Assumptions C38_total_map_clone.
Theorem C38_total_array_map_clone : forall (cfg : Config) (K V : Type) (O : Ordinal K) (n : N), ordinal_bijection O n ->
  forall (S : nat) (m : OrdinalTotalArrayMap S V),
  atotal_reachable O m ->
  forall (cl : V -> V) l, lists_total O (OrdinalTotalArrayMap_get O m) l ->
  (forall k, OrdinalTotalArrayMap_get O (OrdinalTotalArrayMap_clone cl m) k =
             (v <- OrdinalTotalArrayMap_get O m k ;; Val (cl v))) /\
  double_ended (TIter_step O) (OrdinalTotalArrayMap_iter m) l
    (fun s r => double_ended (TIter_step O) (TIter_clone s) r anything) /\
  double_ended (TIntoIterArray_step O) (OrdinalTotalArrayMap_into_iter m) l
    (fun s r => double_ended (TIntoIterArray_step O) (TIntoIterArray_clone cl s)
                  (map (fun kv => (fst kv, cl (snd kv))) r) anything).
Proof. exact @atotal_clones. Qed.
Print Assumptions C38_total_array_map_clone.

(** ** C41 *)
Theorem C41_total_map_new : forall (cfg : Config) (K V : Type) (O : Ordinal K) (n : N), ordinal_bijection O n ->
  forall (ks : list K),
  enumeration O ks ->
  (forall E St (init : St -> K -> St * res (result V E)) st,
     fst (OrdinalTotalMap_try_new O init st) = fst (calls init ks st) /\
     constructed (OrdinalTotalMap_get O) ks (snd (calls init ks st)) (snd (OrdinalTotalMap_try_new O init st))) /\
  (forall St (init : St -> K -> St * res V) st,
     fst (OrdinalTotalMap_new O init st) = fst (calls_ok init ks st) /\
     constructed_ok (OrdinalTotalMap_get O) ks (snd (calls_ok init ks st)) (snd (OrdinalTotalMap_new O init st))) /\
  (forall d : V, exists m, OrdinalTotalMap_default O d = Val m /\ forall k, OrdinalTotalMap_get O m k = Val d).
Proof. exact @total_new_law. Qed.
Print Assumptions C41_total_map_new.
Theorem C41_total_array_map_new : forall (cfg : Config) (K V : Type) (O : Ordinal K) (n : N), ordinal_bijection O n ->
  forall (ks : list K) (S : nat),
  enumeration O ks ->
  (N.of_nat S = n ->
   (forall E St (init : St -> K -> St * res (result V E)) st,
      fst (OrdinalTotalArrayMap_try_new O S init st) = fst (calls init ks st) /\
      constructed (OrdinalTotalArrayMap_get O (S := S)) ks (snd (calls init ks st))
        (returned (snd (OrdinalTotalArrayMap_try_new O S init st)))) /\
   (forall St (init : St -> K -> St * res V) st,
      fst (OrdinalTotalArrayMap_new O S init st) = fst (calls_ok init ks st) /\
      constructed_ok (OrdinalTotalArrayMap_get O (S := S)) ks (snd (calls_ok init ks st))
        (returned (snd (OrdinalTotalArrayMap_new O S init st)))) /\
   (forall d : V, exists m : OrdinalTotalArrayMap S V, OrdinalTotalArrayMap_default O S d = Val m /\
      forall k, OrdinalTotalArrayMap_get O m k = Val d)) /\
  (N.of_nat S <> n ->
   (forall E St (init : St -> K -> St * res (result V E)) st,
      returned (snd (OrdinalTotalArrayMap_try_new O S init st)) = NoCompile) /\
   (forall St (init : St -> K -> St * res V) st,
      returned (snd (OrdinalTotalArrayMap_new O S init st)) = NoCompile) /\
   (forall d : V, OrdinalTotalArrayMap_default O S d = NoCompile)).
Proof. exact @total_array_new_law. Qed.
Print Assumptions C41_total_array_map_new.
Example C41_case :
  OrdinalTotalMap_try_new Ordinal_Ordering
    (fun st k => (st ++ [k], Val (match k with Gt => ResErr 9 | _ => ResOk (llen st) end))) [] =
  ([Lt; Eq; Gt], Val (ResErr 9)).
Proof. reflexivity. Qed.
Example C41_keys : enumeration Ordinal_Ordering [Lt; Eq; Gt].
Proof.
  split; [intros []; cbn; auto|].
  repeat constructor; eexists; eexists; (split; [reflexivity|]); (split; [reflexivity|]); reflexivity.
Qed.

(** ** C42 *)
Theorem C42_total_map_function : forall (cfg : Config) (K V : Type) (O : Ordinal K) (n : N), ordinal_bijection O n ->
  forall (eqd : forall a b : K, {a = b} + {a <> b}) (ks : list K) (m : @OrdinalTotalMap V),
  enumeration O ks -> htotal_reachable O m ->
  exists f, (forall k, OrdinalTotalMap_get O m k = Val (f k)) /\
  forall ops, exists m', htotal_run O ops m = Val (fst (total_run eqd ks ops f), m') /\
    forall k, OrdinalTotalMap_get O m' k = Val (snd (total_run eqd ks ops f) k).
Proof. exact @htotal_law. Qed.
Print Assumptions C42_total_map_function.
Theorem C42_total_array_map_function : forall (cfg : Config) (K V : Type) (O : Ordinal K) (n : N), ordinal_bijection O n ->
  forall (eqd : forall a b : K, {a = b} + {a <> b}) (ks : list K) (S : nat) (m : OrdinalTotalArrayMap S V),
  enumeration O ks -> atotal_reachable O m ->
  exists f, (forall k, OrdinalTotalArrayMap_get O m k = Val (f k)) /\
  forall ops, exists m', atotal_run O ops m = Val (fst (total_run eqd ks ops f), m') /\
    forall k, OrdinalTotalArrayMap_get O m' k = Val (snd (total_run eqd ks ops f) k).
Proof. exact @atotal_law. Qed.
Print Assumptions C42_total_array_map_function.
Example C42_case :
  htotal_run (cfg := release32) Ordinal_Ordering [@TInsert _ N Eq 9; @TGetMut _ N Lt 1; TIndex Lt; TGet Eq; TLen] [3; 5; 7] =
  Val ([TOValue 5; TOValue 3; TOValue 1; TOValue 9; TONum 3], [1; 9; 7]).
Proof. reflexivity. Qed.

(** ** C43 *)
Theorem C43_total_map_len : forall (cfg : Config) (K V : Type) (O : Ordinal K) (n : N), ordinal_bijection O n ->
  forall (m : @OrdinalTotalMap V),
  htotal_reachable O m -> forall l, lists_total O (OrdinalTotalMap_get O m) l ->
  ORDINAL_SIZE O = Val n /\ OrdinalTotalMap_len O m = Val n /\ llen l = n /\
  exists b, OrdinalTotalMap_is_empty O m = Val b /\ (b = true <-> forall k : K, False).
Proof. exact @htotal_len. Qed.
Print Assumptions C43_total_map_len.
Theorem C43_total_array_map_len : forall (cfg : Config) (K V : Type) (O : Ordinal K) (n : N), ordinal_bijection O n ->
  forall (S : nat) (m : OrdinalTotalArrayMap S V),
  atotal_reachable O m ->
  forall l, lists_total O (OrdinalTotalArrayMap_get O m) l ->
  ORDINAL_SIZE O = Val n /\ OrdinalTotalArrayMap_len m = n /\ llen l = n /\
  (OrdinalTotalArrayMap_is_empty m = true <-> forall k : K, False).
Proof. exact @atotal_len. Qed.
Print Assumptions C43_total_array_map_len.
Example C43_case : OrdinalTotalMap_len Ordinal_Ordering [3; 5; 7] = Val 3 /\
  OrdinalTotalMap_is_empty Ordinal_Infallible ([] : list N) = Val true.
Proof. split; reflexivity. Qed.

(** ** C44

    The full statement, from_array being a compile-time error unless S = ORDINAL_SIZE, is
    false: from_array (array_map.rs:73-78) has no ASSERT. *)
Theorem C44_from_array_refuted :
  exists (K : Type) (O : Ordinal K) (S : nat) (array m : arr N S) (k : K),
    (forall cfg : Config, lawful O 2) /\ OrdinalTotalArrayMap_from_array array = Val m /\
    OrdinalTotalArrayMap_len m <> 2 /\ OrdinalTotalArrayMap_get O m k = Panic PIndex.
Proof. exact from_array_refuted. Qed.
Print Assumptions C44_from_array_refuted.
Theorem C44_from_array_partial : forall (cfg : Config) (K V : Type) (O : Ordinal K) (n : N), ordinal_bijection O n ->
  forall (S : nat) (array : arr V S),
  N.of_nat S = n ->
  exists m, OrdinalTotalArrayMap_from_array array = Val m /\ OrdinalTotalArrayMap_len m = n /\
    forall k, exists v i, OrdinalTotalArrayMap_get O m k = Val v /\ ordinal O k = Val i /\
      nth_error (arr_list array) (N.to_nat i) = Some v.
Proof. exact @from_array_law. Qed.
Print Assumptions C44_from_array_partial.
Example C44_case :
  OrdinalTotalArrayMap_get Ordinal_bool (@mk_arr N 2 [4; 6] eq_refl) true = Val 6.
Proof. reflexivity. Qed.

(** ** C45 *)
Theorem C45_total_map_iterators : forall (cfg : Config) (K V : Type) (O : Ordinal K) (n : N), ordinal_bijection O n ->
  forall (m : @OrdinalTotalMap V),
  htotal_reachable O m ->
  forall l, lists_total O (OrdinalTotalMap_get O m) l ->
  double_ended (TIter_step O) (OrdinalTotalMap_iter m) l (fun s r => TIter_len s = llen r) /\
  double_ended (TIter_step O) (OrdinalTotalMap_ref_into_iter m) l (fun s r => TIter_len s = llen r) /\
  double_ended (TIntoIter_step O) (OrdinalTotalMap_into_iter m) l (fun s r => TIntoIter_len s = llen r) /\
  double_ended_rel (tref_to O m) (TIterMut_step O) (OrdinalTotalMap_iter_mut m) l (fun s r => TIterMut_len s = llen r) /\
  (exists it, OrdinalTotalMap_keys O m = Val it /\ OrdinalTotalMap_into_keys O m = Val it /\
     double_ended (values_step O) it (map fst l) (fun s r => values_len s = llen r)) /\
  double_ended slice_step (OrdinalTotalMap_values m) (map snd l) (fun s r => s = r) /\
  double_ended slice_step (OrdinalTotalMap_into_values m) (map snd l) (fun s r => s = r) /\
  double_ended_rel (tvalue_ref O m) slice_step (OrdinalTotalMap_values_mut m) l (fun s r => llen s = llen r).
Proof. exact @htotal_iterators. Qed.
Print Assumptions C45_total_map_iterators.
Theorem C45_total_array_map_iterators : forall (cfg : Config) (K V : Type) (O : Ordinal K) (n : N), ordinal_bijection O n ->
  forall (S : nat) (m : OrdinalTotalArrayMap S V),
  atotal_reachable O m ->
  forall l, lists_total O (OrdinalTotalArrayMap_get O m) l ->
  double_ended (TIter_step O) (OrdinalTotalArrayMap_iter m) l (fun s r => TIter_len s = llen r) /\
  double_ended (TIter_step O) (OrdinalTotalArrayMap_ref_into_iter m) l (fun s r => TIter_len s = llen r) /\
  double_ended (TIntoIterArray_step O) (OrdinalTotalArrayMap_into_iter m) l (fun s r => TIntoIterArray_len s = llen r) /\
  double_ended_rel (tref_to O (arr_list m)) (TIterMut_step O) (OrdinalTotalArrayMap_iter_mut m) l
    (fun s r => TIterMut_len s = llen r) /\
  (exists it, OrdinalTotalArrayMap_keys O m = Val it /\ OrdinalTotalArrayMap_into_keys O m = Val it /\
     double_ended (values_step O) it (map fst l) (fun s r => values_len s = llen r)) /\
  double_ended slice_step (OrdinalTotalArrayMap_values m) (map snd l) (fun s r => s = r) /\
  double_ended_rel (tvalue_ref O (arr_list m)) slice_step (OrdinalTotalArrayMap_values_mut m) l
    (fun s r => llen s = llen r).
Proof. exact @atotal_iterators. Qed.
Print Assumptions C45_total_array_map_iterators.
Example C45_case :
  drive (TIter_step (cfg := debug64) Ordinal_Ordering) [Back; Front; Front; Back] (OrdinalTotalMap_iter [3; 5; 7]) =
  Val ([Some (Gt, 7); Some (Lt, 3); Some (Eq, 5); None], {| e_next := 2; e_items := [] |}).
Proof. reflexivity. Qed.

(** ** C46

    The full statement is false for IntoIterArray (total/iter.rs:134-147), which implements
    ExactSizeIterator but inherits the default size_hint. *)
Theorem C46_into_iter_array_refuted :
  exists (K : Type) (O : Ordinal K) (S : nat) (m : OrdinalTotalArrayMap S N),
    (forall cfg : Config, lawful O 3 /\ atotal_reachable O m) /\
    ~ hint_exact (TIntoIterArray_size_hint (OrdinalTotalArrayMap_into_iter m))
                 (TIntoIterArray_len (OrdinalTotalArrayMap_into_iter m)).
Proof. exact into_iter_array_refuted. Qed.
Print Assumptions C46_into_iter_array_refuted.
Theorem C46_total_map_hints_partial : forall (cfg : Config) (K V : Type) (O : Ordinal K) (n : N), ordinal_bijection O n ->
  forall (m : @OrdinalTotalMap V),
  htotal_reachable O m ->
  forall l, lists_total O (OrdinalTotalMap_get O m) l ->
  double_ended (TIter_step O) (OrdinalTotalMap_iter m) l (fun s _ => hint_exact (TIter_size_hint s) (TIter_len s)) /\
  double_ended (TIntoIter_step O) (OrdinalTotalMap_into_iter m) l
    (fun s _ => hint_exact (TIntoIter_size_hint s) (TIntoIter_len s)) /\
  double_ended_rel (tref_to O m) (TIterMut_step O) (OrdinalTotalMap_iter_mut m) l
    (fun s _ => hint_exact (TIterMut_size_hint s) (TIterMut_len s)) /\
  (exists it, OrdinalTotalMap_keys O m = Val it /\
     double_ended (values_step O) it (map fst l) (fun s _ => hint_exact (values_size_hint s) (values_len s))).
Proof. exact @htotal_hints. Qed.
Print Assumptions C46_total_map_hints_partial.
(** The last part: the hint of IntoIterArray, though not exact, is sound. *)
Theorem C46_total_array_map_hints_partial : forall (cfg : Config) (K V : Type) (O : Ordinal K) (n : N), ordinal_bijection O n ->
  forall (S : nat) (m : OrdinalTotalArrayMap S V),
  atotal_reachable O m ->
  forall l, lists_total O (OrdinalTotalArrayMap_get O m) l ->
  double_ended (TIter_step O) (OrdinalTotalArrayMap_iter m) l (fun s _ => hint_exact (TIter_size_hint s) (TIter_len s)) /\
  double_ended_rel (tref_to O (arr_list m)) (TIterMut_step O) (OrdinalTotalArrayMap_iter_mut m) l
    (fun s _ => hint_exact (TIterMut_size_hint s) (TIterMut_len s)) /\
  (exists it, OrdinalTotalArrayMap_keys O m = Val it /\
     double_ended (values_step O) it (map fst l) (fun s _ => hint_exact (values_size_hint s) (values_len s))) /\
  double_ended (TIntoIterArray_step O) (OrdinalTotalArrayMap_into_iter m) l
    (fun s r => hint_ok (TIntoIterArray_size_hint s) (llen r)).
Proof. exact @atotal_hints. Qed.
Print Assumptions C46_total_array_map_hints_partial.
Example C46_case : TIter_size_hint (OrdinalTotalMap_iter [3; 5; 7]) = (3, Some 3).
Proof. reflexivity. Qed.

(** ** C47 *)
Theorem C47_map : forall (cfg : Config) (K V W : Type) (O : Ordinal K) (n : N), ordinal_bijection O n ->
  forall (S : nat) (m : OrdinalTotalArrayMap S V),
  atotal_reachable O m ->
  forall l, lists_total O (OrdinalTotalArrayMap_get O m) l ->
  (forall St (f : St -> K -> V -> St * res W) st,
     let r := OrdinalTotalArrayMap_map O f m st in
     let c := calls_ok (fun st kv => f st (fst kv) (snd kv)) l st in
     fst r = fst c /\ constructed_ok (OrdinalTotalArrayMap_get O (S := S)) (map fst l) (snd c) (returned (snd r))) /\
  (forall St (f : St -> V -> St * res W) st,
     let r := OrdinalTotalArrayMap_map_values O f m st in
     let c := calls_ok f (map snd l) st in
     fst r = fst c /\ constructed_ok (OrdinalTotalArrayMap_get O (S := S)) (map fst l) (snd c) (returned (snd r))).
Proof. exact @map_law. Qed.
Print Assumptions C47_map.
Theorem C47_zip : forall (cfg : Config) (K V W : Type) (O : Ordinal K) (n : N), ordinal_bijection O n ->
  forall (S : nat) (m : OrdinalTotalArrayMap S V) (m' : OrdinalTotalArrayMap S W),
  atotal_reachable O m -> atotal_reachable O m' ->
  exists z, returned (OrdinalTotalArrayMap_zip m m') = Val z /\
    forall k, OrdinalTotalArrayMap_get O z k =
      (v <- OrdinalTotalArrayMap_get O m k ;; w <- OrdinalTotalArrayMap_get O m' k ;; Val (v, w)).
Proof. exact @zip_law. Qed.
Print Assumptions C47_zip.
Theorem C47_total_map_values : forall (cfg : Config) (K V : Type) (O : Ordinal K) (n : N), ordinal_bijection O n ->
  forall (m : @OrdinalTotalMap V),
  htotal_reachable O m ->
  forall l, lists_total O (OrdinalTotalMap_get O m) l ->
  OrdinalTotalMap_values m = map snd l /\ OrdinalTotalMap_into_values m = map snd l.
Proof. exact @htotal_values. Qed.
Print Assumptions C47_total_map_values.
Theorem C47_total_array_map_values : forall (cfg : Config) (K V : Type) (O : Ordinal K) (n : N), ordinal_bijection O n ->
  forall (S : nat) (m : OrdinalTotalArrayMap S V),
  atotal_reachable O m ->
  forall l, lists_total O (OrdinalTotalArrayMap_get O m) l ->
  OrdinalTotalArrayMap_values m = map snd l /\ arr_list (OrdinalTotalArrayMap_into_values m) = map snd l /\
  arr_list (OrdinalTotalArrayMap_values_array m) = map snd l /\
  Forall2 (tvalue_ref O (arr_list m)) (OrdinalTotalArrayMap_values_array_mut m) l.
Proof. exact @atotal_values. Qed.
Print Assumptions C47_total_array_map_values.
Example C47_case :
  option_map arr_list (match returned (snd (OrdinalTotalArrayMap_map (cfg := debug64) Ordinal_Ordering (fun st k v => (st + 1, Val (st, k, v)))
    (@mk_arr N 3 [3; 5; 7] eq_refl) 10)) with Val a => Some a | _ => None end) =
  Some [(10, Lt, 3); (11, Eq, 5); (12, Gt, 7)].
Proof. reflexivity. Qed.

(** ** C48 *)
Theorem C48_as_ref : forall (cfg : Config) (K V : Type) (O : Ordinal K) (n : N), ordinal_bijection O n ->
  forall (S : nat) (m : OrdinalTotalArrayMap S V),
  atotal_reachable O m ->
  exists r, OrdinalTotalArrayMap_as_ref O m = Val r /\
    forall k, (i <- OrdinalTotalArrayMap_get O r k ;; deref (arr_list m) i) = OrdinalTotalArrayMap_get O m k.
Proof. exact @as_ref_law. Qed.
Print Assumptions C48_as_ref.
Theorem C48_as_mut : forall (cfg : Config) (K V : Type) (O : Ordinal K) (n : N), ordinal_bijection O n ->
  forall (eqd : forall a b : K, {a = b} + {a <> b}) (S : nat) (m : OrdinalTotalArrayMap S V),
  atotal_reachable O m ->
  exists r, OrdinalTotalArrayMap_as_mut m = Val r /\ NoDup (arr_list r) /\
    forall k, exists i v, OrdinalTotalArrayMap_get O r k = Val i /\ ordinal O k = Val i /\
      OrdinalTotalArrayMap_get O m k = Val v /\ deref (arr_list m) i = Val v /\
      forall w, exists st', write_slot (arr_list m) i w = Val st' /\
        forall k', total_storage_get O S st' k' = if eqd k k' then Val w else OrdinalTotalArrayMap_get O m k'.
Proof. exact @as_mut_law. Qed.
Print Assumptions C48_as_mut.
Example C48_case :
  option_map arr_list (match OrdinalTotalArrayMap_as_mut (@mk_arr N 3 [3; 5; 7] eq_refl) with Val a => Some a | _ => None end) =
  Some [0; 1; 2].
Proof. reflexivity. Qed.

(** ** C62 *)
Theorem C62_total_map_debug : forall (cfg : Config) (K V : Type) (O : Ordinal K) (n : N), ordinal_bijection O n ->
  forall (m : @OrdinalTotalMap V),
  htotal_reachable O m ->
  forall l, lists_total O (OrdinalTotalMap_get O m) l ->
  OrdinalTotalMap_debug O m = Val l /\
  double_ended (TIter_step O) (OrdinalTotalMap_iter m) l (fun s r => TIter_debug O s = Val r) /\
  double_ended (TIntoIter_step O) (OrdinalTotalMap_into_iter m) l (fun s r => TIntoIter_debug O s = Val r) /\
  double_ended_rel (tref_to O m) (TIterMut_step O) (OrdinalTotalMap_iter_mut m) l
    (fun s r => TIterMut_debug O m s = Val r).
Proof. exact @htotal_debugs. Qed.
Print Assumptions C62_total_map_debug.
Theorem C62_total_array_map_debug : forall (cfg : Config) (K V : Type) (O : Ordinal K) (n : N), ordinal_bijection O n ->
  forall (S : nat) (m : OrdinalTotalArrayMap S V),
  atotal_reachable O m ->
  forall l, lists_total O (OrdinalTotalArrayMap_get O m) l ->
  OrdinalTotalArrayMap_debug O m = Val l /\
  double_ended (TIter_step O) (OrdinalTotalArrayMap_iter m) l (fun s r => TIter_debug O s = Val r) /\
  double_ended (TIntoIterArray_step O) (OrdinalTotalArrayMap_into_iter m) l (fun s r => TIntoIterArray_debug O s = Val r) /\
  double_ended_rel (tref_to O (arr_list m)) (TIterMut_step O) (OrdinalTotalArrayMap_iter_mut m) l
    (fun s r => TIterMut_debug O (arr_list m) s = Val r).
Proof. exact @atotal_debugs. Qed.
Print Assumptions C62_total_array_map_debug.
Example C62_total_case : OrdinalTotalMap_debug (cfg := debug64) Ordinal_Ordering [3; 5; 7] = Val [(Lt, 3); (Eq, 5); (Gt, 7)].
Proof. reflexivity. Qed.
