(** * PropSet: properties C50 - C61, and the parts of C38, C40, C46 and C62 about the sets
    (set/set.rs, set/array.rs, set/set64.rs, set/set_ref.rs, set/set_mut.rs, set/iter.rs).

    [set_run], [array_set_run], [set64_run]: client programs on the modelled sets, and
    [set_reachable], ...: the sets they produce (SetMachine.v). [sspec_run]: the same program on
    a mathematical set; [lists_members O contains l]: [l] lists the members in ordinal order
    (SpecSet.v). [double_ended], [collects], [hint_ok], [hint_exact]: SpecIter.v. *)
From Verif Require Import Base Spec SpecSet SpecIter ModelOrdinal ModelValues ModelArrayBuilder ModelSet SetMachine
  OrdinalProofs OrdinalProofs2 SetProofs2.
From Coq Require Import List. Import ListNotations.

(** Examples: [key128] has 128 values, so that its sets have two words. *)
Definition key128 {cfg : Config} : Ordinal (arr bool 7) := Ordinal_array Ordinal_bool 7.
Definition k5 : arr bool 7 := mk_arr 7 [false; false; false; false; true; false; true] eq_refl.
Definition k64 : arr bool 7 := mk_arr 7 [true; false; false; false; false; false; false] eq_refl.
Definition k127 : arr bool 7 := mk_arr 7 [true; true; true; true; true; true; true] eq_refl.
Example key128_lawful : forall cfg : Config, lawful key128 128.
Proof.
  intros cfg. apply (@array_law _ _ _ 2 7); [apply bool_lawful|].
  unfold usize_max. destruct usize_width; vm_compute; discriminate.
Qed.
(** Reachable sets. *)
Example set_reached : forall cfg : Config, @set_reachable cfg _ key128 (Large [32; 1]).
Proof.
  intros cfg. exists (Large []), [SInsert k64; SInsert k5], [SBool true; SBool true].
  destruct cfg as [[] [] []]; split; vm_compute; reflexivity.
Qed.
Example array_set_reached : forall cfg : Config, @array_set_reachable cfg _ key128 2 (@mk_arr N 2 [32; 1] eq_refl).
Proof.
  intros cfg. exists (@mk_arr N 2 [0; 0] eq_refl), [SInsert k64; SInsert k5], [SBool true; SBool true].
  destruct cfg as [[] [] []]; split; vm_compute; reflexivity.
Qed.
Example set64_reached : forall cfg : Config, @set64_reachable cfg _ Ordinal_Ordering 5.
Proof.
  intros cfg. exists 0, [SInsert Gt; SInsert Lt], [SBool true; SBool true].
  destruct cfg as [[] [] []]; split; try left; vm_compute; reflexivity.
Qed.
Example set64_listed : lists_members Ordinal_Ordering (OrdinalSet64_contains (cfg := debug64) Ordinal_Ordering 5) [Lt; Gt].
Proof.
  split.
  - intros []; cbn; split; intros H; repeat destruct H as [H|H]; try congruence; try contradiction; auto; discriminate H.
  - repeat constructor. eexists. eexists. split; [reflexivity|]. split; [reflexivity|]. reflexivity.
Qed.

(** ** C38, sets *)
Theorem C38_set_clone : forall (cfg : Config) (T : Type) (O : Ordinal T) (n : N), ordinal_bijection O n ->
  forall (s : OrdinalSet) l, set_reachable O s -> lists_members O (OrdinalSet_contains O s) l ->
  lists_members O (OrdinalSet_contains O (OrdinalSet_clone s)) l /\
  forall it, OrdinalSet_iter O s = Val it ->
    double_ended (SetIter_step O) it l (fun it r => double_ended (SetIter_step O) (SetIter_clone it) r anything).
Proof. exact @set_clones. Qed.
Print Assumptions C38_set_clone.
Theorem C38_array_set_clone : forall (T : Type) (cfg : Config) (O : Ordinal T) (S : nat) (s : OrdinalArraySet S) l,
  array_set_reachable O s -> lists_members O (OrdinalArraySet_contains O s) l ->
  lists_members O (OrdinalArraySet_contains O (OrdinalArraySet_clone s)) l.
Proof. exact (fun T cfg => @array_set_clones cfg T). Qed.
Print Assumptions C38_array_set_clone.
Theorem C38_set64_clone : forall (cfg : Config) (T : Type) (O : Ordinal T) (n : N), ordinal_bijection O n ->
  forall (s : OrdinalSet64) l, set64_reachable O s -> lists_members O (OrdinalSet64_contains O s) l ->
  lists_members O (OrdinalSet64_contains O (OrdinalSet64_clone s)) l /\
  forall it, OrdinalSet64_iter O s = Val it ->
    double_ended (Iter64_step O) it l (fun it r => double_ended (Iter64_step O) (Iter64_clone it) r anything).
Proof. exact @set64_clones. Qed.
Print Assumptions C38_set64_clone.

(** ** C40, sets *)
Theorem C40_set_size_hint : forall (cfg : Config) (T : Type) (O : Ordinal T) (n : N), ordinal_bijection O n ->
  forall (s : OrdinalSet) l, set_reachable O s -> lists_members O (OrdinalSet_contains O s) l ->
  forall it, OrdinalSet_iter O s = Val it ->
    double_ended (SetIter_step O) it l (fun it r => hint_ok (SetIter_size_hint it) (llen r)).
Proof. exact @set_hints. Qed.
Print Assumptions C40_set_size_hint.
Example C40_set_case : forall cfg : Config, (it <- OrdinalSet_iter key128 (Large [32; 1]) ;; Val (SetIter_size_hint it)) = Val (0, Some 128).
Proof. intros [[] [] []]; repeat split; vm_compute; reflexivity. Qed.

(** ** C46, sets *)
Theorem C46_set64_hint : forall (cfg : Config) (T : Type) (O : Ordinal T) (n : N), ordinal_bijection O n ->
  forall (s : OrdinalSet64) l, set64_reachable O s -> lists_members O (OrdinalSet64_contains O s) l ->
  exists it, OrdinalSet64_iter O s = Val it /\
    double_ended (Iter64_step O) it l (fun it _ => hint_exact (Iter64_size_hint it) (Iter64_len it)).
Proof. exact @set64_hints. Qed.
Print Assumptions C46_set64_hint.

(** ** C50: [eqd] decides equality of elements, [ks] lists the element type. *)
Theorem C50_set_is_a_set : forall (cfg : Config) (T : Type) (O : Ordinal T) (n : N), ordinal_bijection O n ->
  1 <= n -> n <= usize_max - 64 ->
  forall (eqd : forall a b : T, {a = b} + {a <> b}) (ks : list T), enumeration O ks ->
  forall ops : list (set_op T), exists s0 s, OrdinalSet_new O = Val s0 /\
    set_run O ops s0 = Val (fst (sspec_run eqd ks ops ms_empty), s) /\
    forall t, OrdinalSet_contains O s t = Val (snd (sspec_run eqd ks ops ms_empty) t).
Proof. exact @set_behaves. Qed.
Print Assumptions C50_set_is_a_set.
Example C50_case : forall cfg : Config,
  (s <- OrdinalSet_new key128 ;;
   set_run key128 [SInsert k64; SInsert k5; SInsert k64; SContains k127; SContains k5; SIter [Back; Front; Front]] s)
  = Val ([SBool true; SBool true; SBool false; SBool false; SBool true; SItems [Some k64; Some k5; None]], Large [32; 1]).
Proof. intros [[] [] []]; repeat split; vm_compute; reflexivity. Qed.

(** ** C51: OrdinalArraySet has no [iter] method; [SDebug] lists its elements. *)
Theorem C51_array_set_is_a_set : forall (cfg : Config) (T : Type) (O : Ordinal T) (n : N), ordinal_bijection O n ->
  forall S : nat, ordinal_array_set_s O = Val (N.of_nat S) ->
  forall (eqd : forall a b : T, {a = b} + {a <> b}) (ks : list T), enumeration O ks ->
  forall ops : list (set_op T), forallb not_iter ops = true ->
  exists s0 s : OrdinalArraySet S, OrdinalArraySet_new O S = Val s0 /\
    array_set_run O ops s0 = Val (fst (sspec_run eqd ks ops ms_empty), s) /\
    forall t, OrdinalArraySet_contains O s t = Val (snd (sspec_run eqd ks ops ms_empty) t).
Proof. exact @array_set_behaves. Qed.
Print Assumptions C51_array_set_is_a_set.
Example C51_case : forall cfg : Config,
  (s <- OrdinalArraySet_new key128 2 ;;
   array_set_run key128 [SInsert k64; SInsert k5; SInsert k64; SContains k127; SDebug] s)
  = Val ([SBool true; SBool true; SBool false; SBool false; SElems [k5; k64]], @mk_arr N 2 [32; 1] eq_refl).
Proof. intros [[] [] []]; repeat split; vm_compute; reflexivity. Qed.

(** ** C52: [SDebug] is included whenever it does not hit the bug of C58. *)
Theorem C52_set64_is_a_set : forall (cfg : Config) (T : Type) (O : Ordinal T) (n : N), ordinal_bijection O n ->
  n <= 64 ->
  forall (eqd : forall a b : T, {a = b} + {a <> b}) (ks : list T), enumeration O ks ->
  forall ops : list (set_op T), forallb not_debug ops = true \/ 1 <= n \/ debug_assertions = false ->
  exists s0 s, OrdinalSet64_new O = Val s0 /\
    set64_run O ops s0 = Val (fst (sspec_run eqd ks ops ms_empty), s) /\
    forall t, OrdinalSet64_contains O s t = Val (snd (sspec_run eqd ks ops ms_empty) t).
Proof. exact @set64_behaves. Qed.
Print Assumptions C52_set64_is_a_set.
Example C52_case :
  (s <- OrdinalSet64_new Ordinal_Ordering ;;
   set64_run (cfg := debug64) Ordinal_Ordering [SInsert Gt; SInsert Lt; SInsert Gt; SContains Eq; SIter [Back; Front; Front]] s)
  = Val ([SBool true; SBool true; SBool false; SBool false; SItems [Some Gt; Some Lt; None]], 5).
Proof. vm_compute. reflexivity. Qed.
Example C52_full_word_case : forall cfg : Config,
  (s <- OrdinalSet64_new key64 ;;
   set64_run key64 [SInsert (mk_arr 6 [true; true; true; true; true; true] eq_refl); SIter [Front; Front]] s)
  = Val ([SBool true; SItems [Some (mk_arr 6 [true; true; true; true; true; true] eq_refl); None]], 9223372036854775808).
Proof. intros [[] [] []]; repeat split; vm_compute; reflexivity. Qed.

(** ** C53: for an element type without values [iter] panics if debug assertions are on (see
    C58), so that the full statement (without [1 <= n \/ debug_assertions = false]) is false. *)
Theorem C53_set_iteration_refuted : forall cfg : Config, debug_assertions = true ->
  exists (K : Type) (O : Ordinal K) (s : OrdinalSet), lawful O 0 /\ set_reachable O s /\
    lists_members O (OrdinalSet_contains O s) [] /\ OrdinalSet_iter O s = Panic PDebugAssert /\
    OrdinalSet_debug O s = Panic PDebugAssert.
Proof. exact @empty_iteration_refuted. Qed.
Print Assumptions C53_set_iteration_refuted.
Theorem C53_set_iteration_partial : forall (cfg : Config) (T : Type) (O : Ordinal T) (n : N), ordinal_bijection O n ->
  forall (s : OrdinalSet) l, 1 <= n \/ debug_assertions = false ->
  set_reachable O s -> lists_members O (OrdinalSet_contains O s) l ->
  exists it, OrdinalSet_iter O s = Val it /\ collects (SetIter_step O) it l /\
    double_ended (SetIter_step O) it l anything.
Proof. exact @set_iteration. Qed.
Print Assumptions C53_set_iteration_partial.
(** The members of every reachable set can be listed. *)
Theorem C53_listable : forall (cfg : Config) (T : Type) (O : Ordinal T) (n : N), ordinal_bijection O n ->
  forall (s : OrdinalSet), set_reachable O s -> exists l, lists_members O (OrdinalSet_contains O s) l.
Proof. exact @set_listable. Qed.
Print Assumptions C53_listable.

(** ** C54 *)
Theorem C54_set64_iteration : forall (cfg : Config) (T : Type) (O : Ordinal T) (n : N), ordinal_bijection O n ->
  forall (s : OrdinalSet64) l, set64_reachable O s -> lists_members O (OrdinalSet64_contains O s) l ->
  exists it, OrdinalSet64_iter O s = Val it /\ collects (Iter64_step O) it l /\
    double_ended (Iter64_step O) it l (fun it r =>
      Iter64_len it = llen r /\ hint_exact (Iter64_size_hint it) (llen r) /\
      (r = [] -> forall d, Iter64_step O d it = Val (None, it))).
Proof. exact @set64_iteration. Qed.
Print Assumptions C54_set64_iteration.
Theorem C54_listable : forall (cfg : Config) (T : Type) (O : Ordinal T) (n : N), ordinal_bijection O n ->
  forall (s : OrdinalSet64), set64_reachable O s -> exists l, lists_members O (OrdinalSet64_contains O s) l.
Proof. exact @set64_listable. Qed.
Print Assumptions C54_listable.

(** ** C55: with exactly 64 values [1 << 64] overflows: [all] panics, or returns the empty set.
    Below 64 values the statement holds. *)
Theorem C55_all_refuted : forall cfg : Config, exists (K : Type) (O : Ordinal K), lawful O 64 /\
  (overflow_checks = true -> OrdinalSet64_all O = Panic POverflow) /\
  (overflow_checks = false -> exists w, OrdinalSet64_all O = Val w /\ forall t, OrdinalSet64_contains O w t = Val false).
Proof. exact @all_refuted. Qed.
Print Assumptions C55_all_refuted.
Theorem C55_all_partial : forall (cfg : Config) (T : Type) (O : Ordinal T) (n : N), ordinal_bijection O n ->
  n < 64 -> exists w, OrdinalSet64_all O = Val w /\ forall t, OrdinalSet64_contains O w t = Val true.
Proof. exact @all_law. Qed.
Print Assumptions C55_all_partial.
Example C55_case : OrdinalSet64_all (cfg := debug64) Ordinal_Ordering = Val 7.
Proof. reflexivity. Qed.

(** ** C56 *)
Theorem C56_equality : forall (cfg : Config) (T : Type) (O : Ordinal T) (n : N), ordinal_bijection O n ->
  forall a b : OrdinalSet64, set64_reachable O a -> set64_reachable O b ->
  (OrdinalSet64_eq a b = true <-> forall t, OrdinalSet64_contains O a t = OrdinalSet64_contains O b t).
Proof. exact @set64_equality. Qed.
Print Assumptions C56_equality.

(** ** C57: OrdinalSet panics on the first element of a huge type (see C59), so that the full
    statement (without the bound on [n]) is false for it. *)
Theorem C57_set_from_iter_refuted : forall cfg : Config, exists (K : Type) (O : Ordinal K) (n : N) (t : K), lawful O n /\
  OrdinalSet_from_iter O [t] = Panic PUnwrap.
Proof. exact @set_from_iter_refuted. Qed.
Print Assumptions C57_set_from_iter_refuted.
Theorem C57_set_from_iter_partial : forall (cfg : Config) (T : Type) (O : Ordinal T) (n : N), ordinal_bijection O n ->
  forall l, n <= usize_max - 64 ->
  exists s, OrdinalSet_from_iter O l = Val s /\
    forall t, exists b, OrdinalSet_contains O s t = Val b /\ (b = true <-> In t l).
Proof. exact @set_collects. Qed.
Print Assumptions C57_set_from_iter_partial.
Theorem C57_array_set_from_iter : forall (cfg : Config) (T : Type) (O : Ordinal T) (n : N), ordinal_bijection O n ->
  forall (S : nat) l, ordinal_array_set_s O = Val (N.of_nat S) ->
  exists s : OrdinalArraySet S, OrdinalArraySet_from_iter O S l = Val s /\
    forall t, exists b, OrdinalArraySet_contains O s t = Val b /\ (b = true <-> In t l).
Proof. exact @array_set_collects. Qed.
Print Assumptions C57_array_set_from_iter.
Theorem C57_set64_from_iter : forall (cfg : Config) (T : Type) (O : Ordinal T) (n : N), ordinal_bijection O n ->
  forall l, n <= 64 ->
  exists s, OrdinalSet64_from_iter O l = Val s /\
    forall t, exists b, OrdinalSet64_contains O s t = Val b /\ (b = true <-> In t l).
Proof. exact @set64_collects. Qed.
Print Assumptions C57_set64_from_iter.
Example C57_case : forall cfg : Config,
  OrdinalSet_from_iter key128 [k64; k5; k64] = Val (Large [32; 1]) /\
  OrdinalArraySet_from_iter key128 2 [k64; k5; k64] = Val (@mk_arr N 2 [32; 1] eq_refl) /\
  OrdinalSet64_from_iter Ordinal_Ordering [Gt; Lt; Gt] = Val 5.
Proof. intros [[] [] []]; repeat split; vm_compute; reflexivity. Qed.

(** ** C58: for an empty element type the storage has one word where [ordinal_array_set_s] is
    zero; with debug assertions [iter] and Debug panic. *)
Theorem C58_empty_type_refuted : forall cfg : Config, debug_assertions = true ->
  exists (K : Type) (O : Ordinal K), lawful O 0 /\
  exists s w, OrdinalSet_new O = Val s /\ OrdinalSet_iter O s = Panic PDebugAssert /\
    OrdinalSet_debug O s = Panic PDebugAssert /\
    OrdinalSet64_new O = Val w /\ OrdinalSet64_debug O w = Panic PDebugAssert.
Proof. exact @empty_refuted. Qed.
Print Assumptions C58_empty_type_refuted.
Theorem C58_new_set_prints_partial : forall (cfg : Config) (T : Type) (O : Ordinal T) (n : N), ordinal_bijection O n ->
  n <= 64 -> 1 <= n \/ debug_assertions = false ->
  exists s it, OrdinalSet_new O = Val s /\ OrdinalSet_iter O s = Val it /\ collects (SetIter_step O) it [] /\
    OrdinalSet_debug O s = Val [].
Proof. exact @new_set_prints. Qed.
Print Assumptions C58_new_set_prints_partial.
Example C58_case : OrdinalSet_debug (cfg := release64) Ordinal_Infallible (Small 0) = Val [].
Proof. reflexivity. Qed.

(** ** C59: [SIZE.checked_add(64).unwrap()] panics for types with more than [usize::MAX - 64]
    values. *)
Theorem C59_insert_refuted : forall cfg : Config, exists (K : Type) (O : Ordinal K) (n : N), lawful O n /\
  exists s t, OrdinalSet_new O = Val s /\ OrdinalSet_insert O s t = Panic PUnwrap /\
    OrdinalSet_from_iter O [t] = Panic PUnwrap.
Proof. exact @huge_refuted. Qed.
Print Assumptions C59_insert_refuted.
Theorem C59_insert_partial : forall (cfg : Config) (T : Type) (O : Ordinal T) (n : N), ordinal_bijection O n ->
  forall (s : OrdinalSet) (t : T), n <= usize_max - 64 -> set_reachable O s ->
  exists b s', OrdinalSet_insert O s t = Val (b, s').
Proof. exact @insert_total. Qed.
Print Assumptions C59_insert_partial.
Example C59_case : forall cfg : Config, OrdinalSet_insert key128 (Large []) k64 = Val (true, Large [0; 1]).
Proof. intros [[] [] []]; repeat split; vm_compute; reflexivity. Qed.

(** ** C60 *)
Theorem C60_sets_agree : forall (cfg : Config) (T : Type) (O : Ordinal T) (n : N), ordinal_bijection O n ->
  forall (S : nat) (ops : list (set_op T)), 1 <= n -> n <= usize_max - 64 -> ordinal_array_set_s O = Val (N.of_nat S) ->
  (forallb not_iter ops = true ->
   exists outs s0 s (a0 a : OrdinalArraySet S),
     OrdinalSet_new O = Val s0 /\ set_run O ops s0 = Val (outs, s) /\
     OrdinalArraySet_new O S = Val a0 /\ array_set_run O ops a0 = Val (outs, a)) /\
  (n <= 64 ->
   exists outs s0 s w0 w,
     OrdinalSet_new O = Val s0 /\ set_run O ops s0 = Val (outs, s) /\
     OrdinalSet64_new O = Val w0 /\ set64_run O ops w0 = Val (outs, w)).
Proof. exact @sets_agree. Qed.
Print Assumptions C60_sets_agree.
Example C60_case : forall cfg : Config, ordinal_array_set_s key128 = Val 2.
Proof. intros [[] [] []]; repeat split; vm_compute; reflexivity. Qed.

(** ** C61: [Default] (and [Clone]) of OrdinalArraySet compile with any [S]; everything else does
    not. *)
Theorem C61_word_count_is_least : forall (cfg : Config) (T : Type) (O : Ordinal T) (n : N), ordinal_bijection O n ->
  exists s, ordinal_array_set_s O = Val s /\ n <= 64 * s /\ forall s', n <= 64 * s' -> s <= s'.
Proof. exact @word_count_least. Qed.
Print Assumptions C61_word_count_is_least.
Theorem C61_default_refuted : forall cfg : Config, exists (K : Type) (O : Ordinal K) (n : N) (S : nat), lawful O n /\
  ordinal_array_set_s O <> Val (N.of_nat S) /\
  exists s : OrdinalArraySet S, OrdinalArraySet_default S = Val s /\ OrdinalArraySet_clone s = s.
Proof. exact @default_refuted. Qed.
Print Assumptions C61_default_refuted.
Theorem C61_other_sizes_partial : forall (cfg : Config) (T : Type) (O : Ordinal T) (n : N), ordinal_bijection O n ->
  forall S : nat, ordinal_array_set_s O <> Val (N.of_nat S) ->
  OrdinalArraySet_new O S = NoCompile /\
  (forall l, OrdinalArraySet_from_iter O S l = NoCompile) /\
  forall s : OrdinalArraySet S,
    (forall t, OrdinalArraySet_contains O s t = NoCompile) /\ (forall t, OrdinalArraySet_insert O s t = NoCompile) /\
    OrdinalArraySet_debug O s = NoCompile.
Proof. exact @word_count_other. Qed.
Print Assumptions C61_other_sizes_partial.
Example C61_case : forall cfg : Config,
  ordinal_array_set_s Ordinal_bool = Val 1 /\ ordinal_array_set_s Ordinal_Infallible = Val 0 /\
  ordinal_array_set_s key64 = Val 1 /\ ordinal_array_set_s Ordinal_u8 = Val 4 /\
  OrdinalArraySet_new Ordinal_bool 3 = NoCompile.
Proof. intros [[] [] []]; repeat split; vm_compute; reflexivity. Qed.

(** ** C62, sets: for an element type without values and with debug assertions, Debug of
    OrdinalSet and OrdinalSet64 panics. *)
Theorem C62_set_debug_refuted : forall cfg : Config, debug_assertions = true ->
  exists (K : Type) (O : Ordinal K) (s : OrdinalSet), lawful O 0 /\ set_reachable O s /\
    lists_members O (OrdinalSet_contains O s) [] /\ OrdinalSet_iter O s = Panic PDebugAssert /\
    OrdinalSet_debug O s = Panic PDebugAssert.
Proof. exact @empty_iteration_refuted. Qed.
Print Assumptions C62_set_debug_refuted.
Theorem C62_set_debug_partial : forall (cfg : Config) (T : Type) (O : Ordinal T) (n : N), ordinal_bijection O n ->
  forall (s : OrdinalSet) l, set_reachable O s -> lists_members O (OrdinalSet_contains O s) l ->
  (1 <= n \/ debug_assertions = false -> OrdinalSet_debug O s = Val l) /\
  forall it, OrdinalSet_iter O s = Val it ->
    double_ended (SetIter_step O) it l (fun it r => SetIter_debug O it = Val r).
Proof. exact @set_debugs. Qed.
Print Assumptions C62_set_debug_partial.
Theorem C62_array_set_debug : forall (cfg : Config) (T : Type) (O : Ordinal T) (n : N), ordinal_bijection O n ->
  forall (S : nat) (s : OrdinalArraySet S) l, array_set_reachable O s ->
  lists_members O (OrdinalArraySet_contains O s) l -> OrdinalArraySet_debug O s = Val l.
Proof. exact @array_set_debugs. Qed.
Print Assumptions C62_array_set_debug.
Theorem C62_set64_debug_partial : forall (cfg : Config) (T : Type) (O : Ordinal T) (n : N), ordinal_bijection O n ->
  forall (s : OrdinalSet64) l, set64_reachable O s -> lists_members O (OrdinalSet64_contains O s) l ->
  (1 <= n \/ debug_assertions = false -> OrdinalSet64_debug O s = Val l) /\
  exists it, OrdinalSet64_iter O s = Val it /\
    double_ended (Iter64_step O) it l (fun it r => Iter64_debug O it = Val r).
Proof. exact @set64_debugs. Qed.
Print Assumptions C62_set64_debug_partial.
Example C62_set_case : forall cfg : Config,
  OrdinalSet_debug key128 (Large [32; 1]) = Val [k5; k64] /\
  OrdinalSet64_debug Ordinal_Ordering 5 = Val [Lt; Gt].
Proof. intros [[] [] []]; repeat split; vm_compute; reflexivity. Qed.
