(** * PropTests: the project's own tests (C88-C90). *)
From Coq Require Import String.
From Verif Require Import Base Spec SpecAtomic SpecValues SpecDerive SpecMap SpecTotal SpecSet SpecIter SpecTests ModelOrdinal ModelValues
  ModelArrayBuilder ModelIter ModelTotal ModelMap ModelSet ModelDerive ModelTests TestsProofs1 TestsProofs2 TestsProofs3 TestsProofs4.
From Coq Require Import List Lia. Import ListNotations.

(** ** C88: the unit tests and the documentation's examples pass *)

Theorem C88_unit_tests : forall (cfg : Config) name t, In (name, t) unit_tests ->
  t = (if (String.eqb name "test_non_zero_u32" || String.eqb name "test_non_zero_i32")%bool
       then match usize_width with W64 => Val tt | W32 => NoCompile end else Val tt).
Proof. exact @unit_tests_named. Qed.
Print Assumptions C88_unit_tests.
Example C88_unit_tests_50 : List.length (@unit_tests debug64) = 50%nat /\
  In ("test_char"%string, @test_char debug64) (@unit_tests debug64) /\
  In ("test_non_zero_u32"%string, @test_non_zero_u32 debug64) (@unit_tests debug64).
Proof.
  split; [reflexivity|]. split; [apply (nth_error_In _ 17)|apply (nth_error_In _ 11)]; reflexivity.
Qed.

Theorem C88_doc_tests : forall (cfg : Config) name t, In (name, t) doc_tests -> t = Val tt.
Proof. exact @doc_tests_pass. Qed.
Print Assumptions C88_doc_tests.
Example C88_doc_tests_10 : List.length (@doc_tests debug64) = 10%nat /\
  In ("set/array.rs"%string, @doc_array_set debug64) (@doc_tests debug64).
Proof. split; [reflexivity|]. apply (nth_error_In _ 4). reflexivity. Qed.

(** The test that must not compile. *)
Theorem C88_more_than_64 : forall cfg : Config, test_more_than_64 = NoCompile.
Proof. exact @more_than_64. Qed.
Print Assumptions C88_more_than_64.

(** The crate's example, with any errors: each category ends with the number of its errors. *)
Theorem C88_error_counts : forall (cfg : Config) (classify : string -> enum_val (variant_types Color))
    (eqd : forall a b : enum_val (variant_types Color), {a = b} + {a <> b}) errors, exists m,
  (error_counts <- OrdinalTotalMap_default (derive_enum Color) 0 ;; doc_count classify errors error_counts) = Val m /\
  forall k, OrdinalTotalMap_index (derive_enum Color) m k =
    Val (llen (filter (fun e => if eqd (classify e) k then true else false) errors)).
Proof. exact @count_errors. Qed.
Print Assumptions C88_error_counts.
Example C88_two_of_three :
  (error_counts <- OrdinalTotalMap_default (@derive_enum debug64 Color) 0 ;;
   @doc_count debug64 (fun e => if String.eqb e "disk" then Green else Red) ["disk"; "net"; "disk"]%string error_counts) =
  Val [1; 2; 0].
Proof. reflexivity. Qed.

(** ** C89: what [test_ordinal] establishes *)

Theorem C89_test_ordinal : forall (cfg : Config) (T : Type) (O : Ordinal T) (c : Cmp T), decides_eq (c_eq c) ->
  forall l, llen l <= usize_max -> test_ordinal O c l = Val tt <->
    ORDINAL_SIZE O = Val (llen l) /\ neighbours (fun a b => c_lt c a b = true) l /\ numbers_of O l /\
    from_ordinal O (llen l) = Val None /\ (llen l < usize_max -> from_ordinal O usize_max = Val None).
Proof. exact @test_iff. Qed.
Print Assumptions C89_test_ordinal.
Example C89_bool : decides_eq (c_eq Cmp_bool) /\ @test_ordinal debug64 _ Ordinal_bool Cmp_bool [false; true] = Val tt /\
  @test_ordinal debug64 _ Ordinal_bool Cmp_bool [true; false] = Panic PAssert /\
  @test_ordinal debug64 _ Ordinal_bool Cmp_bool [false] = Panic PAssert.
Proof. split; [intros [] []; cbn; split; congruence|]. split; [|split]; reflexivity. Qed.

Theorem C89_complete_list : forall (cfg : Config) (T : Type) (O : Ordinal T) (c : Cmp T), decides_eq (c_eq c) ->
  forall l, (forall t, In t l) -> llen l <= usize_max -> test_ordinal O c l = Val tt ->
  ordinal_bijection O (llen l) /\ enumeration O l.
Proof. exact @complete_test. Qed.
Print Assumptions C89_complete_list.
Example C89_complete_bool : (forall t, In t [false; true]) /\ llen [false; true] <= @usize_max debug64 /\
  @test_ordinal debug64 _ Ordinal_bool Cmp_bool [false; true] = Val tt.
Proof. split; [intros []; cbn; auto|]. split; [cbn; lia|reflexivity]. Qed.

Theorem C89_lawful_types_pass : forall (cfg : Config) (T : Type) (O : Ordinal T) (c : Cmp T), decides_eq (c_eq c) ->
  forall n l, ordinal_bijection O n -> enumeration O l -> (forall a b, ordinal_before O a b -> c_lt c a b = true) ->
  from_ordinal O n = Val None -> (n < usize_max -> from_ordinal O usize_max = Val None) ->
  test_ordinal O c l = Val tt.
Proof. exact @lawful_passes. Qed.
Print Assumptions C89_lawful_types_pass.
Example C89_passes_bool : @ordinal_bijection debug64 _ Ordinal_bool 2 /\ enumeration Ordinal_bool [false; true] /\
  (forall a b, ordinal_before Ordinal_bool a b -> c_lt Cmp_bool a b = true) /\
  from_ordinal Ordinal_bool 2 = Val None /\ from_ordinal Ordinal_bool (@usize_max debug64) = Val None.
Proof.
  split; [apply (@OrdinalProofs.bool_lawful debug64)|]. split; [|split; [|split; reflexivity]].
  - split; [intros []; cbn; auto|]. constructor; [constructor; constructor|]. constructor; [|constructor].
    exists 0, 1. repeat split.
  - intros [] [] (i & j & [= <-] & [= <-] & H); cbn in *; (lia || reflexivity).
Qed.

(** Not seen by the tests: the ordinals that [char] accepts beyond its size, and values that the
    list leaves out. *)
Theorem C89_char_unseen : forall cfg : Config, usize_width = W64 -> test_char = Val tt /\ ~ lawful Ordinal_char 1112064.
Proof. exact @char_blind. Qed.
Print Assumptions C89_char_unseen.
Example C89_64_bit : @usize_width debug64 = W64 /\ @usize_width release64 = W64.
Proof. split; reflexivity. Qed.

Theorem C89_incomplete_list : forall cfg : Config, exists (O : Ordinal (option bool)) (l : list (option bool)),
  test_ordinal O (Cmp_option Cmp_bool) l = Val tt /\ forall n, ~ ordinal_bijection O n.
Proof. exact @expected_matters. Qed.
Print Assumptions C89_incomplete_list.

(** ** C90: the quickcheck tests pass on all inputs *)

Theorem C90_maps : forall (cfg : Config) (K V : Type) (O : Ordinal K) n, ordinal_bijection O n ->
  forall c : Cmp K, decides_eq (c_eq c) -> forall d : Cmp V, decides_eq (c_eq d) ->
  forall (values : list (K * V)) (check : list K),
  qc_map O c d values check = Val tt /\ qc_array_map O c d values check = Val tt /\ qc_retain O c d values check = Val true.
Proof.
  exact (fun cfg K V O n HO c Hc d Hd values check =>
    conj (qc_map_passes HO Hc Hd values check)
      (conj (qc_array_map_passes HO Hc Hd values check) (qc_retain_passes HO Hc Hd values check))).
Qed.
Print Assumptions C90_maps.

Theorem C90_set_insert : forall (cfg : Config) (K : Type) (O : Ordinal K) n, ordinal_bijection O n ->
  forall c : Cmp K, decides_eq (c_eq c) -> forall values check : list K,
  (n <= usize_max - 64 \/ n <= 64 -> qc_set_insert O c values check = Val tt) /\
  qc_array_set_insert O c values check = Val tt.
Proof.
  exact (fun cfg K O n HO c Hc values check =>
    conj (qc_set_insert_passes HO Hc values check) (qc_array_set_insert_passes HO Hc values check)).
Qed.
Print Assumptions C90_set_insert.

Theorem C90_set_iter : forall (cfg : Config) (K : Type) (O : Ordinal K) n, ordinal_bijection O n ->
  forall c : Cmp K, decides_eq (c_eq c) -> ordinal_monotone O (fun a b => c_lt c a b = true) -> forall values : list K,
  n <= usize_max - 64 \/ n <= 64 -> 1 <= n \/ debug_assertions = false -> qc_set_iter O c values = Val true.
Proof. exact @qc_set_iter_passes. Qed.
Print Assumptions C90_set_iter.

Theorem C90_set64_iter : forall (cfg : Config) (K : Type) (O : Ordinal K) n, ordinal_bijection O n ->
  forall c : Cmp K, decides_eq (c_eq c) -> ordinal_monotone O (fun a b => c_lt c a b = true) -> forall values : list K,
  n <= 64 -> qc_iterator O c values = Val true /\ qc_double_ended_iterator O c values = Val true /\
  qc_exact_size_iterator O values = Val tt.
Proof.
  exact (fun cfg K O n HO c Hc Hlt values Hn =>
    conj (qc_iterator_passes HO Hc Hlt values Hn)
      (conj (qc_double_ended_passes HO Hc Hlt values Hn) (qc_exact_size_passes HO values Hn))).
Qed.
Print Assumptions C90_set64_iter.
Example C90_hypotheses : @ordinal_bijection debug64 _ (@derive_enum debug64 Example4) 4 /\ decides_eq (c_eq Cmp_Example4) /\
  @ordinal_monotone _ (@derive_enum debug64 Example4) (fun a b => c_lt Cmp_Example4 a b = true) /\
  4 <= @usize_max debug64 - 64 /\ 4 <= 64 /\ 1 <= 4.
Proof.
  split; [exact (@example4_bij debug64)|]. split; [exact example4_decides|]. split; [exact (@example4_lt debug64)|].
  cbn. lia.
Qed.
Example C90_sorted : dedup Cmp_bool (sort Cmp_bool [true; false; true; false]) = [false; true] /\
  @qc_iterator debug64 _ Ordinal_bool Cmp_bool [true; false; true] = Val true.
Proof. split; reflexivity. Qed.

(** The project's own instances. *)
Theorem C90_project_maps : forall (cfg : Config) values check,
  map_qc values check = Val tt /\ array_map_qc values check = Val tt /\ array_map_qc_retain values check = Val tt.
Proof. exact @qc_maps_pass. Qed.
Print Assumptions C90_project_maps.
Theorem C90_project_array_set : forall (cfg : Config) values check, array_set_qc_insert values check = Val tt.
Proof. exact @qc_array_set_pass. Qed.
Print Assumptions C90_project_array_set.
Theorem C90_project_small : forall (cfg : Config) values check,
  set_qc_insert_small values check = Val tt /\ set_qc_iter_small values = Val tt /\
  set64_qc_iterator values = Val tt /\ set64_qc_double_ended_iterator values = Val tt /\
  set64_qc_exact_size_iterator values = Val tt.
Proof. exact @qc_small_pass. Qed.
Print Assumptions C90_project_small.
Theorem C90_project_large : forall (cfg : Config) values check,
  set_qc_insert_large values check = Val tt /\ set_qc_iter_large values = Val tt.
Proof. exact @qc_large_pass. Qed.
Print Assumptions C90_project_large.
