(** * ModelTests: the project's own unit tests and documentation examples, as programs over the
    model. A test returns [Val tt] if it passes. *)
From Coq Require Import String List. Import ListNotations.
From Verif Require Import Base Spec SpecAtomic SpecValues ModelOrdinal ModelValues ModelArrayBuilder ModelDerive ModelIter ModelTotal ModelMap
  ModelSet ModelAtomic ModelStd.

(** ** [Eq] and [Ord] of the types in the tests *)

(** [==] and [<]. *)
Record Cmp (T : Type) := { c_eq : T -> T -> bool; c_lt : T -> T -> bool }.
Arguments Build_Cmp {T} _ _.

Definition Cmp_unit : Cmp unit := Build_Cmp (fun _ _ => true) (fun _ _ => false).
Definition Cmp_never : Cmp Empty_set := Build_Cmp (fun _ _ => true) (fun _ _ => false).
Definition Cmp_bool : Cmp bool := Build_Cmp Bool.eqb (fun a b => negb a && b).
Definition Cmp_int {lo hi} : Cmp (int lo hi) :=
  Build_Cmp (fun a b => int_val a =? int_val b)%Z (fun a b => int_val a <? int_val b)%Z.
Definition Cmp_nonzero {lo hi} : Cmp (nonzero lo hi) :=
  Build_Cmp (fun a b => int_val (nz_get a) =? int_val (nz_get b))%Z
            (fun a b => int_val (nz_get a) <? int_val (nz_get b))%Z.
Definition Cmp_char : Cmp char :=
  Build_Cmp (fun a b => char_val a =? char_val b) (fun a b => char_val a <? char_val b).
(** The derived order of std's [Ordering]: [Less < Equal < Greater]. *)
Definition Cmp_Ordering : Cmp comparison :=
  Build_Cmp (fun a b => match a, b with Lt, Lt | Eq, Eq | Gt, Gt => true | _, _ => false end)
            (fun a b => match a, b with Lt, Eq | Lt, Gt | Eq, Gt => true | _, _ => false end).
Definition Cmp_box {A} (c : Cmp A) : Cmp (box A) :=
  Build_Cmp (fun a b => c_eq c (unbox a) (unbox b)) (fun a b => c_lt c (unbox a) (unbox b)).
Definition Cmp_option {A} (c : Cmp A) : Cmp (option A) :=
  Build_Cmp (fun a b => match a, b with None, None => true | Some a, Some b => c_eq c a b | _, _ => false end)
            (fun a b => match a, b with None, Some _ => true | Some a, Some b => c_lt c a b | _, _ => false end).
Definition Cmp_result {A B} (c : Cmp A) (d : Cmp B) : Cmp (result A B) :=
  Build_Cmp (fun a b => match a, b with ResOk a, ResOk b => c_eq c a b | ResErr a, ResErr b => c_eq d a b | _, _ => false end)
            (fun a b => match a, b with ResOk a, ResOk b => c_lt c a b | ResErr a, ResErr b => c_lt d a b
                                      | ResOk _, ResErr _ => true | _, _ => false end).
Definition Cmp_either {A B} (c : Cmp A) (d : Cmp B) : Cmp (either A B) :=
  Build_Cmp (fun a b => match a, b with Left a, Left b => c_eq c a b | Right a, Right b => c_eq d a b | _, _ => false end)
            (fun a b => match a, b with Left a, Left b => c_lt c a b | Right a, Right b => c_lt d a b
                                      | Left _, Right _ => true | _, _ => false end).
(** Tuples, and [derive] for structs: lexicographic. *)
Definition Cmp_pair {A B} (c : Cmp A) (d : Cmp B) : Cmp (A * B) :=
  Build_Cmp (fun a b => c_eq c (fst a) (fst b) && c_eq d (snd a) (snd b))
            (fun a b => c_lt c (fst a) (fst b) || (c_eq c (fst a) (fst b) && c_lt d (snd a) (snd b))).
(** [derive] for enums: first the variant, then its fields. *)
Definition Cmp_sum {A B} (c : Cmp A) (d : Cmp B) : Cmp (A + B) :=
  Build_Cmp (fun a b => match a, b with inl a, inl b => c_eq c a b | inr a, inr b => c_eq d a b | _, _ => false end)
            (fun a b => match a, b with inl a, inl b => c_lt c a b | inr a, inr b => c_lt d a b
                                      | inl _, inr _ => true | _, _ => false end).
Fixpoint list_eq {A} (c : Cmp A) (a b : list A) : bool :=
  match a, b with
  | [], [] => true
  | x :: a', y :: b' => c_eq c x y && list_eq c a' b'
  | _, _ => false
  end.
Fixpoint list_lt {A} (c : Cmp A) (a b : list A) : bool :=
  match a, b with
  | [], _ :: _ => true
  | x :: a', y :: b' => c_lt c x y || (c_eq c x y && list_lt c a' b')
  | _, _ => false
  end.
Definition Cmp_arr {A S} (c : Cmp A) : Cmp (arr A S) :=
  Build_Cmp (fun a b => list_eq c (arr_list a) (arr_list b)) (fun a b => list_lt c (arr_list a) (arr_list b)).

(** ** tests/util.rs *)

Section Util.
  Context {cfg : Config} {T : Type} (O : Ordinal T) (c : Cmp T).

  (** tests/util.rs:11-14 *)
  Definition test_ordinal_value (value : T) : res unit :=
    i <- ordinal O value ;;
    o <- from_ordinal O i ;;
    t <- unwrap o ;;
    assert_rt (c_eq c value t).

  (** tests/util.rs:16-25 *)
  Definition test_ordinal_some : res unit :=
    size <- ORDINAL_SIZE O ;;
    (if 0 <? size then
       o <- from_ordinal O 0 ;; t <- unwrap o ;; test_ordinal_value t ;;;
       i <- usub size 1 ;;
       o <- from_ordinal O i ;; t <- unwrap o ;; test_ordinal_value t
     else Val tt) ;;;
    o <- from_ordinal O size ;;
    assert_rt (negb (is_some o)) ;;;
    if size <? usize_max then o <- from_ordinal O usize_max ;; assert_rt (negb (is_some o)) else Val tt.

  (** tests/util.rs:31-33: [expected.iter().zip(expected.iter().skip(1))] *)
  Fixpoint self_check (expected : list T) : res unit :=
    match expected with
    | a :: ((b :: _) as rest) => assert_rt (c_lt c a b) ;;; self_check rest
    | _ => Val tt
    end.

  (** tests/util.rs:38-42, from turn [i] on; [turns] are left. *)
  Fixpoint test_ordinal_loop (expected : list T) (turns : nat) (i : N) : res unit :=
    match turns with
    | Datatypes.O => Val tt
    | S turns' =>
        o <- from_ordinal O i ;;
        t <- unwrap o ;;
        e <- index expected i ;;
        assert_rt (c_eq c t e) ;;;
        j <- ordinal O t ;;
        assert_rt (i =? j) ;;;
        test_ordinal_loop expected turns' (i + 1)
    end.

  (** tests/util.rs:27-47 *)
  Definition test_ordinal (expected : list T) : res unit :=
    size <- ORDINAL_SIZE O ;;
    self_check expected ;;;
    assert_rt (llen expected =? size) ;;;
    it <- values_new O ;;
    '(l, _) <- collect (values_next O) (S (N.to_nat (range_len it))) it ;;
    assert_rt (list_eq c expected l) ;;;
    test_ordinal_loop expected (N.to_nat size) 0 ;;;
    o <- from_ordinal O size ;;
    assert_rt (negb (is_some o)) ;;;
    test_ordinal_some.
End Util.

(** tests/util.rs:72-81, for any iterator; [turns] is what is left of [0..rem]. *)
Fixpoint test_exact_size_loop {cfg : Config} {St A : Type} (next : St -> res (option A * St)) (len : St -> N)
    (turns : nat) (rem : N) (it : St) : res unit :=
  match turns with
  | O =>
      assert_rt (0 =? len it) ;;;
      '(o, _) <- next it ;;
      assert_rt (negb (is_some o))
  | S turns' =>
      assert_rt (rem =? len it) ;;;
      '(o, it') <- next it ;;
      assert_rt (is_some o) ;;;
      rem' <- usub rem 1 ;;
      test_exact_size_loop next len turns' rem' it'
  end.
Definition test_exact_size_iterator {cfg : Config} {St A : Type} (next : St -> res (option A * St)) (len : St -> N)
    (it : St) : res unit :=
  test_exact_size_loop next len (N.to_nat (len it)) (len it) it.

(** ** The quickcheck tests, for any key type; quickcheck runs them on random vectors *)

Section Quickcheck.
  Context {cfg : Config} {K V : Type} (O : Ordinal K) (c : Cmp K) (d : Cmp V).

  (** std's [HashMap] and [HashSet] as lists of entries with different keys (their contract). *)
  Definition HashMap := list (K * V).
  Fixpoint hm_get (m : HashMap) (k : K) : option V :=
    match m with [] => None | (k', v) :: m' => if c_eq c k k' then Some v else hm_get m' k end.
  Fixpoint hm_put (m : HashMap) (k : K) (v : V) : HashMap :=
    match m with
    | [] => [(k, v)]
    | (k', v') :: m' => if c_eq c k k' then (k', v) :: m' else (k', v') :: hm_put m' k v
    end.
  Definition hm_insert (m : HashMap) (k : K) (v : V) : option V * HashMap := (hm_get m k, hm_put m k v).
  Definition hm_from_iter (l : list (K * V)) : HashMap := fold_left (fun m p => hm_put m (fst p) (snd p)) l [].
  Definition hm_retain (f : K -> bool) (m : HashMap) : HashMap := filter (fun p => f (fst p)) m.
  Definition hm_eq (a b : HashMap) : bool :=
    (llen a =? llen b) &&
    forallb (fun p => match hm_get b (fst p) with Some v => c_eq d (snd p) v | None => false end) a.
  Definition HashSet := list K.
  Definition hs_contains (s : HashSet) (k : K) : bool := existsb (c_eq c k) s.
  Definition hs_insert (s : HashSet) (k : K) : bool * HashSet :=
    if hs_contains s k then (false, s) else (true, s ++ [k]).
  Definition hs_from_iter (l : list K) : HashSet := fold_left (fun s k => snd (hs_insert s k)) l [].

  Definition same_option : option V -> option V -> res unit := fun a b => assert_rt (c_eq (Cmp_option d) a b).

  (** map/map.rs:205-220 *)
  Fixpoint qc_map_inserts (values : list (K * V)) (map : @OrdinalMap V) (control : HashMap)
      : res (@OrdinalMap V * HashMap) :=
    match values with
    | [] => Val (map, control)
    | (key, value) :: values =>
        let '(control_inserted, control) := hm_insert control key value in
        '(inserted, map) <- OrdinalMap_insert O map key value ;;
        same_option control_inserted inserted ;;;
        n <- OrdinalMap_len O map ;;
        assert_rt (llen control =? n) ;;;
        qc_map_inserts values map control
    end.
  Fixpoint qc_map_checks (check : list K) (map : @OrdinalMap V) (control : HashMap) : res unit :=
    match check with
    | [] => Val tt
    | key :: check =>
        v <- OrdinalMap_get O map key ;; same_option (hm_get control key) v ;;; qc_map_checks check map control
    end.
  Definition qc_map (values : list (K * V)) (check : list K) : res unit :=
    '(map, control) <- qc_map_inserts values (@OrdinalMap_new V) [] ;; qc_map_checks check map control.

  (** map/array_map.rs:218-233 *)
  Fixpoint qc_array_map_inserts {S} (values : list (K * V)) (map : @OrdinalArrayMap V S) (control : HashMap)
      : res (@OrdinalArrayMap V S * HashMap) :=
    match values with
    | [] => Val (map, control)
    | (key, value) :: values =>
        let '(control_inserted, control) := hm_insert control key value in
        '(inserted, map) <- OrdinalArrayMap_insert O map key value ;;
        same_option control_inserted inserted ;;;
        n <- OrdinalArrayMap_len O map ;;
        assert_rt (llen control =? n) ;;;
        qc_array_map_inserts values map control
    end.
  Fixpoint qc_array_map_checks {S} (check : list K) (map : @OrdinalArrayMap V S) (control : HashMap) : res unit :=
    match check with
    | [] => Val tt
    | key :: check =>
        v <- OrdinalArrayMap_get O map key ;; same_option (hm_get control key) v ;;; qc_array_map_checks check map control
    end.
  (** [{ K::ORDINAL_SIZE }] *)
  Definition qc_array_map (values : list (K * V)) (check : list K) : res unit :=
    n <- ORDINAL_SIZE O ;;
    map <- OrdinalArrayMap_new (V := V) O (N.to_nat n) ;;
    '(map, control) <- qc_array_map_inserts values map [] ;; qc_array_map_checks check map control.

  (** map/array_map.rs:235-246; the predicate writes nothing. *)
  Definition qc_retain (values : list (K * V)) (retain : list K) : res bool :=
    let retain := hs_from_iter retain in
    n <- ORDINAL_SIZE O ;;
    map <- OrdinalArrayMap_from_iter O (N.to_nat n) values ;;
    let control := hm_from_iter values in
    let '(_, storage, r) :=
      OrdinalArrayMap_retain O (fun (st : unit) key value => (st, value, Val (hs_contains retain key))) map tt in
    r ;;;
    map <- arr_back (N.to_nat n) storage ;;
    let control := hm_retain (hs_contains retain) control in
    '(l, _) <- collect (IntoIterArray_step O Front) (Datatypes.S (N.to_nat n)) (OrdinalArrayMap_into_iter map) ;;
    Val (hm_eq control (hm_from_iter l)).

  (** set/set.rs:128-141, 143-156 *)
  Fixpoint qc_set_inserts (values : list K) (set : OrdinalSet) (control : HashSet) : res (OrdinalSet * HashSet) :=
    match values with
    | [] => Val (set, control)
    | value :: values =>
        let '(control_inserted, control) := hs_insert control value in
        '(inserted, set) <- OrdinalSet_insert O set value ;;
        assert_rt (Bool.eqb control_inserted inserted) ;;;
        qc_set_inserts values set control
    end.
  Fixpoint qc_set_checks (check : list K) (set : OrdinalSet) (control : HashSet) : res unit :=
    match check with
    | [] => Val tt
    | value :: check =>
        b <- OrdinalSet_contains O set value ;;
        assert_rt (Bool.eqb (hs_contains control value) b) ;;;
        qc_set_checks check set control
    end.
  Definition qc_set_insert (values check : list K) : res unit :=
    set <- OrdinalSet_new O ;;
    '(set, control) <- qc_set_inserts values set [] ;; qc_set_checks check set control.

  (** [Vec::sort] and [Vec::dedup]. *)
  Fixpoint insert_sorted (x : K) (l : list K) : list K :=
    match l with
    | [] => [x]
    | y :: l' => if c_lt c y x then y :: insert_sorted x l' else x :: l
    end.
  Definition sort (l : list K) : list K := fold_right insert_sorted [] l.
  Fixpoint dedup (l : list K) : list K :=
    match l with
    | x :: ((y :: _) as rest) => if c_eq c x y then dedup rest else x :: dedup rest
    | _ => l
    end.

  (** set/set.rs:158-164, 166-172 *)
  Definition qc_set_iter (values : list K) : res bool :=
    set <- OrdinalSet_from_iter O values ;;
    let values := dedup (sort values) in
    it <- OrdinalSet_iter O set ;;
    '(l, _) <- collect (SetIter_step O Front) (Datatypes.S (N.to_nat (values_len (si_iter it)))) it ;;
    Val (list_eq c l values).

  (** set/array.rs:118-130 *)
  Fixpoint qc_array_set_inserts {S} (values : list K) (set : OrdinalArraySet S) (control : HashSet)
      : res (OrdinalArraySet S * HashSet) :=
    match values with
    | [] => Val (set, control)
    | value :: values =>
        let '(control_inserted, control) := hs_insert control value in
        '(inserted, set) <- OrdinalArraySet_insert O set value ;;
        assert_rt (Bool.eqb control_inserted inserted) ;;;
        qc_array_set_inserts values set control
    end.
  Fixpoint qc_array_set_checks {S} (check : list K) (set : OrdinalArraySet S) (control : HashSet) : res unit :=
    match check with
    | [] => Val tt
    | value :: check =>
        b <- OrdinalArraySet_contains O set value ;;
        assert_rt (Bool.eqb (hs_contains control value) b) ;;;
        qc_array_set_checks check set control
    end.
  Definition qc_array_set_insert (values check : list K) : res unit :=
    s <- ordinal_array_set_s O ;;
    set <- OrdinalArraySet_new O (N.to_nat s) ;;
    '(set, control) <- qc_array_set_inserts values set [] ;; qc_array_set_checks check set control.

  (** set/set64.rs:184-190, 192-198, 200-203 *)
  Definition qc_iterator (values : list K) : res bool :=
    set <- OrdinalSet64_from_iter O values ;;
    let values := dedup (sort values) in
    it <- OrdinalSet64_iter O set ;;
    '(l, _) <- collect (Iter64_step O Front) 65 it ;;
    Val (list_eq c l values).
  Definition qc_double_ended_iterator (values : list K) : res bool :=
    set <- OrdinalSet64_from_iter O values ;;
    let values := dedup (sort values) in
    it <- OrdinalSet64_iter O set ;;
    '(l, _) <- collect (Iter64_step O Back) 65 it ;;
    Val (list_eq c l (rev values)).
  Definition qc_exact_size_iterator (values : list K) : res unit :=
    set <- OrdinalSet64_from_iter O values ;;
    it <- OrdinalSet64_iter O set ;;
    test_exact_size_iterator (Iter64_step O Front) Iter64_len it.
End Quickcheck.

(** ** The tests *)

(** [Option::into_iter] and [filter_map]. *)
Definition items {A} (o : option A) : list A := match o with Some a => [a] | None => [] end.
(** [a..=b] of an integer type, for [a] at least and [b] at most its bounds. *)
Definition int_from_to (lo hi a b : Z) : list (int lo hi) :=
  flat_map (fun i => items (try_int lo hi (a + Z.of_N i)%Z)) (ordinals (Z.to_N (b - a + 1))).
Definition nonzero_from_to (lo hi a b : Z) : list (nonzero lo hi) :=
  flat_map (fun i => items (nz_new i)) (int_from_to lo hi a b).
Definition u8_range : list u8 := int_from_to 0 255 0 255.
(** [[a, b]] *)
Definition array2 {A} (a b : A) : arr A 2 := mk_arr 2 [a; b] eq_refl.
Definition array1 {A} (a : A) : arr A 1 := mk_arr 1 [a] eq_refl.
Definition array0 {A} : arr A 0 := mk_arr 0 [] eq_refl.

(** Field types; the order is not used by the impls. *)
Definition F {T} (O : Ordinal T) : ftype := {| ft_T := T; ft_ord := O; ft_lt := fun _ _ => False |}.
Definition V (f : fields) : variant := {| v_discriminant := None; v_fields := f |}.

(** tests/util.rs:49-55; [Example4] *)
Definition Example4 : list variant := [V FUnit; V FUnit; V FUnit; V FUnit].

Section Tests.
  Context {cfg : Config}.
  Local Notation Fbool := (F Ordinal_bool).
  Local Notation Fu8 := (F Ordinal_u8).
  Local Notation Funit := (F (impl_ordinal_for_tuple_n [])).
  Local Notation Fopt := (F (Ordinal_Option (impl_ordinal_for_tuple_n []))).
  Local Notation Fres := (F (Ordinal_Result Ordinal_bool (impl_ordinal_for_tuple_n []))).
  Local Notation "c * d" := (Cmp_pair c d).
  Local Notation "c + d" := (Cmp_sum c d).

  (** ordinal/impls/primitive.rs:112-156 *)
  Definition test_bool := test_ordinal Ordinal_bool Cmp_bool [false; true].
  Definition test_u8 := test_ordinal Ordinal_u8 Cmp_int u8_range.
  Definition test_i8 := test_ordinal Ordinal_i8 Cmp_int (int_from_to (-128) 127 (-128) 127).
  Definition test_u16 := test_ordinal Ordinal_u16 Cmp_int (int_from_to 0 65535 0 65535).
  Definition test_i16 := test_ordinal Ordinal_i16 Cmp_int (int_from_to (-32768) 32767 (-32768) 32767).
  (** Written with [if cfg!(target_pointer_width = "64")]. *)
  Definition on_64_bit (t : res unit) : res unit := match usize_width with W64 => t | W32 => Val tt end.
  Definition is_int {lo hi} (z : Z) (o : option (int lo hi)) : res unit :=
    assert_rt (match o with Some i => int_val i =? z | None => false end)%Z.
  Definition test_u32 := on_64_bit (
    iter <- values_new Ordinal_u32 ;;
    n <- uadd 4294967295 1 ;;
    assert_rt (n =? values_len iter) ;;;
    '(o, iter) <- values_next Ordinal_u32 iter ;; is_int 0 o ;;;
    '(o, iter) <- values_next Ordinal_u32 iter ;; is_int 1 o ;;;
    '(o, _) <- values_next_back Ordinal_u32 iter ;; is_int 4294967295 o).
  Definition test_i32 := on_64_bit (
    iter <- values_new Ordinal_i32 ;;
    n <- uadd 4294967295 1 ;;
    assert_rt (n =? values_len iter) ;;;
    '(o, iter) <- values_next Ordinal_i32 iter ;; is_int (-2147483648) o ;;;
    '(o, _) <- values_next_back Ordinal_i32 iter ;; is_int 2147483647 o).

  (** ordinal/impls/non_zero.rs:215-273; [NonZero::new] of a literal gives an [Option], so
      [test_ordinal_value] is called on the type [Option<NonZero..>]. The tests called
      [test_non_zero_u32] and [test_non_zero_i32] use [u32] and [i32]. *)
  Definition test_non_zero_u8 := test_ordinal Ordinal_NonZeroU8 Cmp_nonzero (nonzero_from_to 0 255 1 255).
  Definition test_non_zero_i8 := test_ordinal Ordinal_NonZeroI8 Cmp_nonzero (nonzero_from_to (-128) 127 (-128) 127).
  Definition test_non_zero_u16 := test_ordinal Ordinal_NonZeroU16 Cmp_nonzero (nonzero_from_to 0 65535 1 65535).
  Definition test_non_zero_i16 :=
    test_ordinal Ordinal_NonZeroI16 Cmp_nonzero (nonzero_from_to (-32768) 32767 (-32768) 32767).
  Definition test_non_zero_u32 := test_ordinal_some Ordinal_u32 Cmp_int.
  Definition new_value {lo hi} (O : Ordinal (nonzero lo hi)) (z : Z) : res unit :=
    match try_int lo hi z with
    | Some i => test_ordinal_value (Ordinal_Option O) (Cmp_option Cmp_nonzero) (nz_new i)
    | None => NoCompile
    end.
  Definition test_non_zero_i32 :=
    test_ordinal_some Ordinal_i32 Cmp_int ;;; new_value Ordinal_NonZeroI32 (-1) ;;; new_value Ordinal_NonZeroI32 1.
  Definition test_non_zero_u64 := on_64_bit (test_ordinal_some Ordinal_NonZeroU64 Cmp_nonzero).
  Definition test_non_zero_i64 := on_64_bit (
    test_ordinal_some Ordinal_NonZeroI64 Cmp_nonzero ;;;
    new_value Ordinal_NonZeroI64 (-1) ;;; new_value Ordinal_NonZeroI64 1).
  Definition test_non_zero_usize := test_ordinal_some Ordinal_NonZeroUsize Cmp_nonzero.
  Definition test_non_zero_isize :=
    test_ordinal_some Ordinal_NonZeroIsize Cmp_nonzero ;;;
    new_value Ordinal_NonZeroIsize (-1) ;;; new_value Ordinal_NonZeroIsize 1.

  (** ordinal/impls/char.rs:30-33 *)
  Definition test_char :=
    test_ordinal Ordinal_char Cmp_char (flat_map (fun i => items (char_from_u32 i)) (ordinals 1114112)).
  (** ordinal/impls/ordering.rs:32-35 *)
  Definition test_ordering := test_ordinal Ordinal_Ordering Cmp_Ordering [Lt; Eq; Gt].
  (** ordinal/impls/boxed.rs:19-22 *)
  Definition test_box := test_ordinal (Ordinal_Box Ordinal_bool) (Cmp_box Cmp_bool) [Box false; Box true].
  (** ordinal/impls/either.rs:32-35 *)
  Definition test_either :=
    test_ordinal (Ordinal_Either Ordinal_bool (impl_ordinal_for_tuple_n [])) (Cmp_either Cmp_bool Cmp_unit)
      [Left false; Left true; Right tt].
  (** ordinal/impls/std.rs:61-80 *)
  Definition test_option := test_ordinal (Ordinal_Option Ordinal_bool) (Cmp_option Cmp_bool) [None; Some false; Some true].
  Definition test_result :=
    test_ordinal (Ordinal_Result Ordinal_bool (Ordinal_Option Ordinal_bool)) (Cmp_result Cmp_bool (Cmp_option Cmp_bool))
      [ResOk false; ResOk true; ResErr None; ResErr (Some false); ResErr (Some true)].
  Definition test_infallible := test_ordinal Ordinal_Infallible Cmp_never [].
  (** ordinal/impls/array.rs:50-72 *)
  Definition test_array_of_empty :=
    test_ordinal (Ordinal_array Ordinal_Infallible 0) (Cmp_arr Cmp_never) [array0] ;;;
    test_ordinal (Ordinal_array Ordinal_Infallible 1) (Cmp_arr Cmp_never) [] ;;;
    test_ordinal (Ordinal_array Ordinal_Infallible 2) (Cmp_arr Cmp_never) [].
  Definition test_array_0 := test_ordinal (Ordinal_array Ordinal_u16 0) (Cmp_arr Cmp_int) [array0].
  Definition test_array_1 := test_ordinal (Ordinal_array Ordinal_bool 1) (Cmp_arr Cmp_bool) [array1 false; array1 true].
  Definition test_array_2 :=
    test_ordinal (Ordinal_array Ordinal_bool 2) (Cmp_arr Cmp_bool)
      [array2 false false; array2 false true; array2 true false; array2 true true] ;;;
    test_ordinal (impl_ordinal_for_tuple_n [Fbool; Fbool]) (Cmp_bool * (Cmp_bool * Cmp_unit))
      [(false, (false, tt)); (false, (true, tt)); (true, (false, tt)); (true, (true, tt))].
  (** ordinal/impls/tuple.rs:9-31 *)
  Definition test_tuple_0 := test_ordinal (impl_ordinal_for_tuple_n []) Cmp_unit [tt].
  Definition test_tuple_1 :=
    test_ordinal (impl_ordinal_for_tuple_n [Fu8]) (Cmp_int * Cmp_unit) (map (fun i => (i, tt)) u8_range).
  Definition test_tuple_2 :=
    test_ordinal (impl_ordinal_for_tuple_n [Fu8; Fbool]) (Cmp_int * (Cmp_bool * Cmp_unit))
      (flat_map (fun i => map (fun b => (i, (b, tt))) [false; true]) u8_range).
  Definition test_tuple_3 :=
    test_ordinal (impl_ordinal_for_tuple_n [Fu8; Fbool; F (Ordinal_Option Ordinal_bool)])
      (Cmp_int * (Cmp_bool * (Cmp_option Cmp_bool * Cmp_unit)))
      (flat_map (fun i => flat_map (fun b => map (fun o => (i, (b, (o, tt)))) [None; Some false; Some true]) [false; true])
         u8_range).

  (** tests/derive.rs:83-187 *)
  Definition test_unit_struct := test_ordinal (derive_struct FUnit) Cmp_unit [tt].
  Definition test_tuple_struct_1 :=
    test_ordinal (derive_struct (FUnnamed [Fu8])) (Cmp_int * Cmp_unit) (map (fun i => (i, tt)) u8_range).
  Definition test_tuple_struct_2 :=
    test_ordinal (derive_struct (FUnnamed [Fu8; Fbool])) (Cmp_int * (Cmp_bool * Cmp_unit))
      (flat_map (fun i => map (fun b => (i, (b, tt))) [false; true]) u8_range).
  Definition test_record_struct_1 :=
    test_ordinal (derive_struct (FNamed [("a"%string, Fu8)])) (Cmp_int * Cmp_unit) (map (fun i => (i, tt)) u8_range).
  Definition test_record_struct_2 :=
    test_ordinal (derive_struct (FNamed [("a"%string, Fu8); ("b"%string, Fbool)])) (Cmp_int * (Cmp_bool * Cmp_unit))
      (flat_map (fun i => map (fun b => (i, (b, tt))) [false; true]) u8_range).
  Definition test_empty_enum := test_ordinal (derive_enum []) Cmp_never [].
  Definition test_simple_enum_1 := test_ordinal (derive_enum [V FUnit]) (Cmp_unit + Cmp_never) [inl tt].
  Definition test_simple_enum_3 :=
    test_ordinal (derive_enum [V FUnit; V FUnit; V FUnit]) (Cmp_unit + (Cmp_unit + (Cmp_unit + Cmp_never)))
      [inl tt; inr (inl tt); inr (inr (inl tt))].
  Definition test_tuple_enum :=
    test_ordinal (derive_enum [V (FUnnamed [Fbool]); V (FUnnamed [Fopt])])
      ((Cmp_bool * Cmp_unit) + ((Cmp_option Cmp_unit * Cmp_unit) + Cmp_never))
      [inl (false, tt); inl (true, tt); inr (inl (None, tt)); inr (inl (Some tt, tt))].
  Definition test_record_enum :=
    test_ordinal (derive_enum [V (FNamed [("a"%string, Fbool)]); V (FNamed [("a"%string, Fbool); ("b"%string, Fopt)])])
      ((Cmp_bool * Cmp_unit) + ((Cmp_bool * (Cmp_option Cmp_unit * Cmp_unit)) + Cmp_never))
      [inl (false, tt); inl (true, tt); inr (inl (false, (None, tt))); inr (inl (false, (Some tt, tt)));
       inr (inl (true, (None, tt))); inr (inl (true, (Some tt, tt)))].
  Definition test_mixed_enum :=
    test_ordinal (derive_enum [V FUnit; V (FUnnamed [Fbool]); V (FNamed [("a"%string, Fres); ("b"%string, Fopt)])])
      (Cmp_unit + ((Cmp_bool * Cmp_unit) + ((Cmp_result Cmp_bool Cmp_unit * (Cmp_option Cmp_unit * Cmp_unit)) + Cmp_never)))
      [inl tt; inr (inl (false, tt)); inr (inl (true, tt));
       inr (inr (inl (ResOk false, (None, tt)))); inr (inr (inl (ResOk false, (Some tt, tt))));
       inr (inr (inl (ResOk true, (None, tt)))); inr (inr (inl (ResOk true, (Some tt, tt))));
       inr (inr (inl (ResErr tt, (None, tt)))); inr (inr (inl (ResErr tt, (Some tt, tt))))].
  Definition test_empty_struct :=
    test_ordinal (derive_struct (FNamed [("_infallible"%string, F Ordinal_Infallible)])) (Cmp_never * Cmp_unit) [].

  (** array_from_iter.rs:18-22 *)
  Definition test_array_from_iter : res unit :=
    a <- returned (snd (array_from_iter 3 (fun r => Val (match range_next r with Some (i, r') => (Some i, r') | None => (None, r) end))
           (fun (st : unit) i => (st, Val (dec (N.to_nat i)))) {| r_start := 0; r_end := 3 |} tt)) ;;
    assert_rt (forallb (fun p => String.eqb (fst p) (snd p)) (combine ["0"; "1"; "2"]%string (arr_list a))).

  (** values.rs:113-130; [nth] is the default of std (ModelStd). *)
  Definition show_u8 (i : u8) : string := dec (Z.to_nat (int_val i)).
  Definition says (s : string) (iter : OrdinalValues) : res unit :=
    t <- values_debug Ordinal_u8 show_u8 iter ;; assert_rt (String.eqb s t).
  Definition test_iter_debug : res unit :=
    iter <- values_new Ordinal_u8 ;;
    says "[0..]" iter ;;;
    '(o, iter) <- values_next Ordinal_u8 iter ;; unwrap o ;;;
    says "[1..]" iter ;;;
    '(o, iter) <- values_next_back Ordinal_u8 iter ;; unwrap o ;;;
    says "[1..=254]" iter ;;;
    assert_rt (254 =? values_len iter) ;;;
    '(o, iter) <- it_nth (values_next Ordinal_u8) 252 iter ;; unwrap o ;;;
    says "[254]" iter.
  Definition test_last : res unit :=
    iter <- values_new Ordinal_u8 ;; o <- values_last Ordinal_u8 iter ;; is_int 255 o.

  (** set/set64.rs:178-182 *)
  Definition test_all : res unit :=
    set <- OrdinalSet64_all (derive_enum Example4) ;; assert_rt (set =? 15).
  (** set/set64.rs:173-176, commented out in the source: "fails at compilation time" *)
  Definition test_more_than_64 : res unit := OrdinalSet64_new Ordinal_u8 ;;; Val tt.

  (** map/total/array_map.rs:245-246, map/total/map.rs:167-168: empty *)
  Definition test_total : res unit := Val tt.

  (** All tests with [#[test]]. *)
  Definition unit_tests : list (string * res unit) := [
    ("test_bool", test_bool); ("test_u8", test_u8); ("test_i8", test_i8); ("test_u16", test_u16); ("test_i16", test_i16);
    ("test_u32", test_u32); ("test_i32", test_i32);
    ("test_non_zero_u8", test_non_zero_u8); ("test_non_zero_i8", test_non_zero_i8);
    ("test_non_zero_u16", test_non_zero_u16); ("test_non_zero_i16", test_non_zero_i16);
    ("test_non_zero_u32", test_non_zero_u32); ("test_non_zero_i32", test_non_zero_i32);
    ("test_non_zero_u64", test_non_zero_u64); ("test_non_zero_i64", test_non_zero_i64);
    ("test_non_zero_usize", test_non_zero_usize); ("test_non_zero_isize", test_non_zero_isize);
    ("test_char", test_char); ("test_ordering", test_ordering); ("test_box", test_box); ("test_either", test_either);
    ("test_option", test_option); ("test_result", test_result); ("test_infallible", test_infallible);
    ("test_array_of_empty", test_array_of_empty); ("test_array_0", test_array_0); ("test_array_1", test_array_1);
    ("test_array_2", test_array_2);
    ("test_tuple_0", test_tuple_0); ("test_tuple_1", test_tuple_1); ("test_tuple_2", test_tuple_2); ("test_tuple_3", test_tuple_3);
    ("test_unit_struct", test_unit_struct); ("test_tuple_struct_1", test_tuple_struct_1);
    ("test_tuple_struct_2", test_tuple_struct_2); ("test_record_struct_1", test_record_struct_1);
    ("test_record_struct_2", test_record_struct_2); ("test_empty_enum", test_empty_enum);
    ("test_simple_enum_1", test_simple_enum_1); ("test_simple_enum_3", test_simple_enum_3);
    ("test_tuple_enum", test_tuple_enum); ("test_record_enum", test_record_enum); ("test_mixed_enum", test_mixed_enum);
    ("test_empty_struct", test_empty_struct);
    ("test_array_from_iter", test_array_from_iter); ("test_iter_debug", test_iter_debug); ("test_last", test_last);
    ("test_all", test_all); ("map/total/array_map.rs test", test_total); ("map/total/map.rs test", test_total)]%string.

  (** ** The quickcheck tests as written *)

  Definition Cmp_Example4 : Cmp (enum_val (variant_types Example4)) :=
    Cmp_unit + (Cmp_unit + (Cmp_unit + (Cmp_unit + Cmp_never))).
  (** A function with quickcheck passes on an input if it returns [()] or [true]. *)
  Definition returns_true (r : res bool) : res unit := b <- r ;; assert_rt b.
  Definition map_qc := qc_map (V := u32) Ordinal_u8 Cmp_int Cmp_int.
  Definition array_map_qc := qc_array_map (V := u32) Ordinal_u8 Cmp_int Cmp_int.
  Definition array_map_qc_retain values retain :=
    returns_true (qc_retain (V := u32) Ordinal_u8 Cmp_int Cmp_int values retain).
  Definition array_set_qc_insert := qc_array_set_insert Ordinal_i8 Cmp_int.
  Definition set_qc_insert_small := qc_set_insert (derive_enum Example4) Cmp_Example4.
  Definition set_qc_insert_large := qc_set_insert Ordinal_NonZeroU16 Cmp_nonzero.
  Definition set_qc_iter_small values := returns_true (qc_set_iter (derive_enum Example4) Cmp_Example4 values).
  Definition set_qc_iter_large values := returns_true (qc_set_iter Ordinal_NonZeroU16 Cmp_nonzero values).
  Definition set64_qc_iterator values := returns_true (qc_iterator (derive_enum Example4) Cmp_Example4 values).
  Definition set64_qc_double_ended_iterator values :=
    returns_true (qc_double_ended_iterator (derive_enum Example4) Cmp_Example4 values).
  Definition set64_qc_exact_size_iterator := qc_exact_size_iterator (derive_enum Example4).

  (** ** Examples in the documentation *)

  (** values.rs:15-19 *)
  Definition doc_values : res unit :=
    it <- values_new Ordinal_bool ;;
    '(l, _) <- collect (values_next Ordinal_bool) 3 it ;;
    assert_rt (list_eq Cmp_bool [false; true] l).
  (** atomic.rs:14-34 *)
  Definition Color : list variant := [V FUnit; V FUnit; V FUnit].
  Definition Red : enum_val (variant_types Color) := inl tt.
  Definition Green : enum_val (variant_types Color) := inr (inl tt).
  Definition Blue : enum_val (variant_types Color) := inr (inr (inl tt)).
  Definition doc_atomic : res unit :=
    a <- AtomicOrdinal_new (derive_enum Color) Red ;;
    ret <- fst (call_alone (derive_enum Color) (CCas Red Blue Relaxed Relaxed) a) ;;
    assert_rt (match ret with OOk _ => true | _ => false end).
  (** map/total/array_map.rs:23-38; the name of the color in lower case. *)
  Definition color_name (k : enum_val (variant_types Color)) : string :=
    match k with inl _ => "red" | inr (inl _) => "green" | _ => "blue" end%string.
  Definition doc_total_array : res unit :=
    map <- returned (snd (OrdinalTotalArrayMap_new (derive_enum Color) 3
             (fun (st : unit) color => (st, Val (color_name color))) tt)) ;;
    s <- OrdinalTotalArrayMap_index (derive_enum Color) map Green ;;
    assert_rt (String.eqb "green" s).
  (** map/array_map.rs:21-34; the example has no assertion. *)
  Definition doc_array_map : res unit :=
    map <- OrdinalArrayMap_new (V := string) (derive_enum Color) 3 ;;
    '(_, map) <- OrdinalArrayMap_insert (derive_enum Color) map Red "good"%string ;;
    '(_, map) <- OrdinalArrayMap_insert (derive_enum Color) map Green "it depends"%string ;;
    Val tt.
  (** set/array.rs:29-35 *)
  Definition doc_array_set : res unit :=
    s <- ordinal_array_set_s Ordinal_u8 ;;
    set <- OrdinalArraySet_new Ordinal_u8 (N.to_nat s) ;;
    i <- unwrap (try_int 0 255 17) ;;
    '(_, set) <- OrdinalArraySet_insert Ordinal_u8 set i ;;
    Val tt.
  (** ordinal/traits.rs:28-52 *)
  Definition Bright : ftype := F (derive_struct (FUnnamed [Fbool])).
  Definition MaybeColor : list variant := [V FUnit; V (FUnnamed [F (derive_enum Color); Bright]); V FUnit].
  Definition doc_derive : res unit :=
    let number (k : enum_val (variant_types MaybeColor)) (i : N) :=
      j <- ordinal (derive_enum MaybeColor) k ;; assert_rt (i =? j) in
    number (inl tt) 0 ;;;
    number (inr (inl (Red, ((false, tt), tt)))) 1 ;;;
    number (inr (inl (Red, ((true, tt), tt)))) 2 ;;;
    number (inr (inl (Green, ((false, tt), tt)))) 3 ;;;
    number (inr (inl (Green, ((true, tt), tt)))) 4.
  (** ordinal/traits.rs:68-75, 81-86, 95-100 *)
  Definition doc_ordinal : res unit :=
    let number (k : option u16) (i : N) := j <- ordinal (Ordinal_Option Ordinal_u16) k ;; assert_rt (i =? j) in
    number None 0 ;;;
    zero <- unwrap (try_int 0 65535 0) ;; number (Some zero) 1 ;;;
    one <- unwrap (try_int 0 65535 1) ;; number (Some one) 2.
  Definition doc_from_ordinal : res unit :=
    o <- from_ordinal Ordinal_i16 0 ;; is_int (-32768) o ;;;
    o <- from_ordinal Ordinal_i16 1 ;; is_int (-32767) o.
  Definition doc_all_values : res unit :=
    iter <- values_new Ordinal_i16 ;;
    '(o, iter) <- values_next Ordinal_i16 iter ;; is_int (-32768) o ;;;
    '(o, iter) <- values_next_back Ordinal_i16 iter ;; is_int 32767 o.
  (** lib.rs:13-34; the loop with any errors and any classification. The counts do not overflow
      a [u64] (there are fewer than [2^64] errors). ErrorCategory has the form of [Color]. *)
  Fixpoint doc_count (classify_error : string -> enum_val (variant_types Color)) (errors : list string)
      (error_counts : @OrdinalTotalMap N) : res (@OrdinalTotalMap N) :=
    match errors with
    | [] => Val error_counts
    | error :: errors =>
        i <- OrdinalTotalMap_index_mut (derive_enum Color) error_counts (classify_error error) ;;
        v <- deref error_counts i ;;
        doc_count classify_error errors (store_at error_counts i (N.succ v))
    end.
  Definition doc_lib : res unit :=
    error_counts <- OrdinalTotalMap_default (derive_enum Color) 0 ;;
    doc_count (fun _ => Red) [] error_counts ;;; Val tt.

  Definition doc_tests : list (string * res unit) := [
    ("values.rs", doc_values); ("atomic.rs", doc_atomic); ("map/total/array_map.rs", doc_total_array);
    ("map/array_map.rs", doc_array_map); ("set/array.rs", doc_array_set); ("ordinal/traits.rs:28", doc_derive);
    ("ordinal/traits.rs:68", doc_ordinal); ("ordinal/traits.rs:81", doc_from_ordinal);
    ("ordinal/traits.rs:95", doc_all_values); ("lib.rs", doc_lib)]%string.
End Tests.
