(** * Base: outcomes, platform configuration, machine integers, list helpers.

    Everything here models the Rust language/standard library, not the crate. *)
From Coq Require Export NArith ZArith List Bool Lia.
From Coq Require Export ZifyBool ZifyNat ZifyN.
Export ListNotations.
#[global] Open Scope N_scope.
#[global] Open Scope list_scope.
#[global] Set Implicit Arguments.
#[global] Set Asymmetric Patterns.

(** ** Outcomes *)

(** Why a Rust panic happened. *)
Inductive panic :=
| PUnwrap        (* Option::unwrap / Result::unwrap on None / Err *)
| POverflow      (* arithmetic or shift overflow with overflow checks on *)
| PIndex         (* slice index out of bounds *)
| PAssert        (* assert! *)
| PDebugAssert   (* debug_assert! *)
| PUnreachable   (* unreachable! *)
| PDivZero       (* division or remainder by zero *)
| POrdering      (* illegal memory ordering passed to an atomic *)
| PCapacity      (* a Vec of more than isize::MAX bytes (ModelAlloc.v) *)
| PUser.         (* a user callback panicked *)

(** The outcome of running a piece of Rust code. *)
Inductive res (A : Type) :=
| Val (a : A)
| Panic (why : panic)
| NoCompile      (* the program is rejected at compile time *)
| UB             (* undefined behaviour *)
| OutOfFuel.     (* model loop bound exhausted: never a legal result *)
Arguments Val {A} a.
Arguments Panic {A} why.
Arguments NoCompile {A}.
Arguments UB {A}.
Arguments OutOfFuel {A}.

Definition bind {A B} (m : res A) (k : A -> res B) : res B :=
  match m with
  | Val a => k a
  | Panic w => Panic w
  | NoCompile => NoCompile
  | UB => UB
  | OutOfFuel => OutOfFuel
  end.

Notation "x <- e ;; k" := (bind e (fun x => k))
  (at level 61, e at next level, right associativity).
Notation "' p <- e ;; k" := (bind e (fun p => k))
  (at level 61, p pattern, e at next level, right associativity).
Notation "e ;;; k" := (bind e (fun _ => k))
  (at level 61, right associativity).

(** [Option::unwrap]. *)
Definition unwrap {A} (o : option A) : res A :=
  match o with Some a => Val a | None => Panic PUnwrap end.

(** [Option::map]. *)
Definition opt_map {A B} (f : A -> B) (o : option A) : option B :=
  match o with Some a => Some (f a) | None => None end.

(** [assert!(b)] at run time. *)
Definition assert_rt (b : bool) : res unit :=
  if b then Val tt else Panic PAssert.

(** [assert!(b)] inside a [const] item that the caller forces with [const { .. }]. *)
Definition assert_const (b : bool) : res unit :=
  if b then Val tt else NoCompile.

(** ** Platform and build profile *)

Inductive width := W32 | W64.

(** Pointer width, [-C overflow-checks], [-C debug-assertions]. *)
Class Config := {
  usize_width : width;
  overflow_checks : bool;
  debug_assertions : bool
}.

(** [usize::MAX]. *)
Definition usize_max {cfg : Config} : N :=
  match usize_width with
  | W32 => 4294967295
  | W64 => 18446744073709551615
  end.

(** [isize::MAX] and [isize::MIN]. *)
Definition isize_max {cfg : Config} : Z :=
  match usize_width with
  | W32 => 2147483647
  | W64 => 9223372036854775807
  end.
Definition isize_min {cfg : Config} : Z := (- isize_max - 1)%Z.

Definition is_usize {cfg : Config} (n : N) : Prop := n <= usize_max.

Section Arith.
  Context {cfg : Config}.

  (** [debug_assert!(b)]. *)
  Definition debug_assert (b : bool) : res unit :=
    if debug_assertions then (if b then Val tt else Panic PDebugAssert) else Val tt.

  (** Wrap-or-panic for a run-time usize result [x]. *)
  Definition usize_rt (x : Z) : res N :=
    if ((0 <=? x) && (x <=? Z.of_N usize_max))%Z then Val (Z.to_N x)
    else if overflow_checks then Panic POverflow
    else Val (Z.to_N (x mod (Z.of_N usize_max + 1))%Z).

  (** Run-time [a + b], [a - b], [a * b] on usize. *)
  Definition uadd (a b : N) : res N := usize_rt (Z.of_N a + Z.of_N b)%Z.
  Definition usub (a b : N) : res N := usize_rt (Z.of_N a - Z.of_N b)%Z.
  Definition umul (a b : N) : res N := usize_rt (Z.of_N a * Z.of_N b)%Z.

  (** [a / b], [a % b] on usize. *)
  Definition udiv (a b : N) : res N :=
    if b =? 0 then Panic PDivZero else Val (a / b).
  Definition urem (a b : N) : res N :=
    if b =? 0 then Panic PDivZero else Val (a mod b).

  (** The same operations during const evaluation: overflow is a compile error. *)
  Definition usize_const (x : Z) : res N :=
    if ((0 <=? x) && (x <=? Z.of_N usize_max))%Z then Val (Z.to_N x) else NoCompile.
  Definition cadd (a b : N) : res N := usize_const (Z.of_N a + Z.of_N b)%Z.
  Definition csub (a b : N) : res N := usize_const (Z.of_N a - Z.of_N b)%Z.
  Definition cmul (a b : N) : res N := usize_const (Z.of_N a * Z.of_N b)%Z.

  (** [usize::checked_add/sub/mul/rem]. *)
  Definition checked_add (a b : N) : option N :=
    if a + b <=? usize_max then Some (a + b) else None.
  Definition checked_sub (a b : N) : option N :=
    if b <=? a then Some (a - b) else None.
  Definition checked_mul (a b : N) : option N :=
    if a * b <=? usize_max then Some (a * b) else None.
  Definition checked_rem (a b : N) : option N :=
    if b =? 0 then None else Some (a mod b).

  (** [usize::div_ceil]: [let d = a / b; let r = a % b; if r > 0 { d + 1 } else { d }]. *)
  Definition cdiv_ceil (a b : N) : res N :=
    if b =? 0 then NoCompile
    else if 0 <? a mod b then cadd (a / b) 1 else Val (a / b).

  (** [x as usize] for a signed/unsigned value [x]. *)
  Definition as_usize (x : Z) : N := Z.to_N (x mod (Z.of_N usize_max + 1))%Z.
End Arith.

(** [x as u32] for a usize. *)
Definition as_u32 (x : N) : N := x mod 4294967296.

(** ** Bounded integers *)

(** A Rust integer type with values [lo ..= hi]. *)
Record int (lo hi : Z) : Set := mk_int {
  int_val : Z;
  int_ok : ((lo <=? int_val) && (int_val <=? hi))%Z = true
}.
Arguments int_val {lo hi} _.
Arguments int_ok {lo hi} _.

(** [try_from(z).ok()] into the type. *)
Definition try_int (lo hi z : Z) : option (int lo hi) :=
  match Sumbool.sumbool_of_bool ((lo <=? z) && (z <=? hi))%Z with
  | left H => Some (mk_int lo hi z H)
  | right _ => None
  end.

Definition u8 := int 0 255.
Definition i8 := int (-128) 127.
Definition u16 := int 0 65535.
Definition i16 := int (-32768) 32767.
Definition u32 := int 0 4294967295.
Definition i32 := int (-2147483648) 2147483647.
Definition u64 := int 0 18446744073709551615.
Definition i64 := int (-9223372036854775808) 9223372036854775807.
Definition usize {cfg : Config} := int 0 (Z.of_N usize_max).
Definition isize {cfg : Config} := int isize_min isize_max.

(** [abs_diff]: the absolute difference as an unsigned number. *)
Definition abs_diff (a b : Z) : Z := Z.abs (a - b).

(** [NonZero*]: an integer that is not zero. *)
Record nonzero (lo hi : Z) : Set := mk_nonzero {
  nz_get : int lo hi;
  nz_ok : negb (int_val nz_get =? 0)%Z = true
}.
Arguments nz_get {lo hi} _.
Arguments nz_ok {lo hi} _.

(** [NonZero*::new(x)] (also [try_from(x).ok()]). *)
Definition nz_new {lo hi} (x : int lo hi) : option (nonzero lo hi) :=
  match Sumbool.sumbool_of_bool (negb (int_val x =? 0)%Z) with
  | left H => Some (mk_nonzero x H)
  | right _ => None
  end.

(** ** char *)

Definition is_scalar (c : N) : bool :=
  (c <=? 1114111) && negb ((55296 <=? c) && (c <=? 57343)).

(** A Unicode scalar value. *)
Record char : Set := mk_char { char_val : N; char_ok : is_scalar char_val = true }.

(** [char::from_u32]. *)
Definition char_from_u32 (c : N) : option char :=
  match Sumbool.sumbool_of_bool (is_scalar c) with
  | left H => Some (mk_char c H)
  | right _ => None
  end.

(** ** Lists as slices *)

(** [slice[i]] (read). *)
Definition index {A} (l : list A) (i : N) : res A :=
  match nth_error l (N.to_nat i) with
  | Some a => Val a
  | None => Panic PIndex
  end.

(** [slice.get(i)]. *)
Definition slice_get {A} (l : list A) (i : N) : option A := nth_error l (N.to_nat i).

Fixpoint list_set {A} (l : list A) (i : nat) (a : A) : list A :=
  match l, i with
  | [], _ => []
  | _ :: l', O => a :: l'
  | x :: l', S i' => x :: list_set l' i' a
  end.

(** Writing through [&mut slice[i]]. *)
Definition store_at {A} (l : list A) (i : N) (a : A) : list A := list_set l (N.to_nat i) a.

(** [Some((last, rest))] / std double-ended pop from the back. *)
Fixpoint pop_back {A} (l : list A) : option (A * list A) :=
  match l with
  | [] => None
  | x :: l' =>
      match pop_back l' with
      | None => Some (x, [])
      | Some (y, r) => Some (y, x :: r)
      end
  end.

Definition pop_front {A} (l : list A) : option (A * list A) :=
  match l with
  | [] => None
  | x :: l' => Some (x, l')
  end.

(** Number of elements of a list, as a usize-like number. *)
Definition llen {A} (l : list A) : N := N.of_nat (length l).

(** [0 .. n] as a list of slot indices. *)
Definition slots (n : nat) : list N := map N.of_nat (seq 0 n).
