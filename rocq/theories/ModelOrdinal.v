(** * ModelOrdinal: the impls in ordinal-map/src/ordinal/impls (except tuples, see
    ModelDerive, and arrays, see ModelArray). *)
From Verif Require Import Base Spec.

Section Impls.
  Context {cfg : Config}.

  (** ** primitive.rs *)

  (** ordinal/impls/primitive.rs:3-17 *)
  Definition Ordinal_bool : Ordinal bool := {|
    ORDINAL_SIZE := Val 2;
    ordinal := fun self => Val (if self then 1 else 0);
    from_ordinal := fun o => Val (match o with
                                  | 0 => Some false
                                  | 1 => Some true
                                  | _ => None
                                  end)
  |}.

  (** ordinal/impls/primitive.rs:19-31 *)
  Definition Ordinal_u8 : Ordinal u8 := {|
    ORDINAL_SIZE := cadd 255 1;
    ordinal := fun self => Val (as_usize (int_val self));
    from_ordinal := fun o => Val (try_int 0 255 (Z.of_N o))
  |}.

  (** ordinal/impls/primitive.rs:33-45; the const is computed in i16, which cannot overflow. *)
  Definition Ordinal_i8 : Ordinal i8 := {|
    ORDINAL_SIZE := Val (as_usize (127 - (-128) + 1));
    ordinal := fun self => Val (as_usize (abs_diff (int_val self) (-128)));
    from_ordinal := fun o =>
      match try_int 0 255 (Z.of_N o) with                       (* u8::try_from(o).ok()? *)
      | None => Val None
      | Some u => Val (try_int (-128) 127 (-128 + int_val u))   (* checked_add_unsigned *)
      end
  |}.

  (** ordinal/impls/primitive.rs:47-59 *)
  Definition Ordinal_u16 : Ordinal u16 := {|
    ORDINAL_SIZE := cadd 65535 1;
    ordinal := fun self => Val (as_usize (int_val self));
    from_ordinal := fun o => Val (try_int 0 65535 (Z.of_N o))
  |}.

  (** ordinal/impls/primitive.rs:61-73; computed in isize. *)
  Definition Ordinal_i16 : Ordinal i16 := {|
    ORDINAL_SIZE := Val (as_usize (32767 - (-32768) + 1));
    ordinal := fun self => Val (as_usize (abs_diff (int_val self) (-32768)));
    from_ordinal := fun o =>
      match try_int 0 65535 (Z.of_N o) with
      | None => Val None
      | Some u => Val (try_int (-32768) 32767 (-32768 + int_val u))
      end
  |}.

  (** ordinal/impls/primitive.rs:77 [u32::MAX as usize + 1] *)
  Definition u32_ORDINAL_SIZE : res N := cadd 4294967295 1.

  (** ordinal/impls/primitive.rs:76-89; [from_ordinal] does not force the const. *)
  Definition Ordinal_u32 : Ordinal u32 := {|
    ORDINAL_SIZE := u32_ORDINAL_SIZE;
    ordinal := fun self =>
      u32_ORDINAL_SIZE ;;; Val (as_usize (int_val self));
    from_ordinal := fun o => Val (try_int 0 4294967295 (Z.of_N o))
  |}.

  (** ordinal/impls/primitive.rs:91-105 *)
  Definition Ordinal_i32 : Ordinal i32 := {|
    ORDINAL_SIZE := u32_ORDINAL_SIZE;
    ordinal := fun self =>
      u32_ORDINAL_SIZE ;;; Val (as_usize (abs_diff (int_val self) (-2147483648)));
    from_ordinal := fun o =>
      u32_ORDINAL_SIZE ;;;
      match try_int 0 4294967295 (Z.of_N o) with
      | None => Val None
      | Some u => Val (try_int (-2147483648) 2147483647 (-2147483648 + int_val u))
      end
  |}.

  (** ** non_zero.rs *)

  (** The body [NonZeroX::try_from(x::try_from(ordinal.checked_add(1)?).ok()?).ok()]
      shared textually by ordinal/impls/non_zero.rs:23-25, 62-64, 101-103. *)
  Definition nz_unsigned_from (hi : Z) (o : N) : option (nonzero 0 hi) :=
    match checked_add o 1 with
    | None => None
    | Some o1 => match try_int 0 hi (Z.of_N o1) with
                 | None => None
                 | Some x => nz_new x
                 end
    end.

  (** ordinal/impls/non_zero.rs:14-26 *)
  Definition Ordinal_NonZeroU8 : Ordinal (nonzero 0 255) := {|
    ORDINAL_SIZE := Val 255;
    ordinal := fun self => usub (as_usize (int_val (nz_get self))) 1;
    from_ordinal := fun o => Val (nz_unsigned_from 255 o)
  |}.

  (** ordinal/impls/non_zero.rs:28-51 *)
  Definition Ordinal_NonZeroI8 : Ordinal (nonzero (-128) 127) := {|
    ORDINAL_SIZE := Val 255;
    ordinal := fun self =>
      if (0 <? int_val (nz_get self))%Z
      then uadd 127 (as_usize (int_val (nz_get self)))
      else Val (as_usize (abs_diff (int_val (nz_get self)) (-128)));
    from_ordinal := fun o =>
      lim <- cadd 127 1 ;;
      match checked_sub o lim with
      | None =>
          u <- unwrap (try_int 0 255 (Z.of_N o)) ;;
          x <- unwrap (try_int (-128) 127 (-128 + int_val u)) ;;
          Val (nz_new x)
      | Some rem =>
          r <- uadd rem 1 ;;
          match try_int (-128) 127 (Z.of_N r) with
          | None => Val None
          | Some x => Val (nz_new x)
          end
      end
  |}.

  (** ordinal/impls/non_zero.rs:53-65 *)
  Definition Ordinal_NonZeroU16 : Ordinal (nonzero 0 65535) := {|
    ORDINAL_SIZE := Val 65535;
    ordinal := fun self => usub (as_usize (int_val (nz_get self))) 1;
    from_ordinal := fun o => Val (nz_unsigned_from 65535 o)
  |}.

  (** ordinal/impls/non_zero.rs:67-90 *)
  Definition Ordinal_NonZeroI16 : Ordinal (nonzero (-32768) 32767) := {|
    ORDINAL_SIZE := Val 65535;
    ordinal := fun self =>
      if (0 <? int_val (nz_get self))%Z
      then uadd 32767 (as_usize (int_val (nz_get self)))
      else Val (as_usize (abs_diff (int_val (nz_get self)) (-32768)));
    from_ordinal := fun o =>
      lim <- cadd 32767 1 ;;
      match checked_sub o lim with
      | None =>
          u <- unwrap (try_int 0 65535 (Z.of_N o)) ;;
          x <- unwrap (try_int (-32768) 32767 (-32768 + int_val u)) ;;
          Val (nz_new x)
      | Some rem =>
          r <- uadd rem 1 ;;
          match try_int (-32768) 32767 (Z.of_N r) with
          | None => Val None
          | Some x => Val (nz_new x)
          end
      end
  |}.

  (** ordinal/impls/non_zero.rs:92-104 *)
  Definition Ordinal_NonZeroU32 : Ordinal (nonzero 0 4294967295) := {|
    ORDINAL_SIZE := Val 4294967295;
    ordinal := fun self => usub (as_usize (int_val (nz_get self))) 1;
    from_ordinal := fun o => Val (nz_unsigned_from 4294967295 o)
  |}.

  (** ordinal/impls/non_zero.rs:106-129 *)
  Definition Ordinal_NonZeroI32 : Ordinal (nonzero (-2147483648) 2147483647) := {|
    ORDINAL_SIZE := Val 4294967295;
    ordinal := fun self =>
      if (0 <? int_val (nz_get self))%Z
      then uadd 2147483647 (as_usize (int_val (nz_get self)))
      else Val (as_usize (abs_diff (int_val (nz_get self)) (-2147483648)));
    from_ordinal := fun o =>
      lim <- cadd 2147483647 1 ;;
      match checked_sub o lim with
      | None =>
          u <- unwrap (try_int 0 4294967295 (Z.of_N o)) ;;
          x <- unwrap (try_int (-2147483648) 2147483647 (-2147483648 + int_val u)) ;;
          Val (nz_new x)
      | Some rem =>
          r <- uadd rem 1 ;;
          match try_int (-2147483648) 2147483647 (Z.of_N r) with
          | None => Val None
          | Some x => Val (nz_new x)
          end
      end
  |}.

  Definition NonZeroUsize := nonzero 0 (Z.of_N usize_max).
  Definition NonZeroIsize := nonzero isize_min isize_max.

  (** ordinal/impls/non_zero.rs:131-143; [ordinal + 1] already is a usize, so [try_int] only
      attaches the range proof. *)
  Definition Ordinal_NonZeroUsize : Ordinal NonZeroUsize := {|
    ORDINAL_SIZE := Val usize_max;
    ordinal := fun self => usub (as_usize (int_val (nz_get self))) 1;
    from_ordinal := fun o =>
      match checked_add o 1 with
      | None => Val None
      | Some o1 => match try_int 0 (Z.of_N usize_max) (Z.of_N o1) with
                   | None => Val None
                   | Some x => Val (nz_new x)
                   end
      end
  |}.

  (** ordinal/impls/non_zero.rs:145-164; [isize::MIN.checked_add_unsigned(ordinal).unwrap()]. *)
  Definition Ordinal_NonZeroIsize : Ordinal NonZeroIsize := {|
    ORDINAL_SIZE := Val usize_max;
    ordinal := fun self =>
      if (0 <? int_val (nz_get self))%Z
      then uadd (usize_max / 2) (as_usize (int_val (nz_get self)))
      else Val (as_usize (abs_diff (int_val (nz_get self)) isize_min));
    from_ordinal := fun o =>
      lim <- cadd (as_usize isize_max) 1 ;;
      match checked_sub o lim with
      | None =>
          x <- unwrap (try_int isize_min isize_max (isize_min + Z.of_N o)) ;;
          Val (nz_new x)
      | Some rem =>
          r <- uadd rem 1 ;;
          match try_int isize_min isize_max (Z.of_N r) with
          | None => Val None
          | Some x => Val (nz_new x)
          end
      end
  |}.

  (** ordinal/impls/non_zero.rs:168-172 *)
  Definition NonZeroU64_ORDINAL_SIZE : res N :=
    if (18446744073709551615 =? usize_max) then Val usize_max else NoCompile.

  (** ordinal/impls/non_zero.rs:167-183. [self.get() as usize] and [.get() as u64] are the casts
      of the code; [NonZero::new(..).unwrap()] re-attaches the range and zero checks. *)
  Definition Ordinal_NonZeroU64 : Ordinal (nonzero 0 18446744073709551615) := {|
    ORDINAL_SIZE := NonZeroU64_ORDINAL_SIZE;
    ordinal := fun self =>
      NonZeroU64_ORDINAL_SIZE ;;;
      x <- unwrap (try_int 0 (Z.of_N usize_max) (Z.of_N (as_usize (int_val (nz_get self))))) ;;
      nz <- unwrap (nz_new x) ;;
      ordinal Ordinal_NonZeroUsize nz;
    from_ordinal := fun o =>
      NonZeroU64_ORDINAL_SIZE ;;;
      r <- from_ordinal Ordinal_NonZeroUsize o ;;
      match r with
      | None => Val None
      | Some nz =>
          x <- unwrap (try_int 0 18446744073709551615
                 (int_val (nz_get nz) mod 18446744073709551616)) ;;
          n <- unwrap (nz_new x) ;;
          Val (Some n)
      end
  |}.

  (** [x as isize] for an i64: reduce modulo 2^bits into the signed range. *)
  Definition as_isize (x : Z) : Z :=
    ((x - isize_min) mod (Z.of_N usize_max + 1) + isize_min)%Z.

  (** ordinal/impls/non_zero.rs:185-197 *)
  Definition Ordinal_NonZeroI64 :
      Ordinal (nonzero (-9223372036854775808) 9223372036854775807) := {|
    ORDINAL_SIZE := NonZeroU64_ORDINAL_SIZE;
    ordinal := fun self =>
      NonZeroU64_ORDINAL_SIZE ;;;
      x <- unwrap (try_int isize_min isize_max (as_isize (int_val (nz_get self)))) ;;
      nz <- unwrap (nz_new x) ;;
      ordinal Ordinal_NonZeroIsize nz;
    from_ordinal := fun o =>
      NonZeroU64_ORDINAL_SIZE ;;;
      r <- from_ordinal Ordinal_NonZeroIsize o ;;
      match r with
      | None => Val None
      | Some nz =>
          (* isize is never wider than i64: the cast keeps the value *)
          x <- unwrap (try_int (-9223372036854775808) 9223372036854775807
                 (int_val (nz_get nz))) ;;
          n <- unwrap (nz_new x) ;;
          Val (Some n)
      end
  |}.

  (** ** char.rs *)

  (** ordinal/impls/char.rs:3 *)
  Definition SURROGATE_START : N := 55296.

  (** ordinal/impls/char.rs:5-24 *)
  Definition Ordinal_char : Ordinal char := {|
    ORDINAL_SIZE := a <- cadd 1114111 1 ;; csub a 2048;
    ordinal := fun self =>
      let c := char_val self in
      if c <? SURROGATE_START then Val c else usub c 2048;
    from_ordinal := fun o =>
      if o <? SURROGATE_START then Val (char_from_u32 (as_u32 o))
      else
        (* (ordinal as u32).checked_add(0x800)? in u32 *)
        let s := as_u32 o + 2048 in
        if s <=? 4294967295 then Val (char_from_u32 s) else Val None
  |}.

  (** ** ordering.rs *)

  (** ordinal/impls/ordering.rs:5-24; Coq's [comparison] is Rust's [Ordering] (Lt = Less, ...). *)
  Definition Ordinal_Ordering : Ordinal comparison := {|
    ORDINAL_SIZE := Val 3;
    ordinal := fun self => Val (match self with Lt => 0 | Eq => 1 | Gt => 2 end);
    from_ordinal := fun o => Val (match o with
                                  | 0 => Some Lt
                                  | 1 => Some Eq
                                  | 2 => Some Gt
                                  | _ => None
                                  end)
  |}.

  (** ** boxed.rs *)

  (** [Box<T>] is just an owned [T]. *)
  Record box (T : Type) := Box { unbox : T }.

  (** ordinal/impls/boxed.rs:3-13 *)
  Definition Ordinal_Box {T} (O : Ordinal T) : Ordinal (box T) := {|
    ORDINAL_SIZE := ORDINAL_SIZE O;
    ordinal := fun self => ordinal O (unbox self);
    from_ordinal := fun o =>
      r <- from_ordinal O o ;;
      match r with
      | None => Val None
      | Some t => Val (Some (Box t))
      end
  |}.

  (** ** std.rs *)

  (** ordinal/impls/std.rs:5-22; neither function mentions [Self::ORDINAL_SIZE]. *)
  Definition Ordinal_Option {A} (O : Ordinal A) : Ordinal (option A) := {|
    ORDINAL_SIZE := a <- ORDINAL_SIZE O ;; cadd a 1;
    ordinal := fun self =>
      match self with
      | None => Val 0
      | Some a => i <- ordinal O a ;; uadd i 1
      end;
    from_ordinal := fun o =>
      if o =? 0 then Val (Some None)
      else
        o1 <- usub o 1 ;;
        r <- from_ordinal O o1 ;;
        Val (opt_map Some r)
  |}.

  Inductive result (A B : Type) := ResOk (a : A) | ResErr (b : B).
  Arguments ResOk {A B} a.
  Arguments ResErr {A B} b.

  (** ordinal/impls/std.rs:24-41; both functions mention [A::ORDINAL_SIZE]. *)
  Definition Ordinal_Result {A B} (OA : Ordinal A) (OB : Ordinal B) : Ordinal (result A B) := {|
    ORDINAL_SIZE := a <- ORDINAL_SIZE OA ;; b <- ORDINAL_SIZE OB ;; cadd a b;
    ordinal := fun self =>
      a_size <- ORDINAL_SIZE OA ;;
      match self with
      | ResOk a => ordinal OA a
      | ResErr b => i <- ordinal OB b ;; uadd a_size i
      end;
    from_ordinal := fun o =>
      a_size <- ORDINAL_SIZE OA ;;
      if o <? a_size then
        r <- from_ordinal OA o ;;
        a <- unwrap r ;;
        Val (Some (ResOk a))
      else
        o1 <- usub o a_size ;;
        r <- from_ordinal OB o1 ;;
        Val (opt_map ResErr r)
  |}.

  (** ordinal/impls/std.rs:43-53 *)
  Definition Ordinal_Infallible : Ordinal Empty_set := {|
    ORDINAL_SIZE := Val 0;
    ordinal := fun self => match self with end;
    from_ordinal := fun _ => Val None
  |}.

  (** ** either.rs *)

  Inductive either (A B : Type) := Left (a : A) | Right (b : B).
  Arguments Left {A B} a.
  Arguments Right {A B} b.

  (** ordinal/impls/either.rs:7-24 *)
  Definition Ordinal_Either {A B} (OA : Ordinal A) (OB : Ordinal B) : Ordinal (either A B) := {|
    ORDINAL_SIZE := ORDINAL_SIZE (Ordinal_Result OA OB);
    ordinal := fun self =>
      a_size <- ORDINAL_SIZE OA ;;
      match self with
      | Left a => ordinal OA a
      | Right b => i <- ordinal OB b ;; uadd a_size i
      end;
    from_ordinal := fun o =>
      a_size <- ORDINAL_SIZE OA ;;
      if o <? a_size then
        r <- from_ordinal OA o ;;
        a <- unwrap r ;;
        Val (Some (Left a))
      else
        o1 <- usub o a_size ;;
        r <- from_ordinal OB o1 ;;
        Val (opt_map Right r)
  |}.
End Impls.

Arguments ResOk {A B} a.
Arguments ResErr {A B} b.
Arguments Left {A B} a.
Arguments Right {A B} b.
Arguments Box {T} unbox.
