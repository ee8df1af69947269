(** * ModelArrayBuilder: array_builder.rs, array_from_iter.rs, array_as_mut.rs and the
    array impl of ordinal/impls/array.rs.

    Cells carry their initialisation state, so misuse of [MaybeUninit] is visible as
    [UB]; the list of values dropped so far is an explicit output. *)
From Verif Require Import Base Spec ModelOrdinal ModelValues.

(** [[T; S]]. *)
Record arr (T : Type) (S : nat) := mk_arr {
  arr_list : list T;
  arr_ok : Nat.eqb (length arr_list) S = true
}.
Arguments arr_list {T S} _.
Arguments arr_ok {T S} _.

Definition try_arr {T} (S : nat) (l : list T) : option (arr T S) :=
  match Sumbool.sumbool_of_bool (Nat.eqb (length l) S) with
  | left H => Some (mk_arr S l H)
  | right _ => None
  end.

Section Builder.
  Context {T : Type} (S : nat).

  (** array_builder.rs:9-12; a cell is [Some v] when initialised. [filled] is a [nat]:
      it never exceeds [S], which is a usize. *)
  Record builder := { b_cells : list (option T); b_filled : nat }.

  (** array_builder.rs:25-30 *)
  Definition builder_new : builder := {| b_cells := repeat None S; b_filled := 0 |}.

  (** array_builder.rs:32-42; the raw write is UB outside the array. *)
  Definition builder_push (b : builder) (value : T) : res builder :=
    assert_rt (Nat.ltb (b_filled b) S) ;;;
    if Nat.ltb (b_filled b) (length (b_cells b)) then
      Val {| b_cells := list_set (b_cells b) (b_filled b) (Some value);
             b_filled := b_filled b + 1 |}
    else UB.

  (** array_builder.rs:14-22 (Drop): returns the values dropped, in order. *)
  Fixpoint builder_drop_loop (cells : list (option T)) (n i : nat) : res (list T) :=
    match n with
    | O => Val []
    | Datatypes.S n' =>
        match nth_error cells i with
        | None => Panic PIndex
        | Some None => UB                      (* assume_init_drop of uninit memory *)
        | Some (Some v) =>
            vs <- builder_drop_loop cells n' (Datatypes.S i) ;; Val (v :: vs)
        end
    end.
  Definition builder_drop (b : builder) : res (list T) :=
    builder_drop_loop (b_cells b) (b_filled b) 0.

  Fixpoint all_init (cells : list (option T)) : option (list T) :=
    match cells with
    | [] => Some []
    | None :: _ => None
    | Some v :: r => match all_init r with None => None | Some l => Some (v :: l) end
    end.

  (** array_builder.rs:44-54. Returns the array or [None] for [Err(ArrayNotFilled)],
      and the values dropped. [drop_in_place] of the [MaybeUninit] tail drops nothing
      but the slicing [self.array[filled..S]] is bounds-checked. *)
  Definition builder_try_finish (b : builder) : res (option (arr T S) * list T) :=
    if negb (Nat.eqb (b_filled b) S) then
      if Nat.leb (b_filled b) S then
        d <- builder_drop b ;; Val (None, d)
      else Panic PIndex
    else
      match all_init (b_cells b) with
      | None => UB                             (* transmute of uninitialised cells *)
      | Some l => match try_arr S l with
                  | None => UB
                  | Some a => Val (Some a, []) (* mem::forget(self) *)
                  end
      end.
End Builder.
Arguments builder_new {T} S.
Arguments builder T : clear implicits.

(** The result of a function that owns values of type [T]: what it returned (or how it
    panicked) and which owned values it dropped before handing control back. *)
Record owned (R T : Type) := { returned : res R; dropped : list T }.

Section Build.
  Context {T : Type} (S : nat).

  (** Leaving a scope that owns the builder (normally or by unwinding) runs its Drop. *)
  Definition leave {R} (r : res R) (b : builder T) (also : list T) : owned R T :=
    match builder_drop b with
    | Val d => {| returned := r; dropped := also ++ d |}
    | Panic w => {| returned := Panic w; dropped := [] |}
    | NoCompile => {| returned := NoCompile; dropped := [] |}
    | UB => {| returned := UB; dropped := [] |}
    | OutOfFuel => {| returned := OutOfFuel; dropped := [] |}
    end.

  (** array_builder.rs:56-58 *)
  Definition builder_finish (b : builder T) : owned (arr T S) T :=
    match builder_try_finish S b with
    | Val (Some a, d) => {| returned := Val a; dropped := d |}
    | Val (None, d) => {| returned := Panic PUnwrap; dropped := d |}
    | Panic w => {| returned := Panic w; dropped := [] |}
    | NoCompile => {| returned := NoCompile; dropped := [] |}
    | UB => {| returned := UB; dropped := [] |}
    | OutOfFuel => {| returned := OutOfFuel; dropped := [] |}
    end.

  (** [for item in iter { a.push(init(item)?); } Ok(a.finish())]: the loop shared by
      map/total/array_map.rs:53-60 (try_new) and array_from_iter.rs:7-11. [next] is the
      source iterator, [init] the fallible stateful callback (it may panic).
      The number of loop turns is bounded by [fuel]. *)
  Fixpoint fill {It A E St : Type} (next : It -> res (option A * It))
      (init : St -> A -> St * res (result T E))
      (fuel : nat) (b : builder T) (it : It) (st : St) : St * owned (result (arr T S) E) T :=
    match fuel with
    | O => (st, {| returned := OutOfFuel; dropped := [] |})
    | Datatypes.S fuel' =>
        match next it with
        | Val (None, _) =>
            let f := builder_finish b in
            (st, {| returned := a <- returned f ;; Val (ResOk a); dropped := dropped f |})
        | Val (Some a, it') =>
            let '(st', r) := init st a in
            match r with
            | Val (ResOk v) =>
                match builder_push S b v with
                | Val b' => fill next init fuel' b' it' st'
                | Panic w => (st', leave (Panic w) b [v])   (* [value] is dropped too *)
                | NoCompile => (st', leave NoCompile b [v])
                | UB => (st', {| returned := UB; dropped := [] |})
                | OutOfFuel => (st', {| returned := OutOfFuel; dropped := [] |})
                end
            | Val (ResErr e) => (st', leave (Val (ResErr e)) b [])
            | Panic w => (st', leave (Panic w) b [])
            | NoCompile => (st', {| returned := NoCompile; dropped := [] |})
            | UB => (st', {| returned := UB; dropped := [] |})
            | OutOfFuel => (st', {| returned := OutOfFuel; dropped := [] |})
            end
        | Panic w => (st, leave (Panic w) b [])
        | NoCompile => (st, {| returned := NoCompile; dropped := [] |})
        | UB => (st, {| returned := UB; dropped := [] |})
        | OutOfFuel => (st, {| returned := OutOfFuel; dropped := [] |})
        end
    end.
End Build.

(** array_as_mut.rs:3-12: [split_first_mut] walks the slots in order; the result is the
    array of references, here slot indices. Builder and loop as in the code. *)
Fixpoint array_as_mut_loop (S : nat) (rest : list N) (b : builder N) : owned (arr N S) N :=
  match rest with
  | [] => builder_finish S b
  | first :: rest' =>
      match builder_push S b first with
      | Val b' => array_as_mut_loop S rest' b'
      | Panic w => leave (Panic w) b [first]
      | NoCompile => {| returned := NoCompile; dropped := [] |}
      | UB => {| returned := UB; dropped := [] |}
      | OutOfFuel => {| returned := OutOfFuel; dropped := [] |}
      end
  end.
Definition array_as_mut {V} (S : nat) (array : arr V S) : res (arr N S) :=
  returned (array_as_mut_loop S (slots (length (arr_list array))) (builder_new S)).

(** ** ordinal/impls/array.rs *)
Section ArrayImpl.
  Context {cfg : Config} {T : Type} (O : Ordinal T) (len : nat).

  (** ordinal/impls/array.rs:5-13: [while i < N { s = s.checked_mul(T::ORDINAL_SIZE).unwrap(); i += 1 }]
      in a const: an [unwrap] panic is a compile error. *)
  Fixpoint array_size_loop (size : N) (n : nat) (s : N) : res N :=
    match n with
    | Datatypes.O => Val s
    | S n' => match checked_mul s size with
              | None => NoCompile
              | Some s' => array_size_loop size n' s'
              end
    end.

  (** ordinal/impls/array.rs:15-22 *)
  Fixpoint array_ordinal_loop (size : N) (l : list T) (r : N) : res N :=
    match l with
    | [] => Val r
    | v :: l' =>
        r1 <- unwrap (checked_mul r size) ;;
        i <- ordinal O v ;;
        r2 <- uadd r1 i ;;
        array_ordinal_loop size l' r2
    end.

  (** ordinal/impls/array.rs:24-41, with the values dropped on the way. *)
  Fixpoint array_from_loop (size : N) (turns : nat) (n : N) (b : builder T)
      : owned (option (arr T len)) T :=
    match turns with
    | Datatypes.O =>
        if negb (n =? 0) then leave (Val None) b []
        else
          let f := builder_finish len b in
          {| returned :=
               a <- returned f ;;
               (* array.reverse() in place keeps the length *)
               match try_arr len (rev (arr_list a)) with
               | None => UB
               | Some a' => Val (Some a')
               end;
             dropped := dropped f |}
    | S turns' =>
        match checked_rem n size with
        | None => leave (Val None) b []
        | Some i =>
            match (r <- from_ordinal O i ;; unwrap r) with
            | Val v =>
                match builder_push len b v with
                | Val b' =>
                    match udiv n size with
                    | Val n' => array_from_loop size turns' n' b'
                    | Panic w => leave (Panic w) b' []
                    | NoCompile => leave NoCompile b' []
                    | UB => leave UB b' []
                    | OutOfFuel => leave OutOfFuel b' []
                    end
                | Panic w => leave (Panic w) b [v]
                | NoCompile => {| returned := NoCompile; dropped := [] |}
                | UB => {| returned := UB; dropped := [] |}
                | OutOfFuel => {| returned := OutOfFuel; dropped := [] |}
                end
            | Panic w => leave (Panic w) b []
            | NoCompile => {| returned := NoCompile; dropped := [] |}
            | UB => {| returned := UB; dropped := [] |}
            | OutOfFuel => {| returned := OutOfFuel; dropped := [] |}
            end
        end
    end.

  Definition array_from_ordinal (o : N) : owned (option (arr T len)) T :=
    match ORDINAL_SIZE O with
    | Val size => array_from_loop size len o (builder_new len)
    | _ => {| returned := NoCompile; dropped := [] |}
    end.

  (** ordinal/impls/array.rs:4-42 *)
  Definition Ordinal_array : Ordinal (arr T len) := {|
    ORDINAL_SIZE := size <- ORDINAL_SIZE O ;; array_size_loop size len 1;
    ordinal := fun self =>
      size <- ORDINAL_SIZE O ;; array_ordinal_loop size (arr_list self) 0;
    from_ordinal := fun o => returned (array_from_ordinal o)
  |}.
End ArrayImpl.
