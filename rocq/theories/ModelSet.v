(** * ModelSet: ordinal-map/src/set.

    A [u64] word is a number below 2^64. [PhantomData] fields are left out. *)
From Verif Require Import Base Spec ModelOrdinal ModelValues ModelArrayBuilder.

(** ** u64 operations (standard library) *)

(** [u64::MAX]. *)
Definition u64_max : N := 18446744073709551615.

Section Words.
  Context {cfg : Config}.

  (** [a << i] on u64: with [i >= 64] it panics if overflow checks are on, otherwise the
      shift amount is reduced modulo 64. *)
  Definition u64_shl (a i : N) : res N :=
    if i <? 64 then Val (N.land (N.shiftl a i) u64_max)
    else if overflow_checks then Panic POverflow
    else Val (N.land (N.shiftl a (i mod 64)) u64_max).

  (** [a - b] on u64. *)
  Definition u64_sub (a b : N) : res N :=
    if b <=? a then Val (a - b)
    else if overflow_checks then Panic POverflow
    else Val (a + (u64_max + 1) - b).
End Words.

(** [!a] on u64. *)
Definition u64_not (a : N) : N := N.lxor a u64_max.

Fixpoint pos_trailing_zeros (p : positive) : N :=
  match p with xO p' => 1 + pos_trailing_zeros p' | _ => 0 end.
Fixpoint pos_count_ones (p : positive) : N :=
  match p with xO p' => pos_count_ones p' | xI p' => 1 + pos_count_ones p' | xH => 1 end.

(** [u64::trailing_zeros], [leading_zeros], [count_ones]. *)
Definition trailing_zeros (a : N) : N := match a with 0 => 64 | Npos p => pos_trailing_zeros p end.
Definition leading_zeros (a : N) : N := match a with 0 => 64 | Npos p => 63 - N.log2 a end.
Definition count_ones (a : N) : N := match a with 0 => 0 | Npos p => pos_count_ones p end.

Section Set_.
  Context {cfg : Config} {T : Type} (O : Ordinal T).

  (** set/array.rs:11-13 *)
  Definition ordinal_array_set_s : res N := size <- ORDINAL_SIZE O ;; cdiv_ceil size 64.

  (** ** OrdinalSetRef: a borrowed slice of words (set/set_ref.rs:9-12) *)

  Definition OrdinalSetRef := list N.

  (** set/set_ref.rs:21-27 *)
  Definition OrdinalSetRef_new (words : list N) : res OrdinalSetRef :=
    s <- ordinal_array_set_s ;;
    debug_assert ((llen words =? 0) || (llen words =? s)) ;;;
    Val words.

  (** set/set_ref.rs:30-35 *)
  Definition OrdinalSetRef_contains (r : OrdinalSetRef) (t : T) : res bool :=
    i <- ordinal O t ;;
    q <- udiv i 64 ;;
    match slice_get r q with
    | None => Val false
    | Some word =>
        i <- ordinal O t ;;
        m <- urem i 64 ;;
        b <- u64_shl 1 m ;;
        Val (negb (N.land word b =? 0))
    end.

  (** set/set_ref.rs:38-45 *)
  Definition OrdinalSetRef_clone (r : OrdinalSetRef) : OrdinalSetRef := r.

  (** ** Iter (set/iter.rs:8-11) *)

  Record SetIter := { si_iter : OrdinalValues; si_set : OrdinalSetRef }.

  (** set/iter.rs:15-20 *)
  Definition SetIter_new (set : OrdinalSetRef) : res SetIter :=
    it <- values_new O ;; Val {| si_iter := it; si_set := set |}.

  (** set/set_ref.rs:16-18 *)
  Definition OrdinalSetRef_iter (r : OrdinalSetRef) : res SetIter := SetIter_new r.

  (** The loops of set/iter.rs:27-34 and 44-51; [step] is [self.iter.next] or [next_back];
      [fuel] bounds the number of rounds. *)
  Fixpoint set_loop (step : OrdinalValues -> res (option T * OrdinalValues)) (set : OrdinalSetRef)
      (fuel : nat) (it : OrdinalValues) : res (option T * OrdinalValues) :=
    match fuel with
    | 0%nat => OutOfFuel
    | S fuel' =>
        '(o, it') <- step it ;;
        match o with
        | None => Val (None, it')
        | Some t =>
            b <- OrdinalSetRef_contains set t ;;
            if (b : bool) then Val (Some t, it') else set_loop step set fuel' it'
        end
    end.

  (** set/iter.rs:27-34 ([Front]), 44-51 ([Back]) *)
  Definition SetIter_step (d : dir) (s : SetIter) : res (option T * SetIter) :=
    '(o, it) <- set_loop (values_step O d) (si_set s) (S (N.to_nat (range_len (si_iter s)))) (si_iter s) ;;
    Val (o, {| si_iter := it; si_set := si_set s |}).

  (** set/iter.rs:37-39 *)
  Definition SetIter_size_hint (s : SetIter) : N * option N := (0, Some (values_len (si_iter s))).

  (** set/iter.rs:56-61 *)
  Definition SetIter_clone (s : SetIter) : SetIter :=
    {| si_iter := values_clone (si_iter s); si_set := OrdinalSetRef_clone (si_set s) |}.

  (** set/iter.rs:65-67; the elements of the [debug_list]. *)
  Definition SetIter_debug (s : SetIter) : res (list T) :=
    '(l, _) <- collect (SetIter_step Front) (S (N.to_nat (range_len (si_iter s)))) (SetIter_clone s) ;;
    Val l.

  (** set/set_ref.rs:48-50; the elements of the [debug_set]. *)
  Definition OrdinalSetRef_debug (r : OrdinalSetRef) : res (list T) :=
    it <- OrdinalSetRef_iter (OrdinalSetRef_clone r) ;;
    '(l, _) <- collect (SetIter_step Front) (S (N.to_nat (range_len (si_iter it)))) it ;;
    Val l.

  (** ** OrdinalSetMut: a mutably borrowed slice of words (set/set_mut.rs:7-10) *)

  (** set/set_mut.rs:14-20 *)
  Definition OrdinalSetMut_new (words : list N) : res (list N) :=
    s <- ordinal_array_set_s ;;
    debug_assert (llen words =? s) ;;;
    Val words.

  (** set/set_mut.rs:28-33 (with 23-25); also returns the words after the update. *)
  Definition OrdinalSetMut_insert (words : list N) (t : T) : res (bool * list N) :=
    r <- OrdinalSetRef_new words ;;
    prev <- OrdinalSetRef_contains r t ;;
    i <- ordinal O t ;;
    m <- urem i 64 ;;
    b <- u64_shl 1 m ;;
    i <- ordinal O t ;;
    q <- udiv i 64 ;;
    w <- index words q ;;
    Val (negb prev, store_at words q (N.lor w b)).

  (** ** OrdinalSet (set/set.rs:12-29) *)

  Inductive SetImpl := Small (w : N) | Large (ws : list N).
  Definition OrdinalSet := SetImpl.

  (** set/set.rs:32 *)
  Definition IS_SMALL : res bool := size <- ORDINAL_SIZE O ;; Val (size <=? 64).

  (** set/set.rs:36-45 *)
  Definition OrdinalSet_new : res OrdinalSet :=
    small <- IS_SMALL ;; Val (if (small : bool) then Small 0 else Large []).

  (** set/set.rs:90-92 *)
  Definition OrdinalSet_default : res OrdinalSet := OrdinalSet_new.

  (** set/set.rs:48-54 *)
  Definition OrdinalSet_as_ref (s : OrdinalSet) : res OrdinalSetRef :=
    small <- IS_SMALL ;;
    match (small : bool), s with
    | true, Small w => OrdinalSetRef_new [w]
    | false, Large ws => OrdinalSetRef_new ws
    | _, _ => Panic PUnreachable
    end.

  (** set/set.rs:58-60 *)
  Definition OrdinalSet_contains (s : OrdinalSet) (t : T) : res bool :=
    r <- OrdinalSet_as_ref s ;; OrdinalSetRef_contains r t.

  (** set/set.rs:64-80 *)
  Definition OrdinalSet_insert (s : OrdinalSet) (t : T) : res (bool * OrdinalSet) :=
    small <- IS_SMALL ;;
    match (small : bool), s with
    | true, Small w =>
        ws <- OrdinalSetMut_new [w] ;;
        '(r, ws') <- OrdinalSetMut_insert ws t ;;
        match ws' with
        | [w'] => Val (r, Small w')
        | _ => UB                          (* a slice of length 1 stays one *)
        end
    | false, Large ws =>
        ws <- (if llen ws =? 0 then
                 size <- ORDINAL_SIZE O ;;
                 a <- unwrap (checked_add size 64) ;;
                 b <- usub a 1 ;;
                 len <- udiv b 64 ;;
                 Val (repeat 0 (N.to_nat len))
               else Val ws) ;;
        ws <- OrdinalSetMut_new ws ;;
        '(r, ws') <- OrdinalSetMut_insert ws t ;;
        Val (r, Large ws')
    | _, _ => Panic PUnreachable
    end.

  (** set/set.rs:84-86 *)
  Definition OrdinalSet_iter (s : OrdinalSet) : res SetIter :=
    r <- OrdinalSet_as_ref s ;; OrdinalSetRef_iter r.

  (** set/set.rs:98-100: the [for] loop. *)
  Fixpoint OrdinalSet_insert_all (l : list T) (s : OrdinalSet) : res OrdinalSet :=
    match l with
    | [] => Val s
    | t :: l' => '(_, s') <- OrdinalSet_insert s t ;; OrdinalSet_insert_all l' s'
    end.

  (** set/set.rs:96-102 *)
  Definition OrdinalSet_from_iter (l : list T) : res OrdinalSet :=
    s <- OrdinalSet_new ;; OrdinalSet_insert_all l s.

  (** set/set.rs:12, 106-111 *)
  Definition OrdinalSet_clone (s : OrdinalSet) : OrdinalSet :=
    match s with Small w => Small w | Large ws => Large ws end.

  (** set/set.rs:115-117 *)
  Definition OrdinalSet_debug (s : OrdinalSet) : res (list T) :=
    r <- OrdinalSet_as_ref s ;; OrdinalSetRef_debug r.

  (** ** OrdinalArraySet (set/array.rs:36-39) *)

  Definition OrdinalArraySet (S : nat) := arr N S.

  Section Array.
    Variable S : nat.

    (** set/array.rs:42 *)
    Definition ArraySet_ASSERT : res unit :=
      s <- ordinal_array_set_s ;; assert_const (N.of_nat S =? s).

    (** The words of an array after an update in place: there are still [S] of them. *)
    Definition as_array (l : list N) : res (OrdinalArraySet S) :=
      match try_arr S l with Some a => Val a | None => UB end.

    (** set/array.rs:78-83 *)
    Definition OrdinalArraySet_default : res (OrdinalArraySet S) := as_array (repeat 0 S).

    (** set/array.rs:46-49 *)
    Definition OrdinalArraySet_new : res (OrdinalArraySet S) :=
      ArraySet_ASSERT ;;; OrdinalArraySet_default.

    (** set/array.rs:52-55 *)
    Definition OrdinalArraySet_as_ref (s : OrdinalArraySet S) : res OrdinalSetRef :=
      ArraySet_ASSERT ;;; OrdinalSetRef_new (arr_list s).

    (** set/array.rs:65-67 *)
    Definition OrdinalArraySet_contains (s : OrdinalArraySet S) (t : T) : res bool :=
      r <- OrdinalArraySet_as_ref s ;; OrdinalSetRef_contains r t.

    (** set/array.rs:71-73 (with 58-61) *)
    Definition OrdinalArraySet_insert (s : OrdinalArraySet S) (t : T) : res (bool * OrdinalArraySet S) :=
      ArraySet_ASSERT ;;;
      ws <- OrdinalSetMut_new (arr_list s) ;;
      '(r, ws') <- OrdinalSetMut_insert ws t ;;
      a <- as_array ws' ;;
      Val (r, a).

    (** set/array.rs:89-91: the [for] loop. *)
    Fixpoint OrdinalArraySet_insert_all (l : list T) (s : OrdinalArraySet S) : res (OrdinalArraySet S) :=
      match l with
      | [] => Val s
      | t :: l' => '(_, s') <- OrdinalArraySet_insert s t ;; OrdinalArraySet_insert_all l' s'
      end.

    (** set/array.rs:87-93 *)
    Definition OrdinalArraySet_from_iter (l : list T) : res (OrdinalArraySet S) :=
      s <- OrdinalArraySet_new ;; OrdinalArraySet_insert_all l s.

    (** set/array.rs:97-102 *)
    Definition OrdinalArraySet_clone (s : OrdinalArraySet S) : OrdinalArraySet S := s.

    (** set/array.rs:106-108 *)
    Definition OrdinalArraySet_debug (s : OrdinalArraySet S) : res (list T) :=
      r <- OrdinalArraySet_as_ref s ;; OrdinalSetRef_debug r.
  End Array.

  (** ** OrdinalSet64 (set/set64.rs:74-77) and Iter64 (set/set64.rs:11-14) *)

  Definition OrdinalSet64 := N.
  Definition Iter64 := N.

  (** set/set64.rs:20-28 *)
  Definition Iter64_next (s : Iter64) : res (option T * Iter64) :=
    let i := trailing_zeros s in
    if i =? 64 then Val (None, s)
    else
      b <- u64_shl 1 i ;;
      let s' := N.land s (u64_not b) in
      o <- from_ordinal O i ;;
      t <- unwrap o ;;
      Val (Some t, s').

  (** set/set64.rs:46-50 *)
  Definition Iter64_next_back (s : Iter64) : res (option T * Iter64) :=
    match checked_sub (64 - 1) (leading_zeros s) with
    | None => Val (None, s)
    | Some i =>
        b <- u64_shl 1 i ;;
        let s' := N.land s (u64_not b) in
        o <- from_ordinal O i ;;
        t <- unwrap o ;;
        Val (Some t, s')
    end.

  Definition Iter64_step (d : dir) (s : Iter64) : res (option T * Iter64) :=
    match d with Front => Iter64_next s | Back => Iter64_next_back s end.

  (** set/set64.rs:39-41 *)
  Definition Iter64_len (s : Iter64) : N := count_ones s.

  (** set/set64.rs:31-34 *)
  Definition Iter64_size_hint (s : Iter64) : N * option N :=
    let len := Iter64_len s in (len, Some len).

  (** set/set64.rs:55-60 *)
  Definition Iter64_clone (s : Iter64) : Iter64 := s.

  (** set/set64.rs:64-66; at most 64 rounds. *)
  Definition Iter64_debug (s : Iter64) : res (list T) :=
    '(l, _) <- collect (Iter64_step Front) 65 (Iter64_clone s) ;; Val l.

  (** set/set64.rs:80-82 *)
  Definition Set64_ASSERT : res unit := size <- ORDINAL_SIZE O ;; assert_const (size <=? 64).

  (** set/set64.rs:86-92 *)
  Definition OrdinalSet64_new : res OrdinalSet64 := Set64_ASSERT ;;; Val 0.

  (** set/set64.rs:136-138 *)
  Definition OrdinalSet64_default : res OrdinalSet64 := OrdinalSet64_new.

  (** set/set64.rs:94-96 *)
  Definition OrdinalSet64_as_ref (s : OrdinalSet64) : res OrdinalSetRef := OrdinalSetRef_new [s].

  (** set/set64.rs:100-106 *)
  Definition OrdinalSet64_all : res OrdinalSet64 :=
    Set64_ASSERT ;;;
    size <- ORDINAL_SIZE O ;;
    b <- u64_shl 1 size ;;
    u64_sub b 1.

  (** set/set64.rs:129-132 *)
  Definition OrdinalSet64_contains (s : OrdinalSet64) (t : T) : res bool :=
    Set64_ASSERT ;;;
    i <- ordinal O t ;;
    b <- u64_shl 1 i ;;
    Val (negb (N.land s b =? 0)).

  (** set/set64.rs:110-115 *)
  Definition OrdinalSet64_insert (s : OrdinalSet64) (t : T) : res (bool * OrdinalSet64) :=
    Set64_ASSERT ;;;
    c <- OrdinalSet64_contains s t ;;
    let r := negb c in
    i <- ordinal O t ;;
    b <- u64_shl 1 i ;;
    Val (r, N.lor s b).

  (** set/set64.rs:119-125 *)
  Definition OrdinalSet64_iter (s : OrdinalSet64) : res Iter64 := Set64_ASSERT ;;; Val s.

  (** set/set64.rs:144-146: the [for] loop. *)
  Fixpoint OrdinalSet64_or_all (l : list T) (s : OrdinalSet64) : res OrdinalSet64 :=
    match l with
    | [] => Val s
    | t :: l' =>
        i <- ordinal O t ;;
        b <- u64_shl 1 i ;;
        OrdinalSet64_or_all l' (N.lor s b)
    end.

  (** set/set64.rs:142-148 *)
  Definition OrdinalSet64_from_iter (l : list T) : res OrdinalSet64 :=
    s <- OrdinalSet64_new ;; OrdinalSet64_or_all l s.

  (** set/set64.rs:73 [derive(PartialEq)] *)
  Definition OrdinalSet64_eq (a b : OrdinalSet64) : bool := a =? b.

  (** set/set64.rs:152-157 *)
  Definition OrdinalSet64_clone (s : OrdinalSet64) : OrdinalSet64 := s.

  (** set/set64.rs:161-163 *)
  Definition OrdinalSet64_debug (s : OrdinalSet64) : res (list T) :=
    r <- OrdinalSet64_as_ref s ;; OrdinalSetRef_debug r.
End Set_.
