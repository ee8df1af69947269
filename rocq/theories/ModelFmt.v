(** * ModelFmt: the Debug implementations of the crate, down to the strings they write.

    The standard library's DebugList, DebugSet, DebugMap and DebugTuple and the adapter behind
    [{:#?}] are modelled after core::fmt::builders (the parts the crate reaches); the Debug
    implementations of the crate call them.  [K], [V] and [T] have arbitrary Debug
    implementations [show : bool -> _ -> writing], given the alternate flag; the other flags
    do not change during a call and are part of [show]. *)
From Coq Require Import Ascii String List.
From Verif Require Import Base Spec SpecAtomic SpecFmt ModelOrdinal ModelValues ModelArrayBuilder ModelAtomic ModelIter
  ModelTotal ModelMap ModelSet.
Import ListNotations.

(** ** Formatting code *)

(** [f.write_str(s)] as the whole program. *)
Definition write (s : string) : writing := WriteStr s (fun ok => Return (Val ok)).

(** Run [p] and hand its result to [k]. *)
Fixpoint then_with (p : writing) (k : bool -> writing) : writing :=
  match p with
  | Return (Val ok) => k ok
  | Return r => Return r
  | WriteStr s f => WriteStr s (fun ok => then_with (f ok) k)
  end.
(** [p?; q] *)
Definition and_then (p q : writing) : writing :=
  then_with p (fun ok => if ok then q else Return (Val false)).
(** Code that returns a value before any formatting. *)
Definition after {A : Type} (x : res A) (k : A -> writing) : writing :=
  match x with
  | Val a => k a
  | Panic w => Return (Panic w)
  | NoCompile => Return NoCompile
  | UB => Return UB
  | OutOfFuel => Return OutOfFuel
  end.

(** ** PadAdapter (core::fmt::builders) *)

(** [s.split_inclusive('\n')] *)
Fixpoint split_inclusive (s : string) : list string :=
  match s with
  | EmptyString => []
  | String c s' =>
      if Ascii.eqb c newline then String c EmptyString :: split_inclusive s'
      else match split_inclusive s' with
           | [] => [String c EmptyString]
           | h :: t => String c h :: t
           end
  end.
Fixpoint ends_with_newline (s : string) : bool :=
  match s with
  | EmptyString => false
  | String c EmptyString => Ascii.eqb c newline
  | String _ s' => ends_with_newline s'
  end.

(** [PadAdapter::write_str]: [on_newline] is the adapter's state; [k] gets the result and the state.
<<
    for s in s.split_inclusive('\n') {
        if self.state.on_newline { self.buf.write_str("    ")?; }
        self.state.on_newline = s.ends_with('\n');
        self.buf.write_str(s)?;
    }
>> *)
Fixpoint pad_chunks (chunks : list string) (on_newline : bool) (k : bool -> bool -> writing) : writing :=
  match chunks with
  | [] => k true on_newline
  | c :: chunks' =>
      let rest :=
        WriteStr c (fun ok => if ok then pad_chunks chunks' (ends_with_newline c) k
                              else k false (ends_with_newline c)) in
      if on_newline then WriteStr "    " (fun ok => if ok then rest else k false true)
      else rest
  end.
(** [p] run with the adapter as its sink. *)
Fixpoint padded (p : writing) (on_newline : bool) (k : bool -> bool -> writing) : writing :=
  match p with
  | Return (Val ok) => k ok on_newline
  | Return r => Return r
  | WriteStr s f => pad_chunks (split_inclusive s) on_newline (fun ok st => padded (f ok) st k)
  end.

(** ** DebugInner, DebugList, DebugSet, DebugMap, DebugTuple (core::fmt::builders) *)
Section Builders.
  Context (alternate : bool).

  (** [DebugInner::entry] when [self.result] is [Ok]; [k] gets the new [self.result]. *)
  Definition inner_entry (has_fields : bool) (entry : writing) (k : bool -> writing) : writing :=
    if alternate then
      then_with (if has_fields then Return (Val true) else write nl) (fun ok =>
        if ok then padded (and_then entry (write ("," ++ nl))) true (fun ok _ => k ok) else k false)
    else
      then_with (and_then (if has_fields then write ", " else Return (Val true)) entry) k.

  (** [entries(iter)] followed by [finish]: [for entry in entries { self.entry(&entry); }]; the loop
      runs on when [self.result] is [Err]. *)
  Fixpoint inner_entries {It A : Type} (next : It -> res (option A * It)) (show : A -> writing)
      (close : string) (fuel : nat) (s : It) (ok has_fields : bool) : writing :=
    match fuel with
    | 0%nat => Return OutOfFuel
    | S fuel' =>
        after (next s) (fun '(o, s') =>
          match o with
          | None => if ok then write close else Return (Val false)
          | Some a =>
              if ok then
                inner_entry has_fields (show a) (fun ok =>
                  inner_entries next show close fuel' s' ok true)
              else inner_entries next show close fuel' s' false true
          end)
    end.
  (** [f.debug_list().entries(iter).finish()], [f.debug_set().entries(iter).finish()] *)
  Definition debug_list {It A} (next : It -> res (option A * It)) (show : A -> writing) (fuel : nat) (s : It) :=
    WriteStr "[" (fun ok => inner_entries next show "]" fuel s ok false).
  Definition debug_set {It A} (next : It -> res (option A * It)) (show : A -> writing) (fuel : nat) (s : It) :=
    WriteStr "{" (fun ok => inner_entries next show "}" fuel s ok false).

  (** [DebugMap::key] and [DebugMap::value] when [self.result] is [Ok]; the state of the adapter
      is kept from the key to the value.  When the key fails the value is skipped. *)
  Definition map_entry (has_fields : bool) (key value : writing) (k : bool -> writing) : writing :=
    if alternate then
      then_with (if has_fields then Return (Val true) else write nl) (fun ok =>
        if ok then
          padded (and_then key (write ": ")) true (fun ok on_newline =>
            if ok then padded (and_then value (write ("," ++ nl))) on_newline (fun ok _ => k ok)
            else k false)
        else k false)
    else
      then_with (and_then (if has_fields then write ", " else Return (Val true))
                          (and_then key (write ": "))) (fun ok =>
        if ok then then_with value k else k false).
  Fixpoint map_entries {It A B : Type} (next : It -> res (option (A * B) * It))
      (showA : A -> writing) (showB : B -> writing) (fuel : nat) (s : It) (ok has_fields : bool) : writing :=
    match fuel with
    | 0%nat => Return OutOfFuel
    | S fuel' =>
        after (next s) (fun '(o, s') =>
          match o with
          | None => if ok then write "}" else Return (Val false)
          | Some (a, b) =>
              if ok then
                map_entry has_fields (showA a) (showB b) (fun ok =>
                  map_entries next showA showB fuel' s' ok true)
              else map_entries next showA showB fuel' s' false true
          end)
    end.
  (** [f.debug_map().entries(iter).finish()] *)
  Definition debug_map {It A B} (next : It -> res (option (A * B) * It))
      (showA : A -> writing) (showB : B -> writing) (fuel : nat) (s : It) : writing :=
    WriteStr "{" (fun ok => map_entries next showA showB fuel s ok false).

  (** Debug of a pair: [f.debug_tuple("").field(a).field(b).finish()]. *)
  Definition show_pair {A B : Type} (showA : A -> writing) (showB : B -> writing) (p : A * B) : writing :=
    and_then (write "")
      (if alternate then
         and_then (write ("(" ++ nl))
           (padded (and_then (showA (fst p)) (write ("," ++ nl))) true (fun ok _ =>
              if ok then
                padded (and_then (showB (snd p)) (write ("," ++ nl))) true (fun ok _ =>
                  if ok then write ")" else Return (Val false))
              else Return (Val false)))
       else
         and_then (and_then (write "(") (showA (fst p)))
           (and_then (and_then (write ", ") (showB (snd p))) (write ")"))).
End Builders.

(** ** The crate *)
Section Maps.
  Context {cfg : Config} {K V : Type} (O : Ordinal K).
  Context (alternate : bool) (showK : bool -> K -> writing) (showV : bool -> V -> writing).
  Let key := showK alternate.
  Let value := showV alternate.
  Let item := show_pair alternate key value.

  (** map/total/iter.rs:60-64, 110-114, 164-168, 216-220 *)
  Definition TIter_fmt (s : TIter) : writing :=
    debug_list alternate (TIter_step O Front) item (S (length (e_items s))) (TIter_clone s).
  Definition TIterMut_fmt (storage : list V) (s : TIterMut) : writing :=
    after (TIterMut_iter storage s) TIter_fmt.
  Definition TIntoIterArray_fmt (s : @TIntoIterArray V) : writing := TIter_fmt (TIntoIterArray_iter s).
  Definition TIntoIter_fmt (s : @TIntoIter V) : writing := TIter_fmt (TIntoIter_iter s).

  (** map/iter.rs:62-66, 116-120, 214-218, 260-264, 358-362, 417-421 *)
  Definition Iter_fmt (s : Iter) : writing :=
    debug_list alternate (Iter_step O Front) item (S (length (e_items s))) (Iter_clone s).
  Definition IterMut_fmt (storage : list (option V)) (s : IterMut) : writing :=
    after (IterMut_iter storage s) Iter_fmt.
  Definition Values_fmt (s : Values) : writing :=
    debug_list alternate (Values_step O Front) value (S (length (e_items s))) (Values_clone s).
  Definition ValuesMut_fmt (storage : list (option V)) (s : ValuesMut) : writing :=
    after (ValuesMut_iter storage s) Values_fmt.
  Definition IntoIterArray_fmt (s : @IntoIterArray V) : writing := Iter_fmt (IntoIterArray_iter s).
  Definition IntoIter_fmt (s : @IntoIter V) : writing := Iter_fmt (IntoIter_iter s).

  (** map/map.rs:173-177 *)
  Definition OrdinalMap_fmt (m : @OrdinalMap V) : writing :=
    debug_map alternate (Iter_step O Front) key value (S (length m)) (OrdinalMap_iter m).
  (** map/array_map.rs:184-188 *)
  Definition OrdinalArrayMap_fmt {S : nat} (m : @OrdinalArrayMap V S) : writing :=
    debug_map alternate (Iter_step O Front) key value (Datatypes.S (length (arr_list m))) (OrdinalArrayMap_iter m).
  (** map/total/map.rs:141-145 *)
  Definition OrdinalTotalMap_fmt (m : @OrdinalTotalMap V) : writing :=
    debug_map alternate (TIter_step O Front) key value (S (length m)) (OrdinalTotalMap_iter m).
  (** map/total/array_map.rs:219-223 *)
  Definition OrdinalTotalArrayMap_fmt {S : nat} (m : @OrdinalTotalArrayMap S V) : writing :=
    debug_map alternate (TIter_step O Front) key value (Datatypes.S (length (arr_list m))) (OrdinalTotalArrayMap_iter m).
End Maps.

(** map/iter.rs:165-169: only for [V = ()]. *)
Definition Keys_fmt {cfg : Config} {K : Type} (O : Ordinal K) (alternate : bool) (showK : bool -> K -> writing)
    (s : @Keys unit) : writing :=
  debug_list alternate (Keys_step O Front) (showK alternate) (S (length (e_items s))) (Keys_clone s).

Section Sets.
  Context {cfg : Config} {T : Type} (O : Ordinal T) (alternate : bool) (show : bool -> T -> writing).

  (** set/iter.rs:64-68 *)
  Definition SetIter_fmt (s : SetIter) : writing :=
    debug_list alternate (SetIter_step O Front) (show alternate)
      (S (N.to_nat (range_len (si_iter s)))) (SetIter_clone s).
  (** set/set_ref.rs:47-51 *)
  Definition OrdinalSetRef_fmt (r : OrdinalSetRef) : writing :=
    WriteStr "{" (fun ok =>
      after (OrdinalSetRef_iter O (OrdinalSetRef_clone r)) (fun it =>
        inner_entries alternate (SetIter_step O Front) (show alternate) "}"
          (S (N.to_nat (range_len (si_iter it)))) it ok false)).
  (** set/set.rs:114-118 *)
  Definition OrdinalSet_fmt (s : OrdinalSet) : writing := after (OrdinalSet_as_ref O s) OrdinalSetRef_fmt.
  (** set/array.rs:105-109 *)
  Definition OrdinalArraySet_fmt {S : nat} (s : OrdinalArraySet S) : writing :=
    after (OrdinalArraySet_as_ref O s) OrdinalSetRef_fmt.
  (** set/set64.rs:63-67 *)
  Definition Iter64_fmt (s : Iter64) : writing :=
    debug_list alternate (Iter64_step O Front) (show alternate) 65 (Iter64_clone s).
  (** set/set64.rs:160-164 *)
  Definition OrdinalSet64_fmt (s : OrdinalSet64) : writing := after (OrdinalSet64_as_ref O s) OrdinalSetRef_fmt.

  (** values.rs:92-107.  [write!] formats its arguments with fresh flags, so the elements are shown
      without the alternate flag whatever the flags of the caller. *)
  Definition OrdinalValues_fmt (s : OrdinalValues) : writing :=
    after (ORDINAL_SIZE O) (fun size =>
    after (values_next O (values_clone s)) (fun '(fo, iter) =>
      match fo with
      | None => write "[]"
      | Some first =>
          if r_end s =? size then
            and_then (write "[") (and_then (show false first) (write "..]"))
          else
            after (values_next_back O iter) (fun '(lo, _) =>
              match lo with
              | None => and_then (write "[") (and_then (show false first) (write "]"))
              | Some last =>
                  and_then (write "[") (and_then (show false first)
                    (and_then (write "..=") (and_then (show false last) (write "]"))))
              end)
      end)).

  (** atomic.rs:40-45: when the load reads [cell]. *)
  Definition AtomicOrdinal_fmt (cell : N) : writing :=
    after ('(q, finish) <- AtomicOrdinal_load O Relaxed ;;
           r <- fst (sc_apply q cell) ;; finish r) (show alternate).
End Sets.
