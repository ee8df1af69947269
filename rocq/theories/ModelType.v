(** * ModelType: the fields of the types of the crate, and what the compiler derives from them.

    Types are expressions; a client's own type is [Client n], about which nothing is known but
    which auto traits it has and which client types it is a subtype of. The types of the crate are
    expanded to their fields. *)
From Coq Require Import String.
From Verif Require Import Base.
From Coq Require Import List. Import ListNotations.
Local Open Scope string_scope.

Inductive ty :=
| Client (n : nat)
| Usize | U64 | AtomicUsize
| Slice (t : ty) | Array (t : ty) (S : nat)
| Opt (t : ty) | Box (t : ty) | Range (t : ty) | MaybeUninit (t : ty)
| Phantom (t : ty)
| Ref (l : nat) (t : ty) | RefMut (l : nat) (t : ty)
| SliceIter (l : nat) (t : ty) | SliceIterMut (l : nat) (t : ty)
| VecIntoIter (t : ty) | ArrayIntoIter (t : ty) (S : nat)
| Struct (name : string) (fields : list ty).   (* of an enum: the fields of all variants *)

(** ** The declarations *)
Section Declarations.
  Context (l : nat) (S : nat).   (* the lifetime and the const parameter *)

  (** values.rs:20-23 *)
  Definition ty_OrdinalValues (T : ty) : ty := Struct "OrdinalValues" [Range Usize; Phantom T].
  (** atomic.rs:35-38 *)
  Definition ty_AtomicOrdinal (T : ty) : ty := Struct "AtomicOrdinal" [AtomicUsize; Phantom T].
  (** array_builder.rs:9-12 *)
  Definition ty_ArrayBuilder (T : ty) : ty := Struct "ArrayBuilder" [Array (MaybeUninit T) S; Usize].
  (** map/enumerate.rs:5-9 *)
  Definition ty_OrdinalEnumerate (K I : ty) : ty := Struct "OrdinalEnumerate" [Usize; I; Phantom K].
  (** map/entry.rs:3-7 *)
  Definition ty_OccupiedEntry (K V : ty) : ty := Struct "OccupiedEntry" [K; RefMut l (Opt V)].
  (** map/entry.rs:11-15 *)
  Definition ty_VacantEntry (K V : ty) : ty := Struct "VacantEntry" [K; RefMut l (Opt V)].
  (** map/entry.rs:22-27 *)
  Definition ty_Entry (K V : ty) : ty := Struct "Entry" [ty_OccupiedEntry K V; ty_VacantEntry K V].
  (** map/total/map.rs:20-23 *)
  Definition ty_OrdinalTotalMap (K V : ty) : ty := Struct "OrdinalTotalMap" [Box (Slice V); Phantom K].
  (** map/total/array_map.rs:40-43 *)
  Definition ty_OrdinalTotalArrayMap (K V : ty) : ty := Struct "OrdinalTotalArrayMap" [Array V S; Phantom K].
  (** map/total/iter.rs:14-16 *)
  Definition ty_TIter (K V : ty) : ty := Struct "total::Iter" [ty_OrdinalEnumerate K (SliceIter l V)].
  (** map/total/iter.rs:69-71 *)
  Definition ty_TIterMut (K V : ty) : ty := Struct "total::IterMut" [ty_OrdinalEnumerate K (SliceIterMut l V)].
  (** map/total/iter.rs:117-119 *)
  Definition ty_TIntoIterArray (K V : ty) : ty := Struct "total::IntoIterArray" [ty_OrdinalEnumerate K (ArrayIntoIter V S)].
  (** map/total/iter.rs:171-173 *)
  Definition ty_TIntoIter (K V : ty) : ty := Struct "total::IntoIter" [ty_OrdinalEnumerate K (VecIntoIter V)].
  (** map/map.rs:27-31 *)
  Definition ty_OrdinalMap (K V : ty) : ty := Struct "OrdinalMap" [Box (Slice (Opt V)); Phantom K].
  (** map/array_map.rs:39-41 *)
  Definition ty_OrdinalArrayMap (K V : ty) : ty := Struct "OrdinalArrayMap" [ty_OrdinalTotalArrayMap K (Opt V)].
  (** map/iter.rs:11-13 *)
  Definition ty_Iter (K V : ty) : ty := Struct "Iter" [ty_TIter K (Opt V)].
  (** map/iter.rs:70-72 *)
  Definition ty_IterMut (K V : ty) : ty := Struct "IterMut" [ty_TIterMut K (Opt V)].
  (** map/iter.rs:124-126 *)
  Definition ty_Keys (K V : ty) : ty := Struct "Keys" [ty_Iter K V].
  (** map/iter.rs:173-175 *)
  Definition ty_Values (K V : ty) : ty := Struct "Values" [ty_Iter K V].
  (** map/iter.rs:222-224 *)
  Definition ty_ValuesMut (K V : ty) : ty := Struct "ValuesMut" [ty_IterMut K V].
  (** map/iter.rs:268-270 *)
  Definition ty_Drain (K V : ty) : ty := Struct "Drain" [ty_TIterMut K (Opt V)].
  (** map/iter.rs:313-316 *)
  Definition ty_IntoIterArray (K V : ty) : ty := Struct "IntoIterArray" [ty_TIntoIterArray K (Opt V); Phantom K].
  (** map/iter.rs:374-376 *)
  Definition ty_IntoIter (K V : ty) : ty := Struct "IntoIter" [ty_TIntoIter K (Opt V)].
  (** set/set.rs:13-16 *)
  Definition ty_SetImpl : ty := Struct "SetImpl" [U64; Box (Slice U64)].
  (** set/set.rs:26-29 *)
  Definition ty_OrdinalSet (T : ty) : ty := Struct "OrdinalSet" [ty_SetImpl; Phantom T].
  (** set/array.rs:36-39 *)
  Definition ty_OrdinalArraySet (T : ty) : ty := Struct "OrdinalArraySet" [Array U64 S; Phantom T].
  (** set/set64.rs:74-77 *)
  Definition ty_OrdinalSet64 (T : ty) : ty := Struct "OrdinalSet64" [U64; Phantom T].
  (** set/set64.rs:11-14 *)
  Definition ty_Iter64 (T : ty) : ty := Struct "Iter64" [U64; Phantom T].
  (** set/set_ref.rs:9-12 *)
  Definition ty_OrdinalSetRef (T : ty) : ty := Struct "OrdinalSetRef" [Ref l (Slice U64); Phantom T].
  (** set/set_mut.rs:7-10 *)
  Definition ty_OrdinalSetMut (T : ty) : ty := Struct "OrdinalSetMut" [RefMut l (Slice U64); Phantom T].
  (** set/iter.rs:8-11 *)
  Definition ty_SetIter (T : ty) : ty := Struct "set::Iter" [ty_OrdinalValues T; ty_OrdinalSetRef T].
End Declarations.

(** ** Auto traits: a struct has one when all its fields have it. The rules for the types of the
    standard library are those of its documentation. *)
Inductive auto := Send | Sync | Unpin | UnwindSafe | RefUnwindSafe.

Section Auto.
  Context (client : nat -> auto -> bool).

  Fixpoint has (t : ty) (a : auto) {struct t} : bool :=
    match t with
    | Client n => client n a
    | Usize | U64 | AtomicUsize => true
    | Slice t | Array t _ | Opt t | Range t | MaybeUninit t | Phantom t => has t a
    | ArrayIntoIter t _ => has t a
    | VecIntoIter t =>   (* keeps raw pointers beside the values it owns *)
        match a with UnwindSafe => has t UnwindSafe && has t RefUnwindSafe | _ => has t a end
    | Box t => match a with Unpin => true | _ => has t a end
    | Ref _ t | SliceIter _ t =>
        match a with Unpin => true | Send | Sync => has t Sync | UnwindSafe | RefUnwindSafe => has t RefUnwindSafe end
    | RefMut _ t | SliceIterMut _ t => match a with Unpin => true | UnwindSafe => false | _ => has t a end
    | Struct _ fields => forallb (fun f => has f a) fields
    end.
End Auto.

(** ** Subtyping: [rel Less] is "is a subtype of". A struct is a subtype of another instance of
    itself when each field is (the compiler computes the variance of each parameter from the
    fields, which comes to the same). *)
Inductive side := Less | Greater | Both.

Section Subtyping.
  Context (outlives : nat -> nat -> Prop) (client_sub : nat -> nat -> Prop).

  Definition by_side {A : Type} (R : A -> A -> Prop) (d : side) (a b : A) : Prop :=
    match d with Less => R a b | Greater => R b a | Both => R a b /\ R b a end.

  Fixpoint rel (d : side) (t u : ty) {struct t} : Prop :=
    match t, u with
    | Client n, Client m => by_side client_sub d n m
    | Usize, Usize | U64, U64 | AtomicUsize, AtomicUsize => True
    | Slice t, Slice u | Opt t, Opt u | Box t, Box u | Range t, Range u | MaybeUninit t, MaybeUninit u
    | Phantom t, Phantom u | VecIntoIter t, VecIntoIter u => rel d t u
    | Array t n, Array u m | ArrayIntoIter t n, ArrayIntoIter u m => rel d t u /\ n = m
    | Ref l t, Ref l' u | SliceIter l t, SliceIter l' u => by_side outlives d l l' /\ rel d t u
    | RefMut l t, RefMut l' u | SliceIterMut l t, SliceIterMut l' u => by_side outlives d l l' /\ rel Both t u
    | Struct n fs, Struct n' gs => n = n' /\
        (fix all (fs gs : list ty) : Prop :=
           match fs, gs with
           | [], [] => True
           | f :: fs', g :: gs' => rel d f g /\ all fs' gs'
           | _, _ => False
           end) fs gs
    | _, _ => False
    end.
End Subtyping.
