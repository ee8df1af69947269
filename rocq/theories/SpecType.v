(** * SpecType: what the public types of the crate hold, and what follows for threads, pinning,
    unwinding and subtyping.

    A type holds things of the client's types [K] and [V]: inside it, in memory of its own, in a
    vector being handed out, by shared reference or by exclusive reference. [holding_has] says what an auto trait asks of a holding. *)
From Coq Require Import String.
From Verif Require Import Base ModelType.
From Coq Require Import List. Import ListNotations.

Inductive holding := Inside (t : ty) | Boxed (t : ty) | Handed (t : ty) | Shared (t : ty) | Lent (t : ty).

(** [Send]: what is owned or exclusively borrowed moves along; what is shared is then reached from two
    threads. [Sync]: everything is reached from two threads. [Unpin]: only what is inside moves (the
    iterator over a vector counts what it hands out). [UnwindSafe]: nothing is exclusively borrowed,
    and what is shared may be seen half changed without harm. [RefUnwindSafe]: everything may. *)
Definition holding_has (client : nat -> auto -> bool) (a : auto) (h : holding) : bool :=
  match a, h with
  | Send, (Inside t | Boxed t | Handed t | Lent t) => has client t Send
  | Send, Shared t => has client t Sync
  | Sync, (Inside t | Boxed t | Handed t | Lent t | Shared t) => has client t Sync
  | Unpin, (Inside t | Handed t) => has client t Unpin
  | Unpin, (Boxed _ | Shared _ | Lent _) => true
  | UnwindSafe, (Inside t | Boxed t) => has client t UnwindSafe
  | UnwindSafe, Handed t => has client t UnwindSafe && has client t RefUnwindSafe
  | UnwindSafe, Shared t => has client t RefUnwindSafe
  | UnwindSafe, Lent _ => false
  | RefUnwindSafe, (Inside t | Boxed t | Handed t | Lent t | Shared t) => has client t RefUnwindSafe
  end.

(** How the values are held, and whether the type has a lifetime and a length. *)
Inductive values_held := NoValues | ValuesInside | ValuesBoxed | ValuesHanded | ValuesShared | ValuesLent.
Record public := {
  p_make : nat -> nat -> ty -> ty -> ty;   (* lifetime, length, K, V *)
  p_values : values_held;
  p_lifetime : bool;
  p_length : bool
}.

Definition holdings (p : public) (K V : ty) : list holding :=
  Inside K :: match p_values p with
              | NoValues => []
              | ValuesInside => [Inside V]
              | ValuesBoxed => [Boxed V]
              | ValuesHanded => [Handed V]
              | ValuesShared => [Shared V]
              | ValuesLent => [Lent V]
              end.

(** The public types: their names as seen by clients (lib.rs, map/mod.rs, map/total/mod.rs, set/mod.rs; [ValuesMut] is
    returned by [values_mut] but cannot be named). *)
Definition publics : list public := [
  {| p_make := fun _ _ T _ => ty_OrdinalValues T; p_values := NoValues; p_lifetime := false; p_length := false |};
  {| p_make := fun _ _ T _ => ty_AtomicOrdinal T; p_values := NoValues; p_lifetime := false; p_length := false |};
  {| p_make := fun _ _ K V => ty_OrdinalMap K V; p_values := ValuesBoxed; p_lifetime := false; p_length := false |};
  {| p_make := fun _ S K V => ty_OrdinalArrayMap S K V; p_values := ValuesInside; p_lifetime := false; p_length := true |};
  {| p_make := fun l _ K V => ty_Entry l K V; p_values := ValuesLent; p_lifetime := true; p_length := false |};
  {| p_make := fun l _ K V => ty_OccupiedEntry l K V; p_values := ValuesLent; p_lifetime := true; p_length := false |};
  {| p_make := fun l _ K V => ty_VacantEntry l K V; p_values := ValuesLent; p_lifetime := true; p_length := false |};
  {| p_make := fun l _ K V => ty_Drain l K V; p_values := ValuesLent; p_lifetime := true; p_length := false |};
  {| p_make := fun _ _ K V => ty_IntoIter K V; p_values := ValuesHanded; p_lifetime := false; p_length := false |};
  {| p_make := fun _ S K V => ty_IntoIterArray S K V; p_values := ValuesInside; p_lifetime := false; p_length := true |};
  {| p_make := fun l _ K V => ty_Iter l K V; p_values := ValuesShared; p_lifetime := true; p_length := false |};
  {| p_make := fun l _ K V => ty_IterMut l K V; p_values := ValuesLent; p_lifetime := true; p_length := false |};
  {| p_make := fun l _ K V => ty_Keys l K V; p_values := ValuesShared; p_lifetime := true; p_length := false |};
  {| p_make := fun l _ K V => ty_Values l K V; p_values := ValuesShared; p_lifetime := true; p_length := false |};
  {| p_make := fun l _ K V => ty_ValuesMut l K V; p_values := ValuesLent; p_lifetime := true; p_length := false |};
  {| p_make := fun _ _ K V => ty_OrdinalTotalMap K V; p_values := ValuesBoxed; p_lifetime := false; p_length := false |};
  {| p_make := fun _ S K V => ty_OrdinalTotalArrayMap S K V; p_values := ValuesInside; p_lifetime := false; p_length := true |};
  {| p_make := fun l _ K V => ty_TIter l K V; p_values := ValuesShared; p_lifetime := true; p_length := false |};
  {| p_make := fun l _ K V => ty_TIterMut l K V; p_values := ValuesLent; p_lifetime := true; p_length := false |};
  {| p_make := fun _ _ K V => ty_TIntoIter K V; p_values := ValuesHanded; p_lifetime := false; p_length := false |};
  {| p_make := fun _ S K V => ty_TIntoIterArray S K V; p_values := ValuesInside; p_lifetime := false; p_length := true |};
  {| p_make := fun _ _ T _ => ty_OrdinalSet T; p_values := NoValues; p_lifetime := false; p_length := false |};
  {| p_make := fun _ S T _ => ty_OrdinalArraySet S T; p_values := NoValues; p_lifetime := false; p_length := true |};
  {| p_make := fun _ _ T _ => ty_OrdinalSet64 T; p_values := NoValues; p_lifetime := false; p_length := false |};
  {| p_make := fun _ _ T _ => ty_Iter64 T; p_values := NoValues; p_lifetime := false; p_length := false |};
  {| p_make := fun l _ T _ => ty_SetIter l T; p_values := NoValues; p_lifetime := true; p_length := false |}
].

(** When one instance of a public type may be used in place of another: the lifetime may be
    shortened, the type of the keys may be replaced by a supertype, that of the values too
    unless they are lent, in which case it must stay the same (a subtype in both directions). *)
Definition may_replace (outlives client_sub : nat -> nat -> Prop) (p : public)
    (l l' S S' : nat) (K K' V V' : ty) : Prop :=
  let sub := rel outlives client_sub Less in
  (p_lifetime p = true -> outlives l l') /\
  (p_length p = true -> S = S') /\
  sub K K' /\
  match p_values p with
  | NoValues => True
  | ValuesLent => sub V V' /\ sub V' V
  | ValuesInside | ValuesBoxed | ValuesHanded | ValuesShared => sub V V'
  end.

(** What [UnwindSafe] and [RefUnwindSafe] come to, spelled out. *)
Definition unwind_safe (client : nat -> auto -> bool) (p : public) (K V : ty) : bool :=
  has client K UnwindSafe &&
  match p_values p with
  | NoValues => true
  | ValuesInside | ValuesBoxed => has client V UnwindSafe
  | ValuesHanded => has client V UnwindSafe && has client V RefUnwindSafe
  | ValuesShared => has client V RefUnwindSafe
  | ValuesLent => false
  end.
Definition ref_unwind_safe (client : nat -> auto -> bool) (p : public) (K V : ty) : bool :=
  has client K RefUnwindSafe && match p_values p with NoValues => true | _ => has client V RefUnwindSafe end.
