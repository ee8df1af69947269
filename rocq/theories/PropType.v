(** * PropType: C103, C104, C106 (properties.jsonl). *)
From Coq Require Import String.
From Verif Require Import Base ModelType SpecType TypeProofs.
From Coq Require Import List. Import ListNotations.

(** ** C103. A public type is [Send], [Sync] or [Unpin] (or has another auto trait) exactly when the things it holds allow it. *)
Theorem C103_auto_traits : forall (client : nat -> auto -> bool) (p : public) (l S : nat) (K V : ty) (a : auto),
  In p publics -> has client (p_make p l S K V) a = forallb (holding_has client a) (holdings p K V).
Proof. exact auto_of_holdings. Qed.
Print Assumptions C103_auto_traits.
(** Client types: 0 is like [u8], 1 like [Cell<u8>] (may be sent, not shared), 2 like [Rc<u8>], 3 like
    [MutexGuard] (may be shared, not sent), 4 like [PhantomPinned]. *)
Definition some_client (n : nat) (a : auto) : bool :=
  match n, a with
  | 1%nat, Sync | 2%nat, (Send | Sync) | 3%nat, Send | 4%nat, Unpin => false
  | _, _ => true
  end.
Example C103_maps_case :
  map (has some_client (ty_OrdinalMap (Client 0) (Client 1))) [Send; Sync; Unpin] = [true; false; true] /\
  map (has some_client (ty_OrdinalMap (Client 2) (Client 0))) [Send; Sync; Unpin] = [false; false; true] /\
  map (has some_client (ty_OrdinalMap (Client 0) (Client 4))) [Send; Sync; Unpin] = [true; true; true] /\
  map (has some_client (ty_OrdinalArrayMap 3 (Client 0) (Client 4))) [Send; Sync; Unpin] = [true; true; false].
Proof. repeat split. Qed.
Example C103_iterators_case :
  has some_client (ty_Iter 0 (Client 0) (Client 1)) Send = false /\
  has some_client (ty_IterMut 0 (Client 0) (Client 1)) Send = true /\
  has some_client (ty_Iter 0 (Client 0) (Client 3)) Send = true /\
  has some_client (ty_IterMut 0 (Client 0) (Client 3)) Send = false /\
  has some_client (ty_Keys 0 (Client 0) (Client 1)) Send = false /\
  has some_client (ty_Entry 0 (Client 1) (Client 0)) Sync = false.
Proof. repeat split. Qed.
(** The atomic, like the sets, holds no value of its type and yet asks for its traits. *)
Example C103_atomic_case :
  map (has some_client (ty_AtomicOrdinal (Client 1))) [Send; Sync] = [true; false] /\
  map (has some_client (ty_OrdinalSet64 (Client 2))) [Send; Sync] = [false; false].
Proof. repeat split. Qed.

(** ** C104. When one instance of a public type may stand for another. *)
Theorem C104_subtypes : forall (outlives client_sub : nat -> nat -> Prop) (p : public) (l l' S S' : nat) (K K' V V' : ty),
  In p publics ->
  (rel outlives client_sub Less (p_make p l S K V) (p_make p l' S' K' V') <->
   may_replace outlives client_sub p l l' S S' K K' V V').
Proof. exact subtypes. Qed.
Print Assumptions C104_subtypes.
(** [Client 0] a subtype of [Client 1]; lifetime 0 outlives lifetime 1. *)
Definition below (n m : nat) : Prop := (n <= m)%nat.
Example C104_covariant :
  rel below below Less (ty_OrdinalMap (Client 0) (Client 0)) (ty_OrdinalMap (Client 1) (Client 1)) /\
  rel below below Less (ty_Iter 0 (Client 0) (Ref 0 (Client 0))) (ty_Iter 1 (Client 1) (Ref 1 (Client 1))) /\
  rel below below Less (ty_AtomicOrdinal (Client 0)) (ty_AtomicOrdinal (Client 1)) /\
  ~ rel below below Less (ty_AtomicOrdinal (Client 1)) (ty_AtomicOrdinal (Client 0)).
Proof. unfold below. cbn. intuition (auto; Lia.lia). Qed.
Example C104_invariant :
  rel below below Less (ty_IterMut 0 (Client 0) (Client 0)) (ty_IterMut 1 (Client 1) (Client 0)) /\
  ~ rel below below Less (ty_IterMut 0 (Client 0) (Client 0)) (ty_IterMut 0 (Client 0) (Client 1)) /\
  ~ rel below below Less (ty_Drain 0 (Client 0) (Client 0)) (ty_Drain 0 (Client 0) (Client 1)) /\
  ~ rel below below Less (ty_OrdinalArrayMap 2 (Client 0) (Client 0)) (ty_OrdinalArrayMap 3 (Client 0) (Client 0)).
Proof. unfold below. cbn. intuition (auto; Lia.lia). Qed.

(** ** C106. Which public types may cross a [catch_unwind]. *)
Theorem C106_unwind_safety : forall (client : nat -> auto -> bool) (p : public) (l S : nat) (K V : ty),
  In p publics ->
  has client (p_make p l S K V) UnwindSafe = unwind_safe client p K V /\
  has client (p_make p l S K V) RefUnwindSafe = ref_unwind_safe client p K V.
Proof. exact unwinding. Qed.
Print Assumptions C106_unwind_safety.
(** 0 is like [u8], 1 like [Cell<u8>] ([UnwindSafe], not [RefUnwindSafe]), 2 like [fmt::Formatter] (neither). *)
Definition some_unwinding (n : nat) (a : auto) : bool :=
  match n, a with 1%nat, RefUnwindSafe | 2%nat, (UnwindSafe | RefUnwindSafe) => false | _, _ => true end.
Example C106_collections_case :
  map (has some_unwinding (ty_OrdinalMap (Client 0) (Client 0))) [UnwindSafe; RefUnwindSafe] = [true; true] /\
  map (has some_unwinding (ty_OrdinalMap (Client 0) (Client 1))) [UnwindSafe; RefUnwindSafe] = [true; false] /\
  map (has some_unwinding (ty_OrdinalMap (Client 2) (Client 0))) [UnwindSafe; RefUnwindSafe] = [false; false] /\
  map (has some_unwinding (ty_AtomicOrdinal (Client 0))) [UnwindSafe; RefUnwindSafe] = [true; true].
Proof. repeat split. Qed.
(** The owning iterator of the heap map asks more than that of the array map; exclusive
    borrows are never [UnwindSafe]. *)
Example C106_iterators_case :
  has some_unwinding (ty_IntoIter (Client 0) (Client 1)) UnwindSafe = false /\
  has some_unwinding (ty_IntoIterArray 3 (Client 0) (Client 1)) UnwindSafe = true /\
  has some_unwinding (ty_Iter 0 (Client 0) (Client 1)) UnwindSafe = false /\
  map (has some_unwinding (ty_IterMut 0 (Client 0) (Client 0))) [UnwindSafe; RefUnwindSafe] = [false; true] /\
  has some_unwinding (ty_SetIter 0 (Client 0)) UnwindSafe = true.
Proof. repeat split. Qed.
