(** * SpecMem: accounting for the values owned during array construction (C49). *)
From Verif Require Import Base Spec ModelOrdinal ModelArrayBuilder.

(** Wraps a callback so that the values it produced are recorded. *)
Definition logged {St A T E : Type} (init : St -> A -> St * res (result T E))
    (s : St * list T) (a : A) : (St * list T) * res (result T E) :=
  let '(st', r) := init (fst s) a in
  match r with
  | Val (ResOk v) => ((st', snd s ++ [v]), r)
  | _ => ((st', snd s), r)
  end.

(** The values that ended up in the returned array. *)
Definition kept {T E : Type} {S : nat} (r : res (result (arr T S) E)) : list T :=
  match r with Val (ResOk a) => arr_list a | _ => [] end.

(** Safe user code: it finishes or panics. *)
Definition safe {A} (r : res A) : Prop :=
  match r with Val _ | Panic _ => True | _ => False end.

(** The same for infallible callbacks. *)
Definition logged_ok {St A T : Type} (f : St -> A -> St * res T) (s : St * list T) (a : A)
    : (St * list T) * res T :=
  let '(st', r) := f (fst s) a in
  match r with
  | Val v => ((st', snd s ++ [v]), r)
  | _ => ((st', snd s), r)
  end.
Definition logged_kv {St K V T : Type} (f : St -> K -> V -> St * res T) (s : St * list T) (k : K) (v : V)
    : (St * list T) * res T :=
  let '(st', r) := f (fst s) k v in
  match r with
  | Val v => ((st', snd s ++ [v]), r)
  | _ => ((st', snd s), r)
  end.
Definition kept_ok {T : Type} {S : nat} (r : res (arr T S)) : list T :=
  match r with Val a => arr_list a | _ => [] end.

(** Pushing the values [vs] one after the other. *)
Fixpoint pushes {T} (S : nat) (vs : list T) (b : builder T) : res (builder T) :=
  match vs with
  | [] => Val b
  | v :: vs' => b' <- builder_push S b v ;; pushes S vs' b'
  end.

(** The element values decoded one after the other until a decode fails. *)
Fixpoint decoded {T} (O : Ordinal T) (size : N) (turns : nat) (m : N) : list T :=
  match turns with
  | Datatypes.O => []
  | S t => match from_ordinal O (m mod size) with
           | Val (Some v) => if size =? 0 then [] else v :: decoded O size t (m / size)
           | _ => []
           end
  end.

Definition kept_opt {T len} (r : res (option (arr T len))) : list T :=
  match r with Val (Some a) => arr_list a | _ => [] end.
