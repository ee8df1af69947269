(** * SpecSet: what client programs of a set should observe.

    [ks] lists the element type in ordinal order. Nothing here refers to the
    implementation. *)
From Verif Require Import Base Spec.

Inductive set_op (T : Type) :=
| SInsert (t : T)               (* set.insert(t) *)
| SContains (t : T)             (* set.contains(&t) *)
| SIter (sched : list dir)      (* consume set.iter() per sched *)
| SFromIter (l : list T)        (* set = l.into_iter().collect() *)
| SClone                        (* set = set.clone() *)
| SDebug.                       (* the elements printed by {:?} *)
Arguments SIter {T} sched.
Arguments SClone {T}.
Arguments SDebug {T}.

Inductive set_out (T : Type) :=
| SBool (b : bool)
| SItems (l : list (option T))
| SUnit_
| SElems (l : list T).
Arguments SBool {T} b.
Arguments SUnit_ {T}.

Section SetSpec.
  Context {T : Type} (eqd : forall a b : T, {a = b} + {a <> b}) (ks : list T).

  (** The members in ordinal order. *)
  Definition members (m : mset T) : list T := filter m ks.

  (** The set of the elements of a list. *)
  Definition set_of (l : list T) : mset T := fun t => if in_dec eqd t l then true else false.

  Definition sspec_step (op : set_op T) (m : mset T) : set_out T * mset T :=
    match op with
    | SInsert t => (SBool (negb (m t)), ms_add eqd m t)
    | SContains t => (SBool (m t), m)
    | SIter sched => (SItems (fst (deque_run sched (members m))), m)
    | SFromIter l => (SUnit_, set_of l)
    | SClone => (SUnit_, m)
    | SDebug => (SElems (members m), m)
    end.

  Fixpoint sspec_run (ops : list (set_op T)) (m : mset T) : list (set_out T) * mset T :=
    match ops with
    | [] => ([], m)
    | op :: ops' =>
        let '(o, m') := sspec_step op m in
        let '(os, m'') := sspec_run ops' m' in
        (o :: os, m'')
    end.
End SetSpec.

(** [l] lists the members of a set with membership test [contains], in ordinal order. *)
Definition lists_members {T} (O : Ordinal T) (contains : T -> res bool) (l : list T) : Prop :=
  (forall t, In t l <-> contains t = Val true) /\ StronglySorted (ordinal_before O) l.

Definition not_iter {T} (op : set_op T) : bool := match op with SIter _ => false | _ => true end.
Definition not_debug {T} (op : set_op T) : bool := match op with SDebug => false | _ => true end.

(** Has something been inserted since the set was created? *)
Definition fills {T} (op : set_op T) (before : bool) : bool :=
  match op with
  | SInsert _ => true
  | SFromIter l => match l with [] => false | _ => true end
  | SContains _ | SIter _ | SClone | SDebug => before
  end.
Definition filled {T} (ops : list (set_op T)) : bool := fold_left (fun b op => fills op b) ops false.
