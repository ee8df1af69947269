(** * SpecLife: an account of the values when destructors may panic.

    As in SpecLedger.v, but [destroyed] now lists the values whose destructors were started in
    the call (the log of ModelLife.v, not merely values that are gone), and the arguments of a call that
    panics are part of the account. *)
From Verif Require Import Base Spec SpecMap SpecTotal SpecCatch SpecLedger ModelOrdinal.
From Coq Require Import List Permutation. Import ListNotations.

Section Maps.
  Context {K V : Type}.

  Definition life_account (op : map_op K V) (s : seen (map_out K V)) (h given taken destroyed h' : list V) : Prop :=
    match op, s with
    | OpInsert _ v, Caught _ => given = [v] /\ taken = [] /\ destroyed = [v]
    (** The value not needed is destroyed; if that panics, the client has no reference to assign to. *)
    | OpEntryOrInsert _ v w, Seen o => exists cur, o = OutValue (Some cur) /\ given = [v; w] /\ taken = [cur] /\
        (destroyed = [v] \/ destroyed = [] /\ cur = v)
    | OpEntryOrInsert _ v w, Caught _ => taken = [] /\
        (given = [] /\ destroyed = [] \/ given = [v] /\ destroyed = [v])
    | OpClone cl, _ => given = map cl h /\ taken = [] /\ destroyed = h /\ h' = map cl h
    | _, _ => map_account op s h given taken destroyed h'
    end.
  (** Only these calls can abort the process, by a panic during a panic. *)
  Definition abort_account (op : map_op K V) (h given : list V) : Prop :=
    match op with
    | OpInsert _ v => given = [v]
    | OpClear | OpDrain _ _ => given = []
    | OpClone cl => given = map cl h
    | _ => False
    end.

  Definition total_life_account (op : total_op K V) (s : seen (total_out K V)) (h given taken destroyed h' : list V) : Prop :=
    match op, s with
    | TInsert _ v, Caught _ => given = [v] /\ taken = [] /\ destroyed = [v]
    | TClone_ cl, _ => given = map cl h /\ taken = [] /\ destroyed = h /\ h' = map cl h
    | _, _ => total_account op s h given taken destroyed
    end.
  Definition total_abort_account (op : total_op K V) (h given : list V) : Prop :=
    match op with
    | TInsert _ v => given = [v]
    | TClone_ cl => given = map cl h
    | _ => False
    end.
End Maps.

(** The values in what an iterator returned. *)
Definition handed {K V : Type} (got : list (seen (option (K * V)))) : list V :=
  flat_map (fun s => match s with Seen (Some (_, v)) => [v] | _ => [] end) got.

(** [made] follows what [init] returns. *)
Definition records {K V E St : Type} (init : St -> K -> St * res (result V E)) (made : St -> list V) : Prop :=
  forall st k, made (fst (init st k)) = made st ++ match snd (init st k) with Val (ResOk v) => [v] | _ => [] end.
