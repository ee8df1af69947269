(** * SpecUse: what to expect of programs whose key type has too many values. *)
From Verif Require Import Base Spec SpecMap SpecTotal SpecSet SpecAtomic.
From Coq Require Import List.
Import ListNotations.

(** The methods that exist: OrdinalMap has no [retain], OrdinalArraySet has no [iter]. *)
Definition map_method {K V} (op : map_op K V) : Prop := match op with OpRetain _ => False | _ => True end.
Definition array_set_method {T} (op : set_op T) : Prop := match op with SIter _ => False | _ => True end.

(** What a map without entries answers, for operations that add none. *)
Definition empty_answer {K V} (op : map_op K V) : map_out K V :=
  match op with
  | OpGet _ | OpGetMut _ _ | OpRemove _ | OpInsert _ _ | OpEntryMatch _ _ _ | OpEntryOrInsert _ _ _ => OutValue None
  | OpContainsKey _ | OpEntryDrop _ => OutBool false
  | OpLen => OutNum 0
  | OpIsEmpty => OutBool true
  | OpClear | OpClone _ | OpRetain _ => OutUnit
  | OpDrain s _ | OpIter s | OpIterMut s _ => OutEntries (map (fun _ => None) s)
  | OpKeys s => OutKeys (map (fun _ => None) s)
  | OpValues s | OpValuesMut s _ => OutValues (map (fun _ => None) s)
  | OpDebug => OutList []
  end.

(** The values a call is given. *)
Definition given {T} (c : call T) : list T :=
  match c with
  | CLoad _ | CDebug => []
  | CStore t _ => [t]
  | CCas old new _ _ => [old; new]
  end.

(** The keys an operation on a total map is given, and the operations that concern slots
    and values only. *)
Definition keys_given {K V} (op : total_op K V) : list K :=
  match op with
  | TGet k | TIndex k | TGetMut k _ | TIndexMut k _ | TInsert k _ => [k]
  | _ => []
  end.
Definition lists_all_keys {K V} (op : total_op K V) : bool :=
  match op with TKeys_ _ => true | _ => false end.
Definition slots_only {K V} (op : total_op K V) : Prop :=
  match op with
  | TLen | TIsEmpty | TValues_ _ | TValuesMut_ _ _ | TClone_ _ => True
  | _ => False
  end.

(** What [len] and [is_empty] answer for [s] slots, whatever else happened. *)
Definition slots_answer {K V} (s : nat) (op : total_op K V) (o : total_out K V) : Prop :=
  match op with
  | TLen => o = TONum (N.of_nat s)
  | TIsEmpty => o = TOBool (match s with O => true | S _ => false end)
  | _ => True
  end.
