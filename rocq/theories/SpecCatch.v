(** * SpecCatch: programs that catch panics.

    Each call is made inside [catch_unwind]; the program goes on with the object left behind. *)
From Verif Require Import Base Spec SpecMap SpecTotal SpecSet.

Inductive seen (Out : Type) :=
| Seen (o : Out)
| Caught (w : panic).
Arguments Seen {Out} o.
Arguments Caught {Out} w.

Section Programs.
  Context {Op Out M : Type} (step : Op -> M -> Out * M).
  (** Which calls return, and which panic, with what. *)
  Context (returns : Op -> Prop) (panics : Op -> panic -> Prop).

  (** [caught_program ops outs m m']: the calls that return do what [step] says; the calls that
      panic change nothing. *)
  Inductive caught_program : list Op -> list (seen Out) -> M -> M -> Prop :=
  | caught_end m : caught_program [] [] m m
  | caught_return op ops o outs m m1 m2 : returns op -> step op m = (o, m1) ->
      caught_program ops outs m1 m2 -> caught_program (op :: ops) (Seen o :: outs) m m2
  | caught_panic op ops w outs m m2 : panics op w ->
      caught_program ops outs m m2 -> caught_program (op :: ops) (Caught w :: outs) m m2.
End Programs.

(** [O] is [O0] except that its [ordinal] panics on some keys. *)
Definition panicking_version {K : Type} (O O0 : Ordinal K) : Prop :=
  ORDINAL_SIZE O = ORDINAL_SIZE O0 /\
  from_ordinal O = from_ordinal O0 /\
  (forall k, ordinal O k = ordinal O0 k \/ exists w, ordinal O k = Panic w).

(** The key argument of an operation. *)
Definition map_key {K V} (op : map_op K V) : option K :=
  match op with
  | OpInsert k _ | OpGet k | OpGetMut k _ | OpContainsKey k | OpRemove k
  | OpEntryDrop k | OpEntryMatch k _ _ | OpEntryOrInsert k _ _ => Some k
  | _ => None
  end.
Definition total_key {K V} (op : total_op K V) : option K :=
  match op with
  | TGet k | TIndex k | TGetMut k _ | TIndexMut k _ | TInsert k _ => Some k
  | _ => None
  end.

(** Operations that write to more than one slot. *)
Definition bulk {K V} (op : map_op K V) : bool :=
  match op with OpClear | OpDrain _ _ | OpRetain _ => true | _ => false end.
(** The operations of OrdinalMap whose results depend on its entries only. *)
Definition heap_op {K V} (op : map_op K V) : bool := has_heap op && not_contains_key op.

Section Calls.
  Context {K : Type} (O : Ordinal K).
  (** A call with key [key] panics exactly if [ordinal] panics on the key. *)
  Definition key_returns (key : option K) : Prop :=
    match key with None => True | Some k => exists i, ordinal O k = Val i end.
  Definition key_panics (key : option K) (w : panic) : Prop :=
    match key with None => False | Some k => ordinal O k = Panic w end.

  (** Operations of sets: collecting stops at the first element without an ordinal. Iteration and
      {:?} of OrdinalSet and OrdinalArraySet, and {:?} of OrdinalSet64, ask for the ordinals of
      elements that may not be in the set; [scans] says so. *)
  Definition set_returns (op : set_op K) : Prop :=
    match op with
    | SInsert t | SContains t => exists i, ordinal O t = Val i
    | SFromIter l => forall t, In t l -> exists i, ordinal O t = Val i
    | SClone | SIter _ | SDebug => True
    end.
  Definition set_panics (scans : set_op K -> bool) (op : set_op K) (w : panic) : Prop :=
    match op with
    | SInsert t | SContains t => ordinal O t = Panic w
    | SFromIter l => exists l1 t l2, l = l1 ++ t :: l2 /\ ordinal O t = Panic w /\
        forall t', In t' l1 -> exists i, ordinal O t' = Val i
    | SClone => False
    | SIter _ | SDebug => scans op = true /\ exists t, ordinal O t = Panic w
    end.
End Calls.
Definition scans_words {K} (op : set_op K) : bool :=
  match op with SIter _ | SDebug => true | _ => false end.
Definition scans_set64 {K} (op : set_op K) : bool :=
  match op with SDebug => true | _ => false end.
