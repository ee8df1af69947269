(** * SpecAlloc: requests for memory. *)
From Verif Require Import Base Spec SpecMap SpecTotal SpecSet SpecCatch.

(** What the global allocator does with a request. [Dies]: [handle_alloc_error] aborts the process.
    [Throws]: it panics instead (an alloc error hook). *)
Inductive answer := Granted | Throws (w : panic) | Dies.
(** An allocator answers a request for so many bytes after a history of requests. *)
Definition allocator : Type := list N -> N -> answer.

(** Operations of the three growable objects that may make a request. *)
Definition map_requests {K V} (op : map_op K V) : bool :=
  match op with
  | OpInsert _ _ | OpEntryDrop _ | OpEntryMatch _ _ _ | OpEntryOrInsert _ _ _ | OpClone _ => true
  | _ => false
  end.
Definition total_requests {K V} (op : total_op K V) : bool :=
  match op with TClone_ _ => true | _ => false end.
Definition set_requests {T} (op : set_op T) : bool :=
  match op with SInsert _ | SFromIter _ | SClone => true | _ => false end.

(** [leaves_out refused ops outs ops' outs']: [ops'] are the calls [ops] without some of those that
    panicked because a request was refused. *)
Section LeavesOut.
  Context {Op Out : Type} (refused : Op -> panic -> Prop).
  Inductive leaves_out : list Op -> list (seen Out) -> list Op -> list (seen Out) -> Prop :=
  | lo_nil : leaves_out [] [] [] []
  | lo_keep op o ops outs ops' outs' : leaves_out ops outs ops' outs' ->
      leaves_out (op :: ops) (o :: outs) (op :: ops') (o :: outs')
  | lo_skip op w ops outs ops' outs' : refused op w -> leaves_out ops outs ops' outs' ->
      leaves_out (op :: ops) (Caught w :: outs) ops' outs'.
End LeavesOut.

(** Why a request is refused: it is for more than isize::MAX bytes, or the allocator panics. *)
Definition refusal (ask : allocator) (w : panic) : Prop := w = PCapacity \/ exists h b, ask h b = Throws w.

(** What becomes of a call that needs [bytes] and would otherwise do [r]: the history of requests and the
    object left behind, and how the call ends. *)
Definition outcome {cfg : Config} {M E} (panics : panic -> E) (aborts : E) (ask : allocator) (h : list N)
    (bytes : N) (m : M) (r : M * E) : (list N * M) * E :=
  if Z.to_N isize_max <? bytes then ((h, m), panics PCapacity)
  else if bytes =? 0 then ((h, fst r), snd r)
  else match ask h bytes with
       | Granted => ((h ++ [bytes], fst r), snd r)
       | Throws w => ((h ++ [bytes], m), panics w)
       | Dies => ((h ++ [bytes], m), aborts)
       end.

(** Bytes needed by a call on a map with [len] slots out of [n], or on a set with [len] words out of
    [(n + 63) / 64]. *)
Definition map_bytes {K V} (slot n : N) (op : map_op K V) (len : N) : N :=
  match op with
  | OpInsert _ _ | OpEntryDrop _ | OpEntryMatch _ _ _ | OpEntryOrInsert _ _ _ => if len =? 0 then slot * n else 0
  | OpClone _ => slot * len
  | _ => 0
  end.
Definition total_bytes {K V} (slot : N) (op : total_op K V) (len : N) : N :=
  match op with TClone_ _ => slot * len | _ => 0 end.
(** An OrdinalSet of at most 64 values never needs memory. *)
Definition set_bytes {cfg : Config} {T} (n : N) (op : set_op T) (len : N) : N :=
  if n <=? 64 then 0
  else match op with
       | SInsert _ => if (len =? 0) && (n + 64 <=? usize_max) then 8 * ((n + 63) / 64) else 0
       | SFromIter [] => 0
       | SFromIter (_ :: _) => if n + 64 <=? usize_max then 8 * ((n + 63) / 64) else 0
       | SClone => 8 * len
       | SContains _ | SIter _ | SDebug => 0
       end.
(** How many requests these calls make on a map ([full]: it has its slots): one by the first call that
    may have to store something, then one by each [clone]. *)
Fixpoint map_count {K V} (full : bool) (ops : list (map_op K V)) : nat :=
  match ops with
  | [] => 0
  | (OpInsert _ _ | OpEntryDrop _ | OpEntryMatch _ _ _ | OpEntryOrInsert _ _ _) :: r =>
      (if full then 0 else 1) + map_count true r
  | OpClone _ :: r => (if full then 1 else 0) + map_count full r
  | _ :: r => map_count full r
  end%nat.
(** The same for a set of a type with more than 64 values. *)
Fixpoint set_count {T} (full : bool) (ops : list (set_op T)) : nat :=
  match ops with
  | [] => 0
  | SInsert _ :: r => (if full then 0 else 1) + set_count true r
  | SFromIter [] :: r => set_count false r
  | SFromIter (_ :: _) :: r => 1 + set_count true r
  | SClone :: r => (if full then 1 else 0) + set_count full r
  | (SContains _ | SIter _ | SDebug) :: r => set_count full r
  end%nat.
