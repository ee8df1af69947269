(** * SpecMap: what client programs of a sparse map should observe.

    Operations, their observable results and their meaning on a mathematical partial map.
    [ks] lists the key type in ordinal order. Nothing here refers to the implementation. *)
From Verif Require Import Base Spec.

Inductive map_op (K V : Type) :=
| OpInsert (k : K) (v : V)                  (* map.insert(k, v) *)
| OpGet (k : K)                             (* map.get(&k) *)
| OpGetMut (k : K) (v : V)                  (* read through map.get_mut(&k), then write v *)
| OpContainsKey (k : K)                     (* map.contains_key(&k) *)
| OpRemove (k : K)                          (* map.remove(&k) *)
| OpLen                                     (* map.len() *)
| OpIsEmpty                                 (* map.is_empty() *)
| OpClear                                   (* map.clear() *)
| OpDrain (sched : list dir) (leak : bool)  (* consume a drain() per sched, then drop or forget it *)
| OpIter (sched : list dir)                 (* consume iter() per sched *)
| OpKeys (sched : list dir)
| OpValues (sched : list dir)
| OpIterMut (sched : list dir) (f : K -> V -> V)  (* consume iter_mut() per sched, then write f(k, v) *)
| OpValuesMut (sched : list dir) (f : V -> V)
| OpEntryDrop (k : K)                       (* is map.entry(k) occupied? *)
| OpEntryMatch (k : K) (v w : V)            (* Occupied: read, then write w; Vacant: insert v *)
| OpEntryOrInsert (k : K) (v w : V)         (* read through entry(k).or_insert(v), then write w *)
| OpRetain (f : K -> V -> V * bool)         (* retain, the closure leaving fst behind *)
| OpClone (cl : V -> V)                     (* map = map.clone() *)
| OpDebug.                                  (* the entries printed by {:?} *)
Arguments OpLen {K V}.
Arguments OpIsEmpty {K V}.
Arguments OpClear {K V}.
Arguments OpContainsKey {K V} k.
Arguments OpGet {K V} k.
Arguments OpRemove {K V} k.
Arguments OpDrain {K V} sched leak.
Arguments OpIter {K V} sched.
Arguments OpKeys {K V} sched.
Arguments OpValues {K V} sched.
Arguments OpEntryDrop {K V} k.
Arguments OpDebug {K V}.

Inductive map_out (K V : Type) :=
| OutValue (o : option V)
| OutNum (n : N)
| OutBool (b : bool)
| OutUnit
| OutEntries (l : list (option (K * V)))
| OutKeys (l : list (option K))
| OutValues (l : list (option V))
| OutEntry (k : K) (o : option V)
| OutList (l : list (K * V)).
Arguments OutValue {K V} o.
Arguments OutNum {K V} n.
Arguments OutBool {K V} b.
Arguments OutUnit {K V}.
Arguments OutEntries {K V} l.
Arguments OutKeys {K V} l.
Arguments OutValues {K V} l.
Arguments OutEntry {K V} k o.
Arguments OutList {K V} l.

Definition somes {A} (l : list (option A)) : list A :=
  flat_map (fun o => match o with Some a => [a] | None => [] end) l.

Section MapSpec.
  Context {K V : Type} (eqd : forall a b : K, {a = b} + {a <> b}) (ks : list K).

  (** Membership of a key. *)
  Definition mem (k : K) (l : list K) : bool := if in_dec eqd k l then true else false.

  (** [m] restricted to the keys in [l]. *)
  Definition pm_restrict (m : pmap K V) (l : list K) : pmap K V :=
    fun k => if mem k l then m k else None.

  (** [m] with [f] applied to the values of the keys in [l]. *)
  Definition pm_update (m : pmap K V) (l : list K) (f : K -> V -> V) : pmap K V :=
    fun k => if mem k l then opt_map (f k) (m k) else m k.

  Definition present (m : pmap K V) (k : K) : bool :=
    match m k with Some _ => true | None => false end.

  (** [retain] with a stateful predicate: [f st k v] returns its new state, the value it
      leaves behind and its verdict (or panics). Called on [l] in order. *)
  Fixpoint retain_calls {St} (f : St -> K -> V -> St * V * res bool) (l : list (K * V))
      (m : pmap K V) (st : St) : St * pmap K V * res unit :=
    match l with
    | [] => (st, m, Val tt)
    | (k, v) :: l' =>
        let '(st', v', r) := f st k v in
        match r with
        | Val true => retain_calls f l' (pm_set eqd m k (Some v')) st'
        | Val false => retain_calls f l' (pm_set eqd m k None) st'
        | Panic w => (st', pm_set eqd m k (Some v'), Panic w)
        | NoCompile => (st', pm_set eqd m k (Some v'), NoCompile)
        | UB => (st', pm_set eqd m k (Some v'), UB)
        | OutOfFuel => (st', pm_set eqd m k (Some v'), OutOfFuel)
        end
    end.

  Definition spec_step (op : map_op K V) (m : pmap K V) : map_out K V * pmap K V :=
    let es := pm_entries ks m in
    match op with
    | OpInsert k v => (OutValue (m k), pm_set eqd m k (Some v))
    | OpGet k => (OutValue (m k), m)
    | OpGetMut k v => (OutValue (m k), if present m k then pm_set eqd m k (Some v) else m)
    | OpContainsKey k => (OutBool (present m k), m)
    | OpRemove k => (OutValue (m k), pm_set eqd m k None)
    | OpLen => (OutNum (llen es), m)
    | OpIsEmpty => (OutBool (llen es =? 0), m)
    | OpClear => (OutUnit, pm_empty)
    | OpDrain sched leak =>
        let '(got, rest) := deque_run sched es in
        (OutEntries got, if leak then pm_restrict m (map fst rest) else pm_empty)
    | OpIter sched => (OutEntries (fst (deque_run sched es)), m)
    | OpKeys sched => (OutKeys (fst (deque_run sched (map fst es))), m)
    | OpValues sched => (OutValues (fst (deque_run sched (map snd es))), m)
    | OpIterMut sched f =>
        let got := fst (deque_run sched es) in
        (OutEntries got, pm_update m (map fst (somes got)) f)
    | OpValuesMut sched f =>
        let got := fst (deque_run sched es) in
        (OutValues (map (opt_map snd) got), pm_update m (map fst (somes got)) (fun _ => f))
    | OpEntryDrop k => (OutBool (present m k), m)
    | OpEntryMatch k v w =>
        (OutEntry k (m k), pm_set eqd m k (Some (if present m k then w else v)))
    | OpEntryOrInsert k v w =>
        (OutValue (Some (match m k with Some old => old | None => v end)), pm_set eqd m k (Some w))
    | OpRetain f =>
        (OutUnit, fun k => match m k with
                           | Some v => let '(v', keep) := f k v in if keep then Some v' else None
                           | None => None
                           end)
    | OpClone cl => (OutUnit, fun k => opt_map cl (m k))
    | OpDebug => (OutList es, m)
    end.

  Fixpoint spec_run (ops : list (map_op K V)) (m : pmap K V) : list (map_out K V) * pmap K V :=
    match ops with
    | [] => ([], m)
    | op :: ops' =>
        let '(o, m') := spec_step op m in
        let '(os, m'') := spec_run ops' m' in
        (o :: os, m'')
    end.
End MapSpec.

(** Mutable iteration with writes in between. *)
Inductive mut_event (V : Type) :=
| EStep (d : dir)              (* one call of next / next_back *)
| EWrite (j : nat) (v : V).    (* write v through the j-th reference obtained so far, if any *)
Arguments EStep {V} d.
Arguments EWrite {V} j v.

(** [rest]: keys still to come, [handed]: keys whose reference was handed out, [m]: the
    contents; [inj] turns a written value into a content. Returns the keys handed out by
    the calls and the final contents. *)
Fixpoint mut_spec {K V X} (eqd : forall a b : K, {a = b} + {a <> b}) (inj : V -> X)
    (evs : list (mut_event V)) (rest handed : list K) (m : K -> X) : list (option K) * (K -> X) :=
  match evs with
  | [] => ([], m)
  | EStep d :: evs' =>
      let '(o, rest') := deque_step d rest in
      let '(os, m') := mut_spec eqd inj evs' rest' (handed ++ somes [o]) m in
      (o :: os, m')
  | EWrite j v :: evs' =>
      mut_spec eqd inj evs' rest handed
        (match nth_error handed j with Some k => tm_set eqd m k (inj v) | None => m end)
  end.

(** Operations that may allocate storage in a heap map. *)
Definition allocates {K V} (op : map_op K V) : bool :=
  match op with
  | OpInsert _ _ | OpEntryDrop _ | OpEntryMatch _ _ _ | OpEntryOrInsert _ _ _ => true
  | _ => false
  end.

(** Operations OrdinalMap has. *)
Definition has_heap {K V} (op : map_op K V) : bool :=
  match op with OpRetain _ => false | _ => true end.
Definition not_contains_key {K V} (op : map_op K V) : bool :=
  match op with OpContainsKey _ => false | _ => true end.
