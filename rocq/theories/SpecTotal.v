(** * SpecTotal: what construction and use of a total map should observe. *)
From Verif Require Import Base Spec SpecMap ModelOrdinal.

(** Calling the stateful fallible [f] on the elements of [l] in order, stopping at the first
    [Err] or panic: the final state of [f] and the results. *)
Fixpoint calls {St A B E} (f : St -> A -> St * res (result B E)) (l : list A) (st : St)
    : St * res (result (list B) E) :=
  match l with
  | [] => (st, Val (ResOk []))
  | a :: l' =>
      let '(st1, r) := f st a in
      match r with
      | Val (ResOk b) =>
          let '(st2, r2) := calls f l' st1 in
          (st2, x <- r2 ;; Val (match x with ResOk bs => ResOk (b :: bs) | ResErr e => ResErr e end))
      | Val (ResErr e) => (st1, Val (ResErr e))
      | Panic w => (st1, Panic w)
      | NoCompile => (st1, NoCompile)
      | UB => (st1, UB)
      | OutOfFuel => (st1, OutOfFuel)
      end
  end.

(** The same for an infallible [f]. *)
Fixpoint calls_ok {St A B} (f : St -> A -> St * res B) (l : list A) (st : St) : St * res (list B) :=
  match l with
  | [] => (st, Val [])
  | a :: l' =>
      let '(st1, r) := f st a in
      match r with
      | Val b => let '(st2, r2) := calls_ok f l' st1 in (st2, bs <- r2 ;; Val (b :: bs))
      | Panic w => (st1, Panic w)
      | NoCompile => (st1, NoCompile)
      | UB => (st1, UB)
      | OutOfFuel => (st1, OutOfFuel)
      end
  end.

(** [o], the outcome of building a map, is what the calls' results [r] say: the map
    whose lookup [get] gives each key its own result, or the same error or panic. *)
Definition constructed {M K V E} (get : M -> K -> res V) (ks : list K)
    (r : res (result (list V) E)) (o : res (result M E)) : Prop :=
  match r with
  | Val (ResOk vs) => exists m, o = Val (ResOk m) /\ Forall2 (fun k v => get m k = Val v) ks vs
  | Val (ResErr e) => o = Val (ResErr e)
  | Panic w => o = Panic w
  | NoCompile => o = NoCompile
  | UB => o = UB
  | OutOfFuel => o = OutOfFuel
  end.
Definition constructed_ok {M K V} (get : M -> K -> res V) (ks : list K)
    (r : res (list V)) (o : res M) : Prop :=
  match r with
  | Val vs => exists m, o = Val m /\ Forall2 (fun k v => get m k = Val v) ks vs
  | Panic w => o = Panic w
  | NoCompile => o = NoCompile
  | UB => o = UB
  | OutOfFuel => o = OutOfFuel
  end.

Inductive total_op (K V : Type) :=
| TGet (k : K)                           (* map.get(&k) *)
| TIndex (k : K)                         (* map[&k] *)
| TGetMut (k : K) (v : V)                (* read through get_mut(&k), then write v *)
| TIndexMut (k : K) (v : V)              (* read through &mut map[&k], then write v *)
| TInsert (k : K) (v : V)                (* map.insert(k, v) *)
| TLen
| TIsEmpty
| TIter_ (sched : list dir)              (* consume iter() per sched *)
| TIterMut_ (sched : list dir) (f : K -> V -> V)  (* consume iter_mut() per sched, then write f(k, v) *)
| TValuesMut_ (sched : list dir) (f : V -> V)
| TKeys_ (sched : list dir)
| TValues_ (sched : list dir)
| TClone_ (cl : V -> V)
| TDebug_.
Arguments TGet {K V} k.
Arguments TIndex {K V} k.
Arguments TLen {K V}.
Arguments TIsEmpty {K V}.
Arguments TIter_ {K V} sched.
Arguments TKeys_ {K V} sched.
Arguments TValues_ {K V} sched.
Arguments TDebug_ {K V}.

Inductive total_out (K V : Type) :=
| TOValue (v : V)
| TONum (n : N)
| TOBool (b : bool)
| TOUnit
| TOEntries (l : list (option (K * V)))
| TOKeys (l : list (option K))
| TOValues (l : list (option V))
| TOList (l : list (K * V)).
Arguments TOValue {K V} v.
Arguments TONum {K V} n.
Arguments TOBool {K V} b.
Arguments TOUnit {K V}.
Arguments TOEntries {K V} l.
Arguments TOKeys {K V} l.
Arguments TOValues {K V} l.
Arguments TOList {K V} l.

Section TotalSpec.
  Context {K V : Type} (eqd : forall a b : K, {a = b} + {a <> b}) (ks : list K).

  (** [m] with [f] applied to the values of the keys in [l]. *)
  Definition tm_update (m : tmap K V) (l : list K) (f : K -> V -> V) : tmap K V :=
    fun k => if in_dec eqd k l then f k (m k) else m k.

  Definition total_step (op : total_op K V) (m : tmap K V) : total_out K V * tmap K V :=
    match op with
    | TGet k => (TOValue (m k), m)
    | TIndex k => (TOValue (m k), m)
    | TGetMut k v => (TOValue (m k), tm_set eqd m k v)
    | TIndexMut k v => (TOValue (m k), tm_set eqd m k v)
    | TInsert k v => (TOValue (m k), tm_set eqd m k v)
    | TLen => (TONum (llen ks), m)
    | TIsEmpty => (TOBool (match ks with [] => true | _ => false end), m)
    | TIter_ sched => (TOEntries (fst (deque_run sched (tm_entries ks m))), m)
    | TIterMut_ sched f =>
        let got := fst (deque_run sched (tm_entries ks m)) in
        (TOEntries got, tm_update m (map fst (somes got)) f)
    | TValuesMut_ sched f =>
        let got := fst (deque_run sched (tm_entries ks m)) in
        (TOValues (map (opt_map snd) got), tm_update m (map fst (somes got)) (fun _ => f))
    | TKeys_ sched => (TOKeys (fst (deque_run sched ks)), m)
    | TValues_ sched => (TOValues (fst (deque_run sched (map m ks))), m)
    | TClone_ cl => (TOUnit, fun k => cl (m k))
    | TDebug_ => (TOList (tm_entries ks m), m)
    end.

  Fixpoint total_run (ops : list (total_op K V)) (m : tmap K V) : list (total_out K V) * tmap K V :=
    match ops with
    | [] => ([], m)
    | op :: ops' =>
        let '(o, m') := total_step op m in
        let '(os, m'') := total_run ops' m' in
        (o :: os, m'')
    end.
End TotalSpec.
