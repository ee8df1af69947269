(** * SpecDrop: what happens when destructors or iterators of the caller panic. *)
From Verif Require Import Base Spec SpecMap SpecIter ModelIter ModelDrop.

(** A call that did not return normally. *)
Definition failed {A} (r : res A) : Prop := forall a, r <> Val a.

(** [drops drop st l st' left r]: starting in state [st], the destructors of [l] are run in
    order until one fails; then [left] are the elements whose destructor was never started,
    [st'] is the final state and [r] how it ended. *)
Inductive drops {St A : Type} (drop : St -> A -> St * res unit) : St -> list A -> St -> list A -> res unit -> Prop :=
| drops_end : forall st, drops drop st [] st [] (Val tt)
| drops_next : forall st st1 st' x l left r,
    drop st x = (st1, Val tt) -> drops drop st1 l st' left r -> drops drop st (x :: l) st' left r
| drops_fail : forall st st' x l r,
    drop st x = (st', r) -> failed r -> drops drop st (x :: l) st' l r.

(** Dropping the drain [d], which has [rest] left, runs the destructors of [rest] in order until
    one fails, and the map then holds exactly the entries not reached. *)
Definition drain_drops {cfg : Config} {K V : Type} (O : Ordinal K) (get : list (option V) -> K -> res (option V))
    (d : @Drain V) (rest : list (K * V)) : Prop :=
  forall (St : Type) (drop : St -> K * V -> St * res unit) (st : St),
  exists st' storage left r, Drain_drop_with O drop d st = (st', storage, r) /\
    drops drop st rest st' left r /\ lists_entries O (get storage) left.

(** [retains f drop st l st' out r]: the closure [f] decides about the entries [l] in order;
    it may change the value of the entry and it may fail. An entry it rejects is dropped.
    [out] are the entries left in the map. *)
Inductive retains {St K V : Type} (f : St -> K -> V -> St * V * res bool) (drop : St -> K * V -> St * res unit)
    : St -> list (K * V) -> St -> list (K * V) -> res unit -> Prop :=
| retains_end : forall st, retains f drop st [] st [] (Val tt)
| retains_keep : forall st st1 st' k v v' l out r,
    f st k v = (st1, v', Val true) -> retains f drop st1 l st' out r ->
    retains f drop st ((k, v) :: l) st' ((k, v') :: out) r
| retains_drop : forall st st1 st2 st' k v v' l out r,
    f st k v = (st1, v', Val false) -> drop st1 (k, v') = (st2, Val tt) -> retains f drop st2 l st' out r ->
    retains f drop st ((k, v) :: l) st' out r
| retains_drop_fails : forall st st1 st' k v v' l r,
    f st k v = (st1, v', Val false) -> drop st1 (k, v') = (st', r) -> failed r ->
    retains f drop st ((k, v) :: l) st' l r
| retains_f_panics : forall st st' k v v' l w,
    f st k v = (st', v', Panic w) -> retains f drop st ((k, v) :: l) st' ((k, v') :: l) (Panic w).

(** [builds next put old drop m st m' st' r]: items are taken from the iterator [next] until it
    returns [None] for the first time. [put] is the effect of an item on the collection, and
    what it replaces ([old]) is dropped at once. Ends early when the iterator or a destructor
    fails. *)
Inductive builds {St M A D : Type} (next : St -> St * res (option A)) (put : M -> A -> M)
    (old : M -> A -> option D) (drop : St -> D -> St * res unit) : M -> St -> M -> St -> res unit -> Prop :=
| builds_end : forall m st st', next st = (st', Val None) -> builds next put old drop m st m st' (Val tt)
| builds_panic : forall m st st' w, next st = (st', Panic w) -> builds next put old drop m st m st' (Panic w)
| builds_new : forall m st st1 x m' st' r,
    next st = (st1, Val (Some x)) -> old m x = None ->
    builds next put old drop (put m x) st1 m' st' r -> builds next put old drop m st m' st' r
| builds_replace : forall m st st1 st2 x d m' st' r,
    next st = (st1, Val (Some x)) -> old m x = Some d -> drop st1 d = (st2, Val tt) ->
    builds next put old drop (put m x) st2 m' st' r -> builds next put old drop m st m' st' r
| builds_drop_panics : forall m st st1 x d st' w,
    next st = (st1, Val (Some x)) -> old m x = Some d -> drop st1 d = (st', Panic w) ->
    builds next put old drop m st (put m x) st' (Panic w).

(** The two instances: a map keeps the last value of each key, a set replaces nothing. *)
Section Instances.
  Context {K V St : Type} (eqd : forall a b : K, {a = b} + {a <> b}).
  Definition builds_map (next : St -> St * res (option (K * V))) (drop : St -> K * V -> St * res unit)
      : St -> (K -> option V) -> St -> res unit -> Prop :=
    builds next (fun m kv k => if eqd (fst kv) k then Some (snd kv) else m k)
      (fun m kv => match m (fst kv) with Some v => Some (fst kv, v) | None => None end) drop (fun _ => None).
  Definition builds_set (next : St -> St * res (option K)) : St -> (K -> bool) -> St -> res unit -> Prop :=
    builds next (fun m t k => if eqd t k then true else m k) (fun _ _ => None)
      (fun st (_ : unit) => (st, Val tt)) (fun _ => false).
End Instances.

(** [run fuel] computes, with a bound on the number of loop turns, exactly the outcomes in
    [spec]; [shows] relates the collection to its contents. *)
Definition computes {St C M : Type} (run : nat -> res (St * C * res unit)) (shows : C -> M -> Prop)
    (spec : M -> St -> res unit -> Prop) : Prop :=
  (forall m st' r, spec m st' r ->
     exists turns, forall fuel, (turns <= fuel)%nat -> exists c, run fuel = Val (st', c, r) /\ shows c m) /\
  (forall fuel, exists st' c r, run fuel = Val (st', c, r) /\
     (r = OutOfFuel \/ exists m, spec m st' r /\ shows c m)).
