(** * SpecApi: what it means for references, entries and drains to be correct, in terms of
    the lookup function of the map. *)
From Verif Require Import Base Spec SpecMap SpecIter ModelValues ModelIter ModelArrayBuilder ModelTotal ModelMap.

Section Api.
  Context {cfg : Config} {K V : Type} (O : Ordinal K) (eqd : forall a b : K, {a = b} + {a <> b}).

  (** The pair [(k, slot)] handed out for the entry [(k, v)]: the slot is [k]'s own and
      holds [v]. *)
  Definition ref_to (storage : list (option V)) (ki : K * N) (kv : K * V) : Prop :=
    fst ki = fst kv /\ ordinal O (fst ki) = Val (snd ki) /\ deref storage (snd ki) = Val (Some (snd kv)).
  (** The slot handed out for the entry [(k, v)]. *)
  Definition value_ref (storage : list (option V)) (i : N) (kv : K * V) : Prop :=
    ordinal O (fst kv) = Val i /\ deref storage i = Val (Some (snd kv)).
  (** The same in a total map. *)
  Definition tref_to (storage : list V) (ki : K * N) (kv : K * V) : Prop :=
    fst ki = fst kv /\ ordinal O (fst ki) = Val (snd ki) /\ deref storage (snd ki) = Val (snd kv).
  Definition tvalue_ref (storage : list V) (i : N) (kv : K * V) : Prop :=
    ordinal O (fst kv) = Val i /\ deref storage i = Val (snd kv).

  (** Two lookups agree except that [k] has [o]. *)
  Definition updated (get get' : K -> res (option V)) (k : K) (o : option V) : Prop :=
    forall k', get' k' = if eqd k k' then Val o else get k'.

  (** [i] refers to the value of [k], currently [v], in [storage]: reading gives [v], and a
      write changes [k] and nothing else. *)
  Definition refers (get : list (option V) -> K -> res (option V)) (storage : list (option V))
      (i : N) (k : K) (v : V) : Prop :=
    deref storage i = Val (Some v) /\
    forall w, exists storage', write_some storage i w = Val storage' /\
      updated (get storage) (get storage') k (Some w).

  (** [e] is the entry of [k] in [storage]. *)
  Definition entry_ok (get : list (option V) -> K -> res (option V)) (storage : list (option V))
      (k : K) (e : Entry K) : Prop :=
    Entry_key e = k /\
    (forall v, get storage k = Val (Some v) ->
       exists oe, e = Occupied oe /\ OccupiedEntry_key oe = k /\
         OccupiedEntry_get storage oe = Val v /\
         (exists i, OccupiedEntry_get_mut storage oe = Val i /\ refers get storage i k v) /\
         (forall w, exists i, Entry_or_insert storage e w = Val (i, storage) /\ refers get storage i k v)) /\
    (get storage k = Val None ->
       exists ve, e = Vacant ve /\ VacantEntry_key ve = k /\
         (forall w, exists storage', VacantEntry_insert storage ve w = Val storage' /\
            updated (get storage) (get storage') k (Some w) /\
            exists i, Entry_or_insert storage e w = Val (i, storage') /\ refers get storage' i k w)).

  (** Outcome of a partly consumed drain with the entries [rest] left: dropping it empties
      the map (and drops exactly [rest]); leaking it removes exactly what was consumed. *)
  Definition drain_ok (get : list (option V) -> K -> res (option V)) (storage : list (option V))
      (d : @Drain V) (rest : list (K * V)) : Prop :=
    (exists storage', Drain_drop O d = Val (storage', rest) /\ forall k, get storage' k = Val None) /\
    (forall k, get (fst d) k = if in_dec eqd k (map fst rest) then get storage k else Val None).

  (** [st] holds the pairs of [l], later ones overriding earlier ones. *)
  Definition built_from (get : K -> res (option V)) (l : list (K * V)) : Prop :=
    (forall k v, get k = Val (Some v) <-> exists l1 l2, l = l1 ++ (k, v) :: l2 /\ ~ In k (map fst l2)) /\
    (forall k, get k = Val None <-> ~ In k (map fst l)).
End Api.

(** Lookup in the storage of an array map. *)
Definition array_storage_get {cfg : Config} {K V} (O : Ordinal K) (S : nat) (storage : list (option V)) (k : K)
    : res (option V) :=
  a <- arr_back S storage ;; OrdinalArrayMap_get O a k.

(** Lookup in the storage of a total array map. *)
Definition total_storage_get {cfg : Config} {K V} (O : Ordinal K) (S : nat) (storage : list V) (k : K) : res V :=
  match try_arr S storage with Some a => OrdinalTotalArrayMap_get O a k | None => UB end.
