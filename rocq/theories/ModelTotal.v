(** * ModelTotal: map/total/map.rs and map/total/array_map.rs.

    [Box<[V]>] and [[V; S]] are lists of values in slot order; a reference to a value is
    the number of its slot. Allocation is assumed to succeed. *)
From Verif Require Import Base Spec ModelOrdinal ModelValues ModelArrayBuilder ModelIter.

(** Slot number of [&mut slice[i]], bounds checked. *)
Definition index_slot {A} (l : list A) (i : N) : res N := index l i ;;; Val i.

Lemma list_set_eqb {A} (l : list A) (i : nat) (a : A) (S : nat) :
  Nat.eqb (length l) S = true -> Nat.eqb (length (list_set l i a)) S = true.
Proof.
  revert i S; induction l as [|x l IH]; intros [|i] S H; cbn in *; auto.
  destruct S; cbn in *; auto.
Qed.

(** Writing through [&mut array[i]]. *)
Definition arr_store {A S} (a : arr A S) (i : N) (v : A) : arr A S :=
  mk_arr S (store_at (arr_list a) i v) (list_set_eqb (arr_list a) (N.to_nat i) v S (arr_ok a)).

Lemma map_eqb {A B} (f : A -> B) (l : list A) (S : nat) :
  Nat.eqb (length l) S = true -> Nat.eqb (length (map f l)) S = true.
Proof. now rewrite map_length. Qed.

(** [<[V; S]>::clone]. *)
Definition arr_clone {A S} (cl : A -> A) (a : arr A S) : arr A S :=
  mk_arr S (map cl (arr_list a)) (map_eqb cl (arr_list a) S (arr_ok a)).

(** The closure [move |k| Ok::<_, Infallible>(init(k))] of map/total/map.rs:40 and
    map/total/array_map.rs:66. *)
Definition infallible_init {St K V} (init : St -> K -> St * res V)
    : St -> K -> St * res (result V Empty_set) :=
  fun st k => let '(st', r) := init st k in (st', v <- r ;; Val (ResOk v)).

(** [match r { Ok(map) => map, Err(infallible) => match infallible {} }]. *)
Definition into_ok {A} (r : result A Empty_set) : A :=
  match r with ResOk a => a | ResErr e => match e with end end.

Section TotalMap.
  Context {cfg : Config} {K V : Type} (O : Ordinal K).

  (** ** map/total/map.rs *)

  (** map/total/map.rs:20-23 *)
  Definition OrdinalTotalMap := list V.

  (** map/total/map.rs:29-31: the loop over [K::all_values()] pushing onto the Vec. *)
  Fixpoint OrdinalTotalMap_try_new_loop {E St} (init : St -> K -> St * res (result V E))
      (fuel : nat) (map : list V) (it : OrdinalValues) (st : St) : St * res (result (list V) E) :=
    match fuel with
    | 0%nat => (st, OutOfFuel)
    | S fuel' =>
        match values_next O it with
        | Val (None, _) => (st, Val (ResOk map))
        | Val (Some k, it') =>
            let '(st', r) := init st k in
            match r with
            | Val (ResOk v) => OrdinalTotalMap_try_new_loop init fuel' (map ++ [v]) it' st'
            | Val (ResErr e) => (st', Val (ResErr e))
            | Panic w => (st', Panic w)
            | NoCompile => (st', NoCompile)
            | UB => (st', UB)
            | OutOfFuel => (st', OutOfFuel)
            end
        | Panic w => (st, Panic w)
        | NoCompile => (st, NoCompile)
        | UB => (st, UB)
        | OutOfFuel => (st, OutOfFuel)
        end
    end.

  (** map/total/map.rs:27-36. [St] is the state of the FnMut callback. *)
  Definition OrdinalTotalMap_try_new {E St} (init : St -> K -> St * res (result V E)) (st : St)
      : St * res (result OrdinalTotalMap E) :=
    match values_new O with
    | Val it => OrdinalTotalMap_try_new_loop init (S (N.to_nat (range_len it))) [] it st
    | Panic w => (st, Panic w)
    | NoCompile => (st, NoCompile)
    | UB => (st, UB)
    | OutOfFuel => (st, OutOfFuel)
    end.

  (** map/total/map.rs:39-44 *)
  Definition OrdinalTotalMap_new {St} (init : St -> K -> St * res V) (st : St)
      : St * res OrdinalTotalMap :=
    let '(st', r) := OrdinalTotalMap_try_new (infallible_init init) st in
    (st', m <- r ;; Val (into_ok m)).

  (** map/total/map.rs:48-50 *)
  Definition OrdinalTotalMap_len (m : OrdinalTotalMap) : res N := ORDINAL_SIZE O.
  (** map/total/map.rs:54-56 *)
  Definition OrdinalTotalMap_is_empty (m : OrdinalTotalMap) : res bool :=
    n <- OrdinalTotalMap_len m ;; Val (n =? 0).
  (** map/total/map.rs:59-61 *)
  Definition OrdinalTotalMap_get (m : OrdinalTotalMap) (key : K) : res V :=
    i <- ordinal O key ;; index m i.
  (** map/total/map.rs:64-66: the slot referred to. *)
  Definition OrdinalTotalMap_get_mut (m : OrdinalTotalMap) (key : K) : res N :=
    i <- ordinal O key ;; index_slot m i.
  (** map/total/map.rs:121-123, 127-129 *)
  Definition OrdinalTotalMap_index (m : OrdinalTotalMap) (key : K) : res V :=
    OrdinalTotalMap_get m key.
  Definition OrdinalTotalMap_index_mut (m : OrdinalTotalMap) (key : K) : res N :=
    OrdinalTotalMap_get_mut m key.
  (** map/total/map.rs:69-71, 74-76 *)
  Definition OrdinalTotalMap_keys (m : OrdinalTotalMap) : res OrdinalValues := values_new O.
  Definition OrdinalTotalMap_into_keys (m : OrdinalTotalMap) : res OrdinalValues := values_new O.
  (** map/total/map.rs:79-81, 84-86, 89-92: std iterators over the slice / the Vec. *)
  Definition OrdinalTotalMap_values (m : OrdinalTotalMap) : list V := m.
  Definition OrdinalTotalMap_values_mut (m : OrdinalTotalMap) : list N := slots (length m).
  Definition OrdinalTotalMap_into_values (m : OrdinalTotalMap) : list V := m.
  (** map/total/map.rs:95-97, 101-103 *)
  Definition OrdinalTotalMap_iter (m : OrdinalTotalMap) : @TIter V := TIter_new m 0.
  Definition OrdinalTotalMap_iter_mut (m : OrdinalTotalMap) : TIterMut := TIterMut_new (slots (length m)).
  (** map/total/map.rs:107-109 *)
  Definition OrdinalTotalMap_insert (m : OrdinalTotalMap) (key : K) (value : V)
      : res (V * OrdinalTotalMap) :=
    i <- ordinal O key ;; old <- index m i ;; Val (old, store_at m i value).
  (** map/total/map.rs:112-116 *)
  Definition OrdinalTotalMap_default (default : V) : res OrdinalTotalMap :=
    snd (OrdinalTotalMap_new (fun st _ => (st, Val default)) tt).
  (** map/total/map.rs:132-139 *)
  Definition OrdinalTotalMap_clone (cl : V -> V) (m : OrdinalTotalMap) : OrdinalTotalMap := map cl m.
  (** map/total/map.rs:141-145: the entries passed to [debug_map]. *)
  Definition OrdinalTotalMap_debug (m : OrdinalTotalMap) : res (list (K * V)) :=
    '(l, _) <- collect (TIter_step O Front) (S (length m)) (OrdinalTotalMap_iter m) ;; Val l.
  (** map/total/map.rs:147-154, 156-163 *)
  Definition OrdinalTotalMap_into_iter (m : OrdinalTotalMap) : @TIntoIter V := TIntoIter_new m.
  Definition OrdinalTotalMap_ref_into_iter (m : OrdinalTotalMap) : @TIter V := OrdinalTotalMap_iter m.
End TotalMap.

Section TotalArrayMap.
  Context {cfg : Config} {K : Type} (O : Ordinal K) (S : nat).

  (** ** map/total/array_map.rs *)

  (** map/total/array_map.rs:39-43 *)
  Definition OrdinalTotalArrayMap (V : Type) := arr V S.

  (** map/total/array_map.rs:46-48 *)
  Definition ASSERT : res unit :=
    size <- ORDINAL_SIZE O ;; assert_const (size =? N.of_nat S).

  Section Ops.
    Context {V : Type}.

    (** map/total/array_map.rs:51-61. The loop bound [S + 2] is never reached: the push number [S + 1]
        panics (C49). *)
    Definition OrdinalTotalArrayMap_try_new {E St} (init : St -> K -> St * res (result V E)) (st : St)
        : St * owned (result (OrdinalTotalArrayMap V) E) V :=
      match ASSERT with
      | Val _ =>
          match values_new O with
          | Val it =>
              fill S (values_next O) init (S + 2) (builder_new S) it st
          | Panic w => (st, {| returned := Panic w; dropped := [] |})
          | NoCompile => (st, {| returned := NoCompile; dropped := [] |})
          | UB => (st, {| returned := UB; dropped := [] |})
          | OutOfFuel => (st, {| returned := OutOfFuel; dropped := [] |})
          end
      | Panic w => (st, {| returned := Panic w; dropped := [] |})
      | NoCompile => (st, {| returned := NoCompile; dropped := [] |})
      | UB => (st, {| returned := UB; dropped := [] |})
      | OutOfFuel => (st, {| returned := OutOfFuel; dropped := [] |})
      end.

    (** map/total/array_map.rs:64-70 *)
    Definition OrdinalTotalArrayMap_new {St} (init : St -> K -> St * res V) (st : St)
        : St * owned (OrdinalTotalArrayMap V) V :=
      match ASSERT with
      | Val _ =>
          let '(st', r) := OrdinalTotalArrayMap_try_new (infallible_init init) st in
          (st', {| returned := m <- returned r ;; Val (into_ok m); dropped := dropped r |})
      | Panic w => (st, {| returned := Panic w; dropped := [] |})
      | NoCompile => (st, {| returned := NoCompile; dropped := [] |})
      | UB => (st, {| returned := UB; dropped := [] |})
      | OutOfFuel => (st, {| returned := OutOfFuel; dropped := [] |})
      end.

    (** map/total/array_map.rs:73-78: no [ASSERT]. *)
    Definition OrdinalTotalArrayMap_from_array (array : arr V S) : res (OrdinalTotalArrayMap V) :=
      Val array.

    (** map/total/array_map.rs:82-84, 87-89 *)
    Definition OrdinalTotalArrayMap_len (m : OrdinalTotalArrayMap V) : N := N.of_nat S.
    Definition OrdinalTotalArrayMap_is_empty (m : OrdinalTotalArrayMap V) : bool :=
      OrdinalTotalArrayMap_len m =? 0.
    (** map/total/array_map.rs:92-94, 97-99, 193-195, 199-201 *)
    Definition OrdinalTotalArrayMap_get (m : OrdinalTotalArrayMap V) (key : K) : res V :=
      i <- ordinal O key ;; index (arr_list m) i.
    Definition OrdinalTotalArrayMap_get_mut (m : OrdinalTotalArrayMap V) (key : K) : res N :=
      i <- ordinal O key ;; index_slot (arr_list m) i.
    Definition OrdinalTotalArrayMap_index (m : OrdinalTotalArrayMap V) (key : K) : res V :=
      i <- ordinal O key ;; index (arr_list m) i.
    Definition OrdinalTotalArrayMap_index_mut (m : OrdinalTotalArrayMap V) (key : K) : res N :=
      i <- ordinal O key ;; index_slot (arr_list m) i.
    (** map/total/array_map.rs:136-138, 141-143 *)
    Definition OrdinalTotalArrayMap_iter (m : OrdinalTotalArrayMap V) : @TIter V :=
      TIter_new (arr_list m) 0.
    Definition OrdinalTotalArrayMap_iter_mut (m : OrdinalTotalArrayMap V) : TIterMut :=
      TIterMut_new (slots (length (arr_list m))).
    (** map/total/array_map.rs:146-156 *)
    Definition OrdinalTotalArrayMap_keys (m : OrdinalTotalArrayMap V) : res OrdinalValues := values_new O.
    Definition OrdinalTotalArrayMap_into_keys (m : OrdinalTotalArrayMap V) : res OrdinalValues :=
      OrdinalTotalArrayMap_keys m.
    (** map/total/array_map.rs:159-181 *)
    Definition OrdinalTotalArrayMap_values (m : OrdinalTotalArrayMap V) : list V := arr_list m.
    Definition OrdinalTotalArrayMap_values_array (m : OrdinalTotalArrayMap V) : arr V S := m.
    Definition OrdinalTotalArrayMap_values_mut (m : OrdinalTotalArrayMap V) : list N :=
      slots (length (arr_list m)).
    Definition OrdinalTotalArrayMap_values_array_mut (m : OrdinalTotalArrayMap V) : list N :=
      slots (length (arr_list m)).
    Definition OrdinalTotalArrayMap_into_values (m : OrdinalTotalArrayMap V) : arr V S := m.
    (** map/total/array_map.rs:185-187 *)
    Definition OrdinalTotalArrayMap_insert (m : OrdinalTotalArrayMap V) (key : K) (value : V)
        : res (V * OrdinalTotalArrayMap V) :=
      i <- ordinal O key ;; old <- index (arr_list m) i ;; Val (old, arr_store m i value).
    (** map/total/array_map.rs:204-211 *)
    Definition OrdinalTotalArrayMap_clone (cl : V -> V) (m : OrdinalTotalArrayMap V)
        : OrdinalTotalArrayMap V := arr_clone cl m.
    (** map/total/array_map.rs:213-217 *)
    Definition OrdinalTotalArrayMap_default (default : V) : res (OrdinalTotalArrayMap V) :=
      returned (snd (OrdinalTotalArrayMap_new (fun st _ => (st, Val default)) tt)).
    (** map/total/array_map.rs:219-223 *)
    Definition OrdinalTotalArrayMap_debug (m : OrdinalTotalArrayMap V) : res (list (K * V)) :=
      '(l, _) <- collect (TIter_step O Front) (Datatypes.S (length (arr_list m)))
                         (OrdinalTotalArrayMap_iter m) ;; Val l.
    (** map/total/array_map.rs:225-241 *)
    Definition OrdinalTotalArrayMap_into_iter (m : OrdinalTotalArrayMap V) : @TIntoIterArray V :=
      TIntoIterArray_new (arr_list m).
    Definition OrdinalTotalArrayMap_ref_into_iter (m : OrdinalTotalArrayMap V) : @TIter V :=
      OrdinalTotalArrayMap_iter m.
  End Ops.

  (** map/total/array_map.rs:102-104: the references are the slots [get] points into. *)
  Definition OrdinalTotalArrayMap_as_ref {V} (m : OrdinalTotalArrayMap V)
      : res (OrdinalTotalArrayMap N) :=
    returned (snd (OrdinalTotalArrayMap_new
      (fun st k => (st, i <- ordinal O k ;; index_slot (arr_list m) i)) tt)).

  (** map/total/array_map.rs:107-109 *)
  Definition OrdinalTotalArrayMap_as_mut {V} (m : OrdinalTotalArrayMap V)
      : res (OrdinalTotalArrayMap N) :=
    a <- array_as_mut m ;; OrdinalTotalArrayMap_from_array a.

  (** array_from_iter.rs:3-12 over an iterator [next] whose items are mapped by the
      stateful closure [f] ([Iterator::map]). *)
  Definition array_from_iter {It A T St} (next : It -> res (option A * It))
      (f : St -> A -> St * res T) (it : It) (st : St) : St * owned (arr T S) T :=
    let '(st', r) := fill S next (infallible_init f) (S + 2) (builder_new S) it st in
    (st', {| returned := a <- returned r ;; Val (into_ok a); dropped := dropped r |}).

  (** map/total/array_map.rs:112-120; [next] is the [next] of std's [Zip] of two array iterators. *)
  Definition OrdinalTotalArrayMap_zip {V W} (m : OrdinalTotalArrayMap V) (other : OrdinalTotalArrayMap W)
      : owned (OrdinalTotalArrayMap (V * W)) (V * W) :=
    snd (array_from_iter
           (fun it : list V * list W =>
              match it with
              | (v :: vs, w :: ws) => Val (Some (v, w), (vs, ws))
              | _ => Val (None, it)
              end)
           (fun st p => (st, Val p)) (arr_list m, arr_list other) tt).

  (** map/total/array_map.rs:123-128 *)
  Definition OrdinalTotalArrayMap_map {V W St} (f : St -> K -> V -> St * res W)
      (m : OrdinalTotalArrayMap V) (st : St) : St * owned (OrdinalTotalArrayMap W) W :=
    array_from_iter (TIntoIterArray_step O Front) (fun st '(k, v) => f st k v)
      (OrdinalTotalArrayMap_into_iter m) st.

  (** map/total/array_map.rs:131-133 *)
  Definition OrdinalTotalArrayMap_map_values {V W St} (f : St -> V -> St * res W)
      (m : OrdinalTotalArrayMap V) (st : St) : St * owned (OrdinalTotalArrayMap W) W :=
    OrdinalTotalArrayMap_map (fun st _ v => f st v) m st.
End TotalArrayMap.
