(** * ModelOverride: the callers of [K::all_values()] when the impl of [Ordinal] overrides it.

    [all_values] (ordinal/traits.rs:101-103) is a provided method, so an impl may define its own. It has to
    return an [OrdinalValues<Self>], that is a range of ordinals, or panic. [all_values] is what one call
    returned; nothing ties two calls together, so each function takes its own. The functions of the crate
    that do not call [all_values] are unaffected and not repeated. *)
From Verif Require Import Base Spec ModelOrdinal ModelValues ModelArrayBuilder ModelIter ModelTotal ModelMap
  ModelSet.

Section Override.
  Context {cfg : Config} {K : Type} (O : Ordinal K) (all_values : res OrdinalValues).

  (** ** map/total/map.rs *)
  Section TotalMap.
    Context {V : Type}.

    (** map/total/map.rs:27-36. [Vec::with_capacity(K::ORDINAL_SIZE)] comes first. *)
    Definition OrdinalTotalMap_try_new_with {E St} (init : St -> K -> St * res (result V E)) (st : St)
        : St * res (result (@OrdinalTotalMap V) E) :=
      match ORDINAL_SIZE O ;;; all_values with
      | Val it => OrdinalTotalMap_try_new_loop O init (S (N.to_nat (range_len it))) [] it st
      | Panic w => (st, Panic w)
      | NoCompile => (st, NoCompile)
      | UB => (st, UB)
      | OutOfFuel => (st, OutOfFuel)
      end.
    (** map/total/map.rs:39-44 *)
    Definition OrdinalTotalMap_new_with {St} (init : St -> K -> St * res V) (st : St)
        : St * res (@OrdinalTotalMap V) :=
      let '(st', r) := OrdinalTotalMap_try_new_with (infallible_init init) st in
      (st', m <- r ;; Val (into_ok m)).
    (** map/total/map.rs:69-71, 74-76 *)
    Definition OrdinalTotalMap_keys_with (m : @OrdinalTotalMap V) : res OrdinalValues := all_values.
    Definition OrdinalTotalMap_into_keys_with (m : @OrdinalTotalMap V) : res OrdinalValues := all_values.
    (** map/total/map.rs:112-116 *)
    Definition OrdinalTotalMap_default_with (default : V) : res (@OrdinalTotalMap V) :=
      snd (OrdinalTotalMap_new_with (fun st _ => (st, Val default)) tt).
  End TotalMap.

  (** ** map/total/array_map.rs *)
  Section TotalArrayMap.
    Context (S : nat).

    Section Ops.
      Context {V : Type}.
      (** map/total/array_map.rs:51-61. A longer range never gets past [S + 2] turns: the push number
          [S + 1] panics. *)
      Definition OrdinalTotalArrayMap_try_new_with {E St} (init : St -> K -> St * res (result V E)) (st : St)
          : St * owned (result (OrdinalTotalArrayMap S V) E) V :=
        match ASSERT O S ;;; all_values with
        | Val it => fill S (values_next O) init (S + 2) (builder_new S) it st
        | Panic w => (st, {| returned := Panic w; dropped := [] |})
        | NoCompile => (st, {| returned := NoCompile; dropped := [] |})
        | UB => (st, {| returned := UB; dropped := [] |})
        | OutOfFuel => (st, {| returned := OutOfFuel; dropped := [] |})
        end.
      (** map/total/array_map.rs:64-70; [ASSERT] is a constant, [try_new] evaluates it. *)
      Definition OrdinalTotalArrayMap_new_with {St} (init : St -> K -> St * res V) (st : St)
          : St * owned (OrdinalTotalArrayMap S V) V :=
        let '(st', r) := OrdinalTotalArrayMap_try_new_with (infallible_init init) st in
        (st', {| returned := m <- returned r ;; Val (into_ok m); dropped := dropped r |}).
      (** map/total/array_map.rs:146-156 *)
      Definition OrdinalTotalArrayMap_keys_with (m : OrdinalTotalArrayMap S V) : res OrdinalValues :=
        all_values.
      Definition OrdinalTotalArrayMap_into_keys_with (m : OrdinalTotalArrayMap S V) : res OrdinalValues :=
        OrdinalTotalArrayMap_keys_with m.
      (** map/total/array_map.rs:213-217 *)
      Definition OrdinalTotalArrayMap_default_with (default : V) : res (OrdinalTotalArrayMap S V) :=
        returned (snd (OrdinalTotalArrayMap_new_with (fun st _ => (st, Val default)) tt)).
    End Ops.
    (** map/total/array_map.rs:102-104 *)
    Definition OrdinalTotalArrayMap_as_ref_with {V} (m : OrdinalTotalArrayMap S V)
        : res (OrdinalTotalArrayMap S N) :=
      returned (snd (OrdinalTotalArrayMap_new_with
        (fun st k => (st, i <- ordinal O k ;; index_slot (arr_list m) i)) tt)).

    (** ** map/array_map.rs:46-50, 159-164, 166-174 *)
    Definition OrdinalArrayMap_new_with (V : Type) : res (OrdinalTotalArrayMap S (option V)) :=
      returned (snd (OrdinalTotalArrayMap_new_with (fun st _ => (st, Val (@None V))) tt)).
    Definition OrdinalArrayMap_default_with (V : Type) : res (OrdinalTotalArrayMap S (option V)) :=
      OrdinalArrayMap_new_with V.
    Definition OrdinalArrayMap_from_iter_with {V} (l : list (K * V)) : res (OrdinalTotalArrayMap S (option V)) :=
      m <- OrdinalArrayMap_new_with V ;; OrdinalArrayMap_from_iter_loop O l m.
  End TotalArrayMap.

  (** ** Sets *)

  (** set/iter.rs:13-21 *)
  Definition SetIter_new_with (set : OrdinalSetRef) : res SetIter :=
    it <- all_values ;; Val {| si_iter := it; si_set := set |}.
  (** set/set_ref.rs:16-18, 47-51 *)
  Definition OrdinalSetRef_iter_with (r : OrdinalSetRef) : res SetIter := SetIter_new_with r.
  Definition OrdinalSetRef_debug_with (r : OrdinalSetRef) : res (list K) :=
    it <- OrdinalSetRef_iter_with (OrdinalSetRef_clone r) ;;
    '(l, _) <- collect (SetIter_step O Front) (S (N.to_nat (range_len (si_iter it)))) it ;;
    Val l.
  (** set/set.rs:84-86, 114-118 *)
  Definition OrdinalSet_iter_with (s : OrdinalSet) : res SetIter :=
    r <- OrdinalSet_as_ref O s ;; OrdinalSetRef_iter_with r.
  Definition OrdinalSet_debug_with (s : OrdinalSet) : res (list K) :=
    r <- OrdinalSet_as_ref O s ;; OrdinalSetRef_debug_with r.
  (** set/array.rs:105-109 *)
  Definition OrdinalArraySet_debug_with {S : nat} (s : OrdinalArraySet S) : res (list K) :=
    r <- OrdinalArraySet_as_ref O s ;; OrdinalSetRef_debug_with r.
  (** set/set64.rs:160-164 *)
  Definition OrdinalSet64_debug_with (s : OrdinalSet64) : res (list K) :=
    r <- OrdinalSet64_as_ref O s ;; OrdinalSetRef_debug_with r.
End Override.
