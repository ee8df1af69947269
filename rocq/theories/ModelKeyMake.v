(** * ModelKeyMake: who destroys keys, values and results when total maps are made and mapped, and
    callbacks and destructors panic.

    [T] is whatever has a destructor; [key], [val] and [made] are the keys, values and results as such
    (a result may have none). A callback is code that owns its arguments, has a state in [St] and
    changes the log; its own destructor and those of errors are taken to do nothing. *)
From Verif Require Import Base Spec SpecMap SpecCatch SpecResume SpecKeyMake ModelOrdinal ModelValues ModelArrayBuilder ModelIter ModelTotal ModelMap
  ModelDrop ModelResume ModelCatch ModelLife.
From Coq Require Import List. Import ListNotations.

(** A callback of SpecKeyMake.v as code. *)
Definition client {T St A} (x : calls (T := T) (St := St) A) : act (list T * St) A :=
  fun s => let '(s', e) := x s in
           (s', match e with Some (Seen a) => Ended a | Some (Caught p) => Unwinds p | None => Aborts end).

Section KeyMake.
  Context {T : Type} (boom : list T -> T -> option panic) (drops_result : bool).
  Context {K V W : Type} (key : K -> T) (val : V -> T) (made : W -> option T).
  Context {cfg : Config} (O : Ordinal K) (S : nat).
  Local Notation log := (list T).

  Definition thing (w : W) : list T := match made w with Some t => [t] | None => [] end.
  Definition things (ws : list W) : list T := flat_map thing ws.

  (** ** array_builder.rs *)
  Section Builder.
    Context {M : Type}.
    Definition element_destructor (lg : log) (w : W) : log * res unit :=
      match made w with Some t => destructor boom lg t | None => (lg, Val tt) end.
    (** array_builder.rs:14-22 *)
    Definition builder_end (b : builder W) : act (log * M) unit :=
      fun '(lg, m) => let '(lg', _, r) := builder_drop_with element_destructor b lg in ((lg', m), ending_of r).
    (** [x] while the builder is a local variable. *)
    Definition building {A} (b : builder W) (x : act (log * M) A) : act (log * M) A :=
      fun s => let '(s', e) := x s in
               match e with Unwinds p => unwinding p (builder_end b) s' | _ => (s', e) end.
    (** array_builder.rs:32-42: [value] is destroyed if the assertion fails. *)
    Definition push_owned (b : builder W) (w : W) : act (log * M) (builder W) :=
      owning boom (thing w) (look (fun _ => builder_push S b w)).
    (** array_builder.rs:44-58 *)
    Definition finish_owned (b : builder W) : act (log * M) (arr W S) :=
      if negb (Nat.eqb (b_filled b) S) then
        if Nat.leb (b_filled b) S then builder_end b ;;! fun s => (s, Unwinds PUnwrap)
        else unwinding PIndex (builder_end b)
      else fun s =>
        match all_init (b_cells b) with
        | None => (s, Stuck)
        | Some l => match try_arr S l with None => (s, Stuck) | Some a => (s, Ended a) end
        end.
  End Builder.

  (** ** array_from_iter.rs:3-12: [left] is what the iterator would destroy. *)
  Section FromIter.
    Context {It St : Type} (next : act (log * (It * St)) (option W)) (left : It -> list T).
    Definition holding {A} (x : act (log * (It * St)) A) : act (log * (It * St)) A :=
      fun s => let '(s', e) := x s in
               match e with Unwinds p => unwinding p (glue_unwinding boom (left (fst (snd s')))) s' | _ => (s', e) end.
    Fixpoint array_from_iter_owned (fuel : nat) (b : builder W) : act (log * (It * St)) (arr W S) :=
      match fuel with
      | 0%nat => fun s => (s, Stuck)
      | Datatypes.S fuel' =>
          r <! building b (holding next) ;;
          match r with
          | None => building b (fun s => glue boom (left (fst (snd s))) s) ;;! finish_owned b
          | Some w => b' <! building b (holding (push_owned b w)) ;; array_from_iter_owned fuel' b'
          end
      end.
  End FromIter.

  Section Callbacks.
    Context {St : Type}.
    Definition on_iter {It A} (x : act (log * It) A) : act (log * (It * St)) A :=
      fun '(lg, (it, st)) => let '((lg', it'), e) := x (lg, it) in ((lg', (it', st)), e).
    Definition on_client {It A} (x : act (log * St) A) : act (log * (It * St)) A :=
      fun '(lg, (it, st)) => let '((lg', st'), e) := x (lg, st) in ((lg', (it, st')), e).
    (** [Iterator::map] over map/total/iter.rs:138-140 *)
    Definition map_next (f : K -> V -> act (log * St) W) : act (log * (enumerate V * St)) (option W) :=
      r <! on_iter (owned_step boom O (map val) Front) ;;
      match r with
      | None => ret None
      | Some (k, v) => w <! on_client (f k v) ;; ret (Some w)
      end.
    (** map/total/array_map.rs:123-128 *)
    Definition atotal_map_owned (f : K -> V -> act (log * St) W) (m : OrdinalTotalArrayMap S V) : act (log * St) (OrdinalTotalArrayMap S W) :=
      fun '(lg, st) =>
        let '((lg', (_, st')), e) :=
          array_from_iter_owned (map_next f) (fun it => map val (e_items it)) (S + 2) (builder_new S)
            (lg, (OrdinalTotalArrayMap_into_iter m, st)) in
        ((lg', st'), e).
    (** A closure that owns the key and destroys it on return. *)
    Definition closure_with_key (k : K) (x : act (log * St) W) : act (log * St) W :=
      w <! owning boom [key k] x ;;
      owning boom (if drops_result then thing w else []) (destroy boom (key k)) ;;!
      ret w.
    (** map/total/array_map.rs:131-133 *)
    Definition atotal_map_values_owned (f : V -> act (log * St) W) (m : OrdinalTotalArrayMap S V) : act (log * St) (OrdinalTotalArrayMap S W) :=
      atotal_map_owned (fun k v => closure_with_key k (f v)) m.

    (** map/total/map.rs:27-36 *)
    Fixpoint htotal_try_new_loop_owned {E} (init : K -> act (log * St) (result W E)) (fuel : nat) (map : list W) (it : OrdinalValues)
        : act (log * St) (result (@OrdinalTotalMap W) E) :=
      match fuel with
      | 0%nat => fun s => (s, Stuck)
      | Datatypes.S fuel' =>
          '(o, it') <! owning boom (things map) (look (fun _ => values_next O it)) ;;
          match o with
          | None => ret (ResOk map)
          | Some k =>
              r <! owning boom (things map) (init k) ;;
              match r with
              | ResOk w => htotal_try_new_loop_owned init fuel' (map ++ [w]) it'
              | ResErr e => glue boom (things map) ;;! ret (ResErr e)
              end
          end
      end.
    Definition htotal_try_new_owned {E} (init : K -> act (log * St) (result W E)) : act (log * St) (result (@OrdinalTotalMap W) E) :=
      it <! look (fun _ => values_new O) ;;
      htotal_try_new_loop_owned init (Datatypes.S (N.to_nat (range_len it))) [] it.
    (** map/total/array_map.rs:51-61 *)
    Fixpoint fill_owned {E} (init : K -> act (log * St) (result W E)) (fuel : nat) (b : builder W) (it : OrdinalValues)
        : act (log * St) (result (OrdinalTotalArrayMap S W) E) :=
      match fuel with
      | 0%nat => fun s => (s, Stuck)
      | Datatypes.S fuel' =>
          '(o, it') <! building b (look (fun _ => values_next O it)) ;;
          match o with
          | None => a <! finish_owned b ;; ret (ResOk a)
          | Some k =>
              r <! building b (init k) ;;
              match r with
              | ResOk w => b' <! building b (push_owned b w) ;; fill_owned init fuel' b' it'
              | ResErr e => builder_end b ;;! ret (ResErr e)
              end
          end
      end.
    Definition atotal_try_new_owned {E} (init : K -> act (log * St) (result W E)) : act (log * St) (result (OrdinalTotalArrayMap S W) E) :=
      look (fun _ => ASSERT O S) ;;!
      it <! look (fun _ => values_new O) ;;
      fill_owned init (S + 2) (builder_new S) it.

    (** map/total/map.rs:39-44, map/total/array_map.rs:64-70 *)
    Definition infallible_owned (init : K -> act (log * St) W) : K -> act (log * St) (result W Empty_set) :=
      fun k => w <! init k ;; ret (ResOk w).
    Definition htotal_new_owned (init : K -> act (log * St) W) : act (log * St) (@OrdinalTotalMap W) :=
      r <! htotal_try_new_owned (infallible_owned init) ;;
      match r with ResOk m => ret m | ResErr e => match e with end end.
    Definition atotal_new_owned (init : K -> act (log * St) W) : act (log * St) (OrdinalTotalArrayMap S W) :=
      look (fun _ => ASSERT O S) ;;!
      r <! atotal_try_new_owned (infallible_owned init) ;;
      match r with ResOk m => ret m | ResErr e => match e with end end.
    (** map/total/map.rs:112-116, map/total/array_map.rs:213-217: [|_| V::default()] *)
    Definition htotal_default_owned (default : act (log * St) W) : act (log * St) (@OrdinalTotalMap W) :=
      htotal_new_owned (fun k => closure_with_key k default).
    Definition atotal_default_owned (default : act (log * St) W) : act (log * St) (OrdinalTotalArrayMap S W) :=
      atotal_new_owned (fun k => closure_with_key k default).
  End Callbacks.
End KeyMake.

(** map/total/array_map.rs:102-104: [|k| self.get(&k)]; references, as slot numbers, have no destructor. *)
Definition atotal_as_ref_owned {T} (boom : list T -> T -> option panic) (drops_result : bool) {K V} (key : K -> T) {cfg : Config}
    (O : Ordinal K) {S : nat} (m : OrdinalTotalArrayMap S V) : act (list T * unit) (OrdinalTotalArrayMap S N) :=
  atotal_new_owned boom (fun _ => None) O S
    (fun k => closure_with_key boom drops_result key (fun _ => None) k (look (fun _ => i <- ordinal O k ;; index_slot (arr_list m) i))).
