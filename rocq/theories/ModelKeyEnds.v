(** * ModelKeyEnds: who destroys the keys and values of total maps, of maps that are being collected and
    of owning iterators, when destructors may panic (ModelKeyLife.v has the other maps). *)
From Verif Require Import Base Spec SpecMap SpecTotal SpecResume ModelOrdinal ModelValues ModelArrayBuilder ModelIter ModelTotal ModelMap
  ModelDrop ModelResume MapMachine TotalMachine ModelCatch ModelLife ModelKeyLife.
From Coq Require Import List. Import ListNotations.

Section KeyEnds.
  Context {K V : Type} (boom : list (K + V) -> K + V -> option panic) (drops_result : bool).
  Context {cfg : Config} (O : Ordinal K).
  Local Notation log := (list (K + V)).

  (** ** Total maps *)

  (** map/total/map.rs:107-109, map/total/array_map.rs:185-187: as [insert] of the sparse maps. *)
  Definition total_insert_keys {M} (insert : act M V) (k : K) (v : V) : act (log * M) (total_out K V) :=
    old <! owning boom [inr v; inl k] (calm insert) ;;
    owning boom (if drops_result then [inr old] else []) (destroy boom (inl k)) ;;!
    ret (TOValue old).
  (** map/total/map.rs:141-145, map/total/array_map.rs:219-223: [DebugMap::entries] of std. *)
  Definition total_debug_keys {M} (cells : M -> list V) : act (log * M) (total_out K V) :=
    locally (fun m => TIter_new (cells m) 0)
      (fun m => l <! each boom (calm (enumerate_act O Front)) (fun l k v => Val (l ++ [(k, v)])) (S (length (cells m))) [] ;; ret (TOList l)).
  (** Other functions are lent their key, or give the keys they make to the client. *)
  Definition htotal_keys (op : total_op K V) : act (log * @OrdinalTotalMap V) (total_out K V) :=
    match op with
    | TInsert k v => total_insert_keys (OrdinalTotalMap_insert_act O k v) k v
    | TDebug_ => total_debug_keys (fun m => m)
    | TClone_ _ => assign_life boom (fun m => map inr m) (htotal_step O op)
    | _ => calm (htotal_act O op)
    end.
  Definition atotal_keys {S : nat} (op : total_op K V) : act (log * OrdinalTotalArrayMap S V) (total_out K V) :=
    match op with
    | TInsert k v => total_insert_keys (OrdinalTotalArrayMap_insert_act O (S := S) k v) k v
    | TDebug_ => total_debug_keys (fun m => arr_list m)
    | TClone_ _ => assign_life boom (fun m => map inr (arr_list m)) (atotal_step O op)
    | _ => calm (atotal_act O op)
    end.

  (** ** Collecting *)
  Definition pair_things (l : list (K * V)) : log := flat_map (fun p => [inl (fst p); inr (snd p)]) l.
  (** map/map.rs:154-162 and map/array_map.rs:166-174, with a vector of entries as the iterator. The result of
      [insert] is destroyed at the end of the statement; on a panic the vector's iterator is destroyed
      with the entries it still has. *)
  Fixpoint from_iter_loop_keys {M} (insert : K -> V -> act M (option V)) (l : list (K * V)) : act (log * M) unit :=
    match l with
    | [] => ret tt
    | (k, v) :: l' =>
        owning boom (pair_things l')
          (o <! insert_keys boom drops_result (insert k v) k v ;;
           match o with OutValue (Some old) => destroy boom (inr old) | _ => ret tt end) ;;!
        from_iter_loop_keys insert l'
    end.
  (** Then the unfinished map is destroyed. *)
  Definition from_iter_keys {M} (values : M -> list V) (insert : K -> V -> act M (option V)) (m0 : M) (l : list (K * V))
      : act (log * unit) M :=
    fun '(lg, u) =>
      let '((lg', m), e) := from_iter_loop_keys insert l (lg, m0) in
      match e with
      | Ended _ => ((lg', u), Ended m)
      | Unwinds w => (glue_unwinding boom (map inr (values m)) ;;! fun s => (s, Unwinds w)) (lg', u)
      | Aborts => ((lg', u), Aborts)
      | Stuck => ((lg', u), Stuck)
      end.
  Definition heap_from_iter_keys (l : list (K * V)) : act (log * unit) (@OrdinalMap V) :=
    from_iter_keys stored (OrdinalMap_insert_act O) OrdinalMap_new l.
  Definition array_from_iter_keys (S : nat) (l : list (K * V)) : act (log * unit) (@OrdinalArrayMap V S) :=
    m0 <! owning boom (pair_things l) (look (fun _ => OrdinalArrayMap_new O S)) ;;
    from_iter_keys (fun m => stored (arr_list m)) (OrdinalArrayMap_insert_act O (S := S)) m0 l.

  (** ** Owning iterators *)

  (** map/iter.rs:336-343, 348-355, 392-399 and 407-414: the pair is destroyed at the end of the body of
      the loop if it is not returned. *)
  Fixpoint owned_key_loop (d : dir) (fuel : nat) : act (log * enumerate (option V)) (option (K * V)) :=
    match fuel with
    | 0%nat => fun s => (s, Stuck)
    | S fuel' =>
        r <! owned_step boom O (fun l => map inr (stored l)) d ;;
        match r with
        | None => ret None
        | Some (k, Some v) => ret (Some (k, v))
        | Some (k, None) => destroy boom (inl k) ;;! owned_key_loop d fuel'
        end
    end.
  (** [next] and [next_back] of [IntoIter] and [IntoIterArray], and of the total ones
      (map/total/iter.rs:138-140, 151-153, 192-194 and 211-213). *)
  Definition owned_key_next (d : dir) : act (log * enumerate (option V)) (option (K * V)) :=
    fun s => owned_key_loop d (S (length (e_items (snd s)))) s.
  Definition total_key_next (d : dir) : act (log * enumerate V) (option (K * V)) :=
    owned_step boom O (map inr) d.
End KeyEnds.
