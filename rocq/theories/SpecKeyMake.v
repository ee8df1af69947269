(** * SpecKeyMake: what making and mapping total maps destroys, when callbacks and destructors panic.

    [T] is whatever has a destructor; the log lists those whose destructors were started, and [boom log t] says
    whether that of [t] panics then. A callback is any code of the client: it changes the log and a
    state of its own, and returns, panics or aborts ([None]). It owns its arguments. Nothing here
    refers to the implementation (ModelOrdinal.v is imported for Rust's [Result]). *)
From Verif Require Import Base Spec SpecCatch SpecLifeRun SpecLifeEnds ModelOrdinal.
From Coq Require Import List. Import ListNotations.

Section Make.
  Context {T St : Type} (boom : list T -> T -> option panic) (drops_result : bool).
  Notation state := (list T * St)%type.
  Definition calls (A : Type) : Type := state -> state * option (seen A).

  (** All of [ts] are destroyed while [w] unwinds the stack. *)
  Definition given_up {A} (w : panic) (s : state) (ts : list T) : state * option (seen A) :=
    let '(log', x) := lost boom w (fst s) ts in ((log', snd s), x).

  Context {K V W : Type} (key : K -> T) (val : V -> T) (made : W -> option T).
  (** What has to be destroyed with the results [ws] of the callbacks. *)
  Definition parts (ws : list W) : list T := flat_map (fun w => match made w with Some t => [t] | None => [] end) ws.

  (** [f] is called on the keys and values in order. A panic destroys the value whose key could not be made,
      the values left, and the results so far. *)
  Fixpoint mapped (O : Ordinal K) (f : K -> V -> calls W) (s : state) (i : N) (ws : list W) (l : list V) : state * option (seen (list W)) :=
    match l with
    | [] => (s, Some (Seen ws))
    | v :: l' =>
        match key_for O i with
        | ResErr w => given_up w s (map val l ++ parts ws)
        | ResOk k =>
            let '(s', x) := f k v s in
            match x with
            | Some (Seen w) => mapped O f s' (i + 1) (ws ++ [w]) l'
            | Some (Caught p) => given_up p s' (map val l' ++ parts ws)
            | None => (s', None)
            end
        end
    end.

  (** A callback that does not take the key: this is destroyed after it. *)
  Definition then_key (k : K) (f : calls W) : calls W := fun s =>
    let '((log, st), x) := f s in
    match x with
    | Some (Seen w) =>
        match boom log (key k) with
        | None => ((log ++ [key k], st), Some (Seen w))
        | Some p => given_up p (log ++ [key k], st) (if drops_result then parts [w] else [])
        end
    | Some (Caught p) => given_up p (log, st) [key k]
    | None => ((log, st), None)
    end.

  (** Destructors are started in order up to the first that panics. *)
  Fixpoint up_to_panic (log ts : list T) : list T * option panic :=
    match ts with
    | [] => (log, None)
    | t :: ts' => match boom log t with None => up_to_panic (log ++ [t]) ts' | Some w => (log ++ [t], Some w) end
    end.
  (** [init] is called on the keys in order until it fails. Then a vector destroys all results; an array
      under construction stops at the first destructor that panics, and leaks the rest. *)
  Fixpoint made_from {E} (array : bool) (init : K -> calls (result W E)) (s : state) (ws : list W) (ks : list K)
      : state * option (seen (result (list W) E)) :=
    match ks with
    | [] => (s, Some (Seen (ResOk ws)))
    | k :: ks' =>
        let '((log, st), x) := init k s in
        match x with
        | Some (Seen (ResOk w)) => made_from array init (log, st) (ws ++ [w]) ks'
        | Some (Seen (ResErr e)) =>
            if array then let '(log', p) := up_to_panic log (parts ws) in ((log', st), Some (shown (ResErr e) p))
            else let '(log', p) := destroyed_all boom None log (parts ws) in ((log', st), opt_map (shown (ResErr e)) p)
        | Some (Caught p) => given_up p (log, st) (parts ws)
        | None => ((log, st), None)
        end
    end.
  (** [init] that does not fail. *)
  Definition never_fails (init : K -> calls W) : K -> calls (result W Empty_set) := fun k s =>
    let '(s', x) := init k s in
    (s', match x with Some (Seen w) => Some (Seen (ResOk w)) | Some (Caught p) => Some (Caught p) | None => None end).
  Definition made_new (array : bool) (init : K -> calls W) (s : state) (ks : list K) : state * option (seen (list W)) :=
    let '(s', x) := made_from array (never_fails init) s [] ks in
    (s', match x with
         | Some (Seen (ResOk l)) => Some (Seen l)
         | Some (Seen (ResErr e)) => match e with end
         | Some (Caught p) => Some (Caught p)
         | None => None
         end).
End Make.
