(** * SpecLifeEnds: collecting a map, making a total map and taking a map apart, when destructors
    of values and user code panic.

    As in SpecLifeRun.v a log lists the values whose destructors were started, [boom log v] says
    whether the destructor of [v] panics then, and [None] means that the process aborts. Nothing
    here refers to the implementation (ModelOrdinal.v is imported for Rust's [Result]). *)
From Verif Require Import Base Spec SpecMap SpecTotal SpecCatch SpecResume SpecLifeRun ModelOrdinal.
From Coq Require Import List. Import ListNotations.

Section Ends.
  Context {V : Type} (boom : list V -> V -> option panic).

  (** All of [vs] are destroyed while [w] unwinds the stack. *)
  Definition lost {A} (w : panic) (log vs : list V) : list V * option (seen A) :=
    let '(log', e) := destroyed_all boom (Some w) log vs in (log', opt_map (fun _ => Caught w) e).

  (** ** collect *)
  Section Collect.
    Context {K : Type} (O : Ordinal K) (eqd : forall a b : K, {a = b} + {a <> b}) (ks : list K).

    (** The entries are inserted one after another, and a value that is replaced is destroyed. If
        anything panics, all values are destroyed: one that was not inserted, then those not yet
        reached, then those in the unfinished map, in the order of the keys. *)
    Fixpoint collected (log : list V) (l : list (K * V)) (m : pmap K V) : list V * option (seen (pmap K V)) :=
      match l with
      | [] => (log, Some (Seen m))
      | (k, v) :: l' =>
          let m' := pm_set eqd m k (Some v) in
          match key_panic O (Some k) with
          | Some w => lost w log (v :: map snd l' ++ map snd (pm_entries ks m))
          | None =>
              match m k with
              | None => collected log l' m'
              | Some old =>
                  match boom log old with
                  | None => collected (log ++ [old]) l' m'
                  | Some w => lost w (log ++ [old]) (map snd l' ++ map snd (pm_entries ks m'))
                  end
              end
          end
      end.
  End Collect.

  (** ** try_new *)
  Section Made.
    Context {K E St : Type} (init : St -> K -> St * seen (result V E)).

    (** [init] is called on the keys in order. [vs]: what it has made. *)
    Fixpoint made_map (log : list V) (st : St) (vs : list V) (ks : list K) : (list V * St) * option (seen (result (list V) E)) :=
      match ks with
      | [] => ((log, st), Some (Seen (ResOk vs)))
      | k :: ks' =>
          let '(st', r) := init st k in
          match r with
          | Seen (ResOk v) => made_map log st' (vs ++ [v]) ks'
          | Seen (ResErr e) => let '(log', x) := destroyed_all boom None log vs in ((log', st'), opt_map (shown (ResErr e)) x)
          | Caught w => let '(log', x) := lost w log vs in ((log', st'), x)
          end
      end.
    (** The same for the array: the first destructor that panics is the last that is started, and what
        comes after it is leaked. *)
    Fixpoint made_array (log : list V) (st : St) (vs : list V) (ks : list K) : (list V * St) * option (seen (result (list V) E)) :=
      match ks with
      | [] => ((log, st), Some (Seen (ResOk vs)))
      | k :: ks' =>
          let '(st', r) := init st k in
          match r with
          | Seen (ResOk v) => made_array log st' (vs ++ [v]) ks'
          | Seen (ResErr e) => let '(log', _, p) := destroyed_until boom log (map (pair tt) vs) in ((log', st'), Some (shown (ResErr e) p))
          | Caught w => let '(log', _, p) := destroyed_until boom log (map (pair tt) vs) in
                        ((log', st'), match p with None => Some (Caught w) | Some _ => None end)
          end
      end.
  End Made.

  (** ** into_iter *)

  (** [K::from_ordinal(i).unwrap()] *)
  Definition key_for {K} (O : Ordinal K) (i : N) : result K panic :=
    match from_ordinal O i with Val (Some k) => ResOk k | Panic w => ResErr w | _ => ResErr PUnwrap end.
  (** The items of an owning iterator with their positions, and how far the ordinals it asks for are below
      the positions. [values]: the values in an item. *)
  Section Owned.
    Context {K A : Type} (values : A -> list V).
    Notation owned_state := (N * list (N * A))%type.

    (** A call that comes to the items in the order [l]; [keep] are the items it hands out. An item
        whose key cannot be made is destroyed. *)
    Fixpoint owned_walk (O : Ordinal K) (d : dir) (keep : A -> option V) (log : list V) (lag : N) (l : list (N * A))
        : (list V * owned_state) * option (seen (option (K * V))) :=
      match l with
      | [] => ((log, (lag, [])), Some (Seen None))
      | (p, a) :: l' =>
          match key_for O (p - lag) with
          | ResOk k =>
              match keep a with
              | Some v => ((log, (lag, l')), Some (Seen (Some (k, v))))
              | None => owned_walk O d keep log lag l'
              end
          | ResErr w =>
              let '(log', x) := lost w log (values a) in
              ((log', (match d with Front => lag + 1 | Back => lag end, l')), x)
          end
      end.
    Definition owned_spec (keep : A -> option V) (O : Ordinal K) (d : dir) (s : list V * owned_state)
        : (list V * owned_state) * option (seen (option (K * V))) :=
      let '(log, (lag, l)) := s in
      match d with
      | Front => owned_walk O d keep log lag l
      | Back => let '((log', (lag', l')), x) := owned_walk O d keep log lag (rev l) in ((log', (lag', rev l')), x)
      end.
  End Owned.
End Ends.

(** A user's [from_ordinal] returns or panics. *)
Definition answers_all {K} (O : Ordinal K) : Prop := forall i, (exists o, from_ordinal O i = Val o) \/ exists w, from_ordinal O i = Panic w.
(** An [init] that returns or panics, as user code. *)
Definition as_code {V E St K} (init : St -> K -> St * seen (result V E)) (st : St) (k : K) : St * res (result V E) :=
  let '(st', r) := init st k in (st', match r with Seen x => Val x | Caught w => Panic w end).
