(** * PropKeyMake: C115 (properties.jsonl). *)
From Verif Require Import Base Spec SpecMap SpecTotal SpecCatch SpecLifeRun SpecLifeEnds SpecKeyMake ModelOrdinal ModelValues
  ModelArrayBuilder ModelIter ModelTotal ModelCatch ModelLife ModelKeyMake OrdinalProofs KeyMakeProofs.
From Coq Require Import List. Import ListNotations.

(** [map] and [map_values] of arrays, with any [from_ordinal] that returns or panics and any callback:
    what is destroyed, in which order, and the map, the panic or the abort that results. *)
Theorem C115_map : forall (cfg : Config) (T : Type) (boom : list T -> T -> option panic) (K V W : Type) (val : V -> T) (made : W -> option T)
  (St : Type) (O : Ordinal K) (f : K -> V -> calls W) (S : nat) (m : OrdinalTotalArrayMap S V) (s : list T * St),
  answers_all O -> N.of_nat S <= usize_max ->
  let '(s', x) := mapped boom val made O f s 0 [] (arr_list m) in
  exists e, atotal_map_owned boom val made O (fun k v => client (f k v)) m s = (s', e) /\
    match x with
    | Some (Seen ws) => exists a, e = Ended a /\ arr_list a = ws
    | Some (Caught p) => e = Unwinds p
    | None => e = Aborts
    end.
Proof. exact @atotal_maps. Qed.
Print Assumptions C115_map.

Theorem C115_map_values : forall (cfg : Config) (T : Type) (boom : list T -> T -> option panic) (drops_result : bool) (K V W : Type)
  (key : K -> T) (val : V -> T) (made : W -> option T)
  (St : Type) (O : Ordinal K) (f : V -> calls W) (S : nat) (m : OrdinalTotalArrayMap S V) (s : list T * St),
  answers_all O -> N.of_nat S <= usize_max ->
  let '(s', x) := mapped boom val made O (fun k v => then_key boom drops_result key made k (f v)) s 0 [] (arr_list m) in
  exists e, atotal_map_values_owned boom drops_result key val made O (fun v => client (f v)) m s = (s', e) /\
    match x with
    | Some (Seen ws) => exists a, e = Ended a /\ arr_list a = ws
    | Some (Caught p) => e = Unwinds p
    | None => e = Aborts
    end.
Proof. exact @atotal_maps_values. Qed.
Print Assumptions C115_map_values.

(** [try_new], with any [init]. *)
Theorem C115_try_new : forall (cfg : Config) (T : Type) (boom : list T -> T -> option panic) (K W : Type) (made : W -> option T)
  (O : Ordinal K) (n : N), ordinal_bijection O n -> forall ks : list K, enumeration O ks ->
  forall (E St : Type) (init : K -> calls (result W E)) (s : list T * St),
  let '(s', x) := made_from boom made false init s [] ks in
  htotal_try_new_owned boom made O (fun k => client (init k)) s = (s', match x with Some (Seen r) => Ended r | Some (Caught p) => Unwinds p | None => Aborts end).
Proof. exact @htotal_tries. Qed.
Print Assumptions C115_try_new.

Theorem C115_try_new_array : forall (cfg : Config) (T : Type) (boom : list T -> T -> option panic) (K W : Type) (made : W -> option T)
  (O : Ordinal K) (n : N), ordinal_bijection O n -> forall ks : list K, enumeration O ks ->
  forall (E St : Type) (init : K -> calls (result W E)) (S : nat) (s : list T * St), N.of_nat S = n ->
  let '(s', x) := made_from boom made true init s [] ks in
  exists e, atotal_try_new_owned boom made O S (fun k => client (init k)) s = (s', e) /\
    match x with
    | Some (Seen (ResOk ws)) => exists a, e = Ended (ResOk a) /\ arr_list a = ws
    | Some (Seen (ResErr er)) => e = Ended (ResErr er)
    | Some (Caught p) => e = Unwinds p
    | None => e = Aborts
    end.
Proof. exact @atotal_tries. Qed.
Print Assumptions C115_try_new_array.

(** [default]: each key is destroyed after its value is made. *)
Theorem C115_default : forall (cfg : Config) (T : Type) (boom : list T -> T -> option panic) (drops_result : bool) (K W : Type)
  (key : K -> T) (made : W -> option T) (O : Ordinal K) (n : N), ordinal_bijection O n -> forall ks : list K, enumeration O ks ->
  forall (St : Type) (default : calls W) (s : list T * St),
  let '(s', x) := made_new boom made false (fun k => then_key boom drops_result key made k default) s ks in
  htotal_default_owned boom drops_result key made O (client default) s = (s', match x with Some (Seen r) => Ended r | Some (Caught p) => Unwinds p | None => Aborts end).
Proof. exact @htotal_defaults. Qed.
Print Assumptions C115_default.

Theorem C115_default_array : forall (cfg : Config) (T : Type) (boom : list T -> T -> option panic) (drops_result : bool) (K W : Type)
  (key : K -> T) (made : W -> option T) (O : Ordinal K) (n : N), ordinal_bijection O n -> forall ks : list K, enumeration O ks ->
  forall (St : Type) (default : calls W) (S : nat) (s : list T * St), N.of_nat S = n ->
  let '(s', x) := made_new boom made true (fun k => then_key boom drops_result key made k default) s ks in
  exists e, atotal_default_owned boom drops_result key made O S (client default) s = (s', e) /\
    match x with
    | Some (Seen ws) => exists a, e = Ended a /\ arr_list a = ws
    | Some (Caught p) => e = Unwinds p
    | None => e = Aborts
    end.
Proof. exact @atotal_defaults. Qed.
Print Assumptions C115_default_array.

(** [as_ref], with an [ordinal] that panics on some keys: each key is destroyed after its value is found.
    References are slot numbers. *)
Theorem C115_as_ref : forall (cfg : Config) (T : Type) (boom : list T -> T -> option panic) (drops_result : bool) (K V : Type)
  (key : K -> T) (O : Ordinal K) (n : N), ordinal_bijection O n -> forall ks : list K, enumeration O ks ->
  forall (O1 : Ordinal K) (S : nat) (m : OrdinalTotalArrayMap S V) (log : list T), N.of_nat S = n -> panicking_version O1 O ->
  let '(s', x) := made_new boom (fun _ : N => None) true
    (fun k => then_key boom drops_result key (fun _ => None) k
       (fun s => (s, Some (match ordinal O1 k with Val i => Seen i | Panic p => Caught p | _ => Caught PUnreachable end)))) (log, tt) ks in
  exists e, atotal_as_ref_owned boom drops_result key O1 m (log, tt) = (s', e) /\
    match x with
    | Some (Seen ws) => exists a, e = Ended a /\ arr_list a = ws
    | Some (Caught p) => e = Unwinds p
    | None => e = Aborts
    end.
Proof. exact @atotal_lends. Qed.
Print Assumptions C115_as_ref.

(** ** Cases: the destructor of the key Eq panics if an odd number of destructors was started before, those of
    the value 7 and of the result 70 always. *)
Notation thing := (comparison + (N + N))%type.
Definition touchy (log : list thing) (t : thing) : option panic :=
  match t with
  | inl Eq => if N.odd (N.of_nat (length log)) then Some PUser else None
  | inr (inl 7) => Some PAssert
  | inr (inr 70) => Some PUnwrap
  | _ => None
  end.
Definition key_ (k : comparison) : thing := inl k.
Definition val_ (v : N) : thing := inr (inl v).
Definition made_ (w : N) : option thing := Some (inr (inr w)).
Definition no_gt : Ordinal comparison := {|
  ORDINAL_SIZE := ORDINAL_SIZE Ordinal_Ordering;
  ordinal := fun c => match c with Gt => Panic PAssert | _ => ordinal Ordinal_Ordering c end;
  from_ordinal := fun i => if i =? 2 then Panic PAssert else from_ordinal Ordinal_Ordering i |}.
Definition shy_of_gt : Ordinal comparison := {|
  ORDINAL_SIZE := ORDINAL_SIZE Ordinal_Ordering;
  ordinal := fun c => match c with Gt => Panic PAssert | _ => ordinal Ordinal_Ordering c end;
  from_ordinal := from_ordinal Ordinal_Ordering |}.
Notation all := [Lt; Eq; Gt] (only parsing).
Notation good := Ordinal_Ordering (only parsing).
(** Counts its calls, panics on the value 5, aborts on 6, and multiplies by 10. *)
Definition tens (v : N) : calls (T := thing) (St := N) N := fun '(log, st) =>
  ((log, st + 1), if v =? 5 then Some (Caught PDivZero) else if v =? 6 then None else Some (Seen (10 * v))).
(** The same, destroying the key first. *)
Definition tens_key (k : comparison) (v : N) : calls (T := thing) (St := N) N := fun '(log, st) => tens v (log ++ [inl k], st).

Example C115_hypotheses : forall cfg : Config, ordinal_bijection good 3 /\ enumeration good all /\ panicking_version shy_of_gt good /\
  answers_all good /\ answers_all no_gt /\ N.of_nat 3 <= usize_max.
Proof.
  intros cfg. split; [apply Ordering_lawful|]. split; [split; [intros []; cbn; auto|]; repeat constructor; eexists _, _; repeat split|].
  split; [split; [reflexivity|]; split; [reflexivity|]; intros []; cbn; eauto|].
  split; [intros i; cbn [from_ordinal good no_gt]; left; destruct i as [|[[]|[]|]]; cbn; eauto|].
  split; [|destruct cfg as [[] [] []]; vm_compute; discriminate].
  intros i; cbn [from_ordinal good no_gt]. destruct (i =? 2); [right; eauto|]. left. destruct i as [|[[]|[]|]]; cbn; eauto.
Qed.
Definition three (l : list N) (H : Nat.eqb (length l) 3 = true) : OrdinalTotalArrayMap 3 N := mk_arr 3 l H.
Definition plain {A S} (r : A * ending (OrdinalTotalArrayMap S N)) : A * ending (list N) :=
  (fst r, match snd r with Ended a => Ended (arr_list a) | Unwinds p => Unwinds p | Aborts => Aborts | Stuck => Stuck end).
(** A panic destroys the values left and then the results; one of those that panics aborts. *)
Example C115_map_case : forall cfg : Config,
  let run O l := fun H => plain (atotal_map_owned touchy val_ made_ O (fun k v => client (tens_key k v)) (three l H) ([], 0)) in
  run good [1; 2; 3] eq_refl = (([inl Lt; inl Eq; inl Gt], 3), Ended [10; 20; 30]) /\
  run good [1; 5; 3] eq_refl = (([inl Lt; inl Eq; inr (inl 3); inr (inr 10)], 2), Unwinds PDivZero) /\
  run good [7; 5; 3] eq_refl = (([inl Lt; inl Eq; inr (inl 3); inr (inr 70)], 2), Aborts) /\
  run good [1; 5; 7] eq_refl = (([inl Lt; inl Eq; inr (inl 7)], 2), Aborts) /\
  run good [1; 6; 3] eq_refl = (([inl Lt; inl Eq], 2), Aborts) /\
  run no_gt [1; 2; 3] eq_refl = (([inl Lt; inl Eq; inr (inl 3); inr (inr 10); inr (inr 20)], 2), Unwinds PAssert).
Proof. intros [[] [] []]; vm_compute; repeat split. Qed.
Example C115_map_spec :
  mapped touchy val_ made_ good tens_key ([], 0) 0 [] [1; 2; 3] = (([inl Lt; inl Eq; inl Gt], 3), Some (Seen [10; 20; 30])) /\
  mapped touchy val_ made_ good tens_key ([], 0) 0 [] [1; 5; 7] = (([inl Lt; inl Eq; inr (inl 7)], 2), None) /\
  mapped touchy val_ made_ no_gt tens_key ([], 0) 0 [] [1; 2; 3] =
    (([inl Lt; inl Eq; inr (inl 3); inr (inr 10); inr (inr 20)], 2), Some (Caught PAssert)).
Proof. vm_compute; repeat split. Qed.
(** The result whose key's destructor panics is destroyed or leaked. *)
Example C115_map_values_case : forall cfg : Config,
  let run d l := fun H => plain (atotal_map_values_owned touchy d key_ val_ made_ good (fun v => client (tens v)) (three l H) ([], 0)) in
  run true [1; 2; 3] eq_refl = (([inl Lt; inl Eq; inr (inr 20); inr (inl 3); inr (inr 10)], 2), Unwinds PUser) /\
  run false [1; 2; 3] eq_refl = (([inl Lt; inl Eq; inr (inl 3); inr (inr 10)], 2), Unwinds PUser) /\
  run true [1; 7; 3] eq_refl = (([inl Lt; inl Eq; inr (inr 70)], 2), Aborts) /\
  run true [1; 5; 3] eq_refl = (([inl Lt; inl Eq], 2), Aborts) /\
  run true [5; 1; 3] eq_refl = (([inl Lt; inr (inl 1); inr (inl 3)], 1), Unwinds PDivZero).
Proof. intros [[] [] []]; vm_compute; repeat split. Qed.
(** Destroys its key; at Gt, fails if the state is below 95, or panics. *)
Definition picky (k : comparison) : calls (T := thing) (St := N) (result N bool) := fun '(log, st) =>
  ((log ++ [inl k], st + 10),
   match k with
   | Gt => if st =? 30 then Some (Caught PDivZero) else if st <? 95 then Some (Seen (ResErr true)) else Some (Seen (ResOk st))
   | _ => Some (Seen (ResOk st))
   end).
Example C115_try_new_case : forall cfg : Config,
  let run st := htotal_try_new_owned touchy made_ good (fun k => client (picky k)) ([], st) in
  run 100 = (([inl Lt; inl Eq; inl Gt], 130), Ended (ResOk [100; 110; 120])) /\
  run 20 = (([inl Lt; inl Eq; inl Gt; inr (inr 20); inr (inr 30)], 50), Ended (ResErr true)) /\
  run 10 = (([inl Lt; inl Eq; inl Gt; inr (inr 10); inr (inr 20)], 40), Unwinds PDivZero) /\
  run 70 = (([inl Lt; inl Eq; inl Gt; inr (inr 70); inr (inr 80)], 100), Unwinds PUnwrap).
Proof. intros [[] [] []]; vm_compute; repeat split. Qed.
(** The array leaks the result 80. *)
Example C115_try_new_array_case : forall cfg : Config,
  let run st := atotal_try_new_owned touchy made_ good 3 (fun k => client (picky k)) ([], st) in
  run 20 = (([inl Lt; inl Eq; inl Gt; inr (inr 20); inr (inr 30)], 50), Ended (ResErr true)) /\
  run 10 = (([inl Lt; inl Eq; inl Gt; inr (inr 10); inr (inr 20)], 40), Unwinds PDivZero) /\
  run 70 = (([inl Lt; inl Eq; inl Gt; inr (inr 70)], 100), Unwinds PUnwrap) /\
  made_from touchy made_ true picky ([], 70) [] all = (([inl Lt; inl Eq; inl Gt; inr (inr 70)], 100), Some (Caught PUnwrap)) /\
  made_from touchy made_ false picky ([], 70) [] all = (([inl Lt; inl Eq; inl Gt; inr (inr 70); inr (inr 80)], 100), Some (Caught PUnwrap)).
Proof. intros [[] [] []]; vm_compute; repeat split. Qed.
Definition counting : calls (T := thing) (St := N) N := fun '(log, st) => ((log, st + 10), Some (Seen st)).
Example C115_default_case : forall cfg : Config,
  htotal_default_owned touchy true key_ made_ good (client counting) ([], 10) = (([inl Lt; inl Eq; inr (inr 20); inr (inr 10)], 30), Unwinds PUser) /\
  htotal_default_owned touchy false key_ made_ good (client counting) ([], 10) = (([inl Lt; inl Eq; inr (inr 10)], 30), Unwinds PUser) /\
  htotal_default_owned touchy true key_ made_ good (client counting) ([], 60) = (([inl Lt; inl Eq; inr (inr 70)], 80), Aborts) /\
  htotal_default_owned touchy true key_ made_ good (client counting) ([inl Lt], 60) = (([inl Lt; inl Lt; inl Eq; inl Gt], 90), Ended [60; 70; 80]) /\
  made_new touchy made_ false (fun k => then_key touchy true key_ made_ k counting) ([], 10) all =
    (([inl Lt; inl Eq; inr (inr 20); inr (inr 10)], 30), Some (Caught PUser)).
Proof. intros [[] [] []]; vm_compute; repeat split. Qed.
Example C115_default_array_case : forall cfg : Config,
  plain (atotal_default_owned touchy true key_ made_ good 3 (client counting) ([inl Lt], 60)) = (([inl Lt; inl Lt; inl Eq; inl Gt], 90), Ended [60; 70; 80]) /\
  plain (atotal_default_owned touchy false key_ made_ good 3 (client counting) ([], 10)) = (([inl Lt; inl Eq; inr (inr 10)], 30), Unwinds PUser).
Proof. intros [[] [] []]; vm_compute; repeat split. Qed.
Example C115_as_ref_case : forall cfg : Config,
  let run O log := plain (atotal_as_ref_owned touchy true key_ O (three [1; 2; 3] eq_refl) (log, tt)) in
  run good [inl Lt] = (([inl Lt; inl Lt; inl Eq; inl Gt], tt), Ended [0; 1; 2]) /\
  run shy_of_gt [inl Lt] = (([inl Lt; inl Lt; inl Eq; inl Gt], tt), Unwinds PAssert) /\
  run shy_of_gt [] = (([inl Lt; inl Eq], tt), Unwinds PUser).
Proof. intros [[] [] []]; vm_compute; repeat split. Qed.
