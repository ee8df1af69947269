(** * PropPartsLife: C119 (properties.jsonl). *)
From Verif Require Import Base Spec SpecCatch SpecLifeRun SpecLifeEnds SpecKeyMake SpecPartsLife ModelOrdinal ModelArrayBuilder ModelDerive
  ModelCatch ModelLife ModelKeyMake ModelDeriveLife ModelArrayLife ModelPartsLife PartsLifeProofs.
From Coq Require Import String List. Import ListNotations.

(** [from_ordinal] of structs: all it does to the log and to the state of the client, and how it ends. *)
Theorem C119_struct : forall (cfg : Config) (T : Type) (boom : list T -> T -> option panic) (thing : forall f : ftype, ft_T f -> T) (M : Type)
  (dec : forall f : ftype, N -> act (list T * M) (option (ft_T f))) (f : fields) (ns : list N) (n o : N) (s : list T * M),
  Forall2 (fun f n => ORDINAL_SIZE (ft_ord f) = Val n /\ n <= usize_max) (field_types f) ns ->
  Forall (fun f => forall n i s, ORDINAL_SIZE (ft_ord f) = Val n -> i < n -> snd (dec f i s) <> Stuck) (field_types f) ->
  ORDINAL_SIZE (derive_struct f) = Val n ->
  as_calls (tuple_things thing _) (struct_from_called boom thing dec f o) s = struct_called boom s o (map (as_part thing dec) (field_types f)) /\
  snd (struct_from_called boom thing dec f o s) <> Stuck.
Proof. exact @struct_called_is. Qed.
Print Assumptions C119_struct.

(** Tuples. *)
Theorem C119_tuple : forall (cfg : Config) (T : Type) (boom : list T -> T -> option panic) (thing : forall f : ftype, ft_T f -> T) (M : Type)
  (dec : forall f : ftype, N -> act (list T * M) (option (ft_T f))) (tys : list ftype) (ns : list N) (n o : N) (s : list T * M),
  Forall2 (fun f n => ORDINAL_SIZE (ft_ord f) = Val n /\ n <= usize_max) tys ns ->
  Forall (fun f => forall n i s, ORDINAL_SIZE (ft_ord f) = Val n -> i < n -> snd (dec f i s) <> Stuck) tys ->
  ORDINAL_SIZE (impl_ordinal_for_tuple_n tys) = Val n ->
  as_calls (tuple_things thing _) (tuple_from_called boom thing dec tys o) s = struct_called boom s o (map (as_part thing dec) tys) /\
  snd (tuple_from_called boom thing dec tys o s) <> Stuck.
Proof. exact @tuple_called_is. Qed.
Print Assumptions C119_tuple.

(** Enums. *)
Theorem C119_enum : forall (cfg : Config) (T : Type) (boom : list T -> T -> option panic) (thing : forall f : ftype, ft_T f -> T) (M : Type)
  (dec : forall f : ftype, N -> act (list T * M) (option (ft_T f))) (vs : list variant) (nss : list (list N)) (n o : N) (s : list T * M),
  Forall2 (Forall2 (fun f n => ORDINAL_SIZE (ft_ord f) = Val n /\ n <= usize_max)) (variant_types vs) nss ->
  Forall (Forall (fun f => forall n i s, ORDINAL_SIZE (ft_ord f) = Val n -> i < n -> snd (dec f i s) <> Stuck)) (variant_types vs) ->
  ORDINAL_SIZE (derive_enum vs) = Val n ->
  as_calls (enum_things thing 0 _) (enum_from_called boom thing dec vs o) s = enum_called boom s o 0 (map (map (as_part thing dec)) (variant_types vs)) /\
  snd (enum_from_called boom thing dec vs o s) <> Stuck.
Proof. exact @enum_called_is. Qed.
Print Assumptions C119_enum.

(** Arrays. *)
Theorem C119_array : forall (T : Type) (boom : list T -> T -> option panic) (E : Type) (thing : E -> T) (O : Ordinal E) (len : nat) (M : Type)
  (dec : N -> act (list T * M) (option E)) (size o : N) (s : list T * M),
  ORDINAL_SIZE O = Val size -> (forall i s, i < size -> snd (dec i s) <> Stuck) ->
  as_calls (fun a => map thing (arr_list a)) (array_from_called boom thing O len dec o) s = array_called boom (elem_part thing O dec) s o len /\
  snd (array_from_called boom thing O len dec o s) <> Stuck.
Proof. exact @array_called_is. Qed.
Print Assumptions C119_array.

(** ** Examples *)
(** Values whose [from_ordinal] destroys a temporary, 9, counts its calls, panics in the third call, returns [None] in
    the fifth and aborts in the sixth. *)
Definition ex119_dec {A} (value : N -> A) (i : N) : act (list N * N) (option A) := fun s =>
  let '(log, calls) := s in
  let s' := (log ++ [9], calls + 1) in
  if calls =? 2 then (s', Unwinds PIndex) else if calls =? 4 then (s', Ended None) else if calls =? 5 then (s', Aborts) else (s', Ended (Some (value i))).
Definition ex119_bool : ftype := {| ft_T := bool; ft_ord := Ordinal_bool; ft_lt := Bool.lt |}.
Definition ex119_decs (f : ftype) (i : N) : act (list N * N) (option (ft_T f)) :=
  x <! ex119_dec (fun i => i) i ;;
  match x with None => ret None | Some j => look (fun _ => from_ordinal (ft_ord f) j) end.
Definition ex119_thing (f : ftype) (v : ft_T f) : N := match ordinal (ft_ord f) v with Val i => i | _ => 0 end.
Definition ex119_boom (log : list N) (t : N) : option panic := if t =? 1 then Some PUser else None.
Definition ex119_fields : fields := FNamed [("x", ex119_bool); ("y", ex119_bool)]%string.
Example C119_hypotheses : let fs := field_types ex119_fields in
  Forall2 (fun f n => ORDINAL_SIZE (ft_ord f) = Val n /\ n <= @usize_max debug64) fs [2; 2] /\
  Forall (fun f => forall n i s, ORDINAL_SIZE (ft_ord f) = Val n -> i < n -> snd (ex119_decs f i s) <> Stuck) fs /\
  ORDINAL_SIZE (@derive_struct debug64 ex119_fields) = Val 4 /\
  ORDINAL_SIZE (@impl_ordinal_for_tuple_n debug64 fs) = Val 4 /\
  ORDINAL_SIZE (@derive_enum debug64 [{| v_discriminant := None; v_fields := FUnit |}; {| v_discriminant := None; v_fields := ex119_fields |}]) = Val 5.
Proof.
  split; [|split; [|repeat split; vm_compute; reflexivity]].
  - repeat constructor; vm_compute; discriminate.
  - assert (H : forall n i s, ORDINAL_SIZE (ft_ord ex119_bool) = Val n -> i < n -> snd (ex119_decs ex119_bool i s) <> Stuck).
    { intros n i [log calls] Hn Hi. cbn in Hn. injection Hn as <-. unfold ex119_decs, ex119_dec, abind, look, ret.
      destruct (calls =? 2); [discriminate|]. destruct (calls =? 4); [discriminate|]. destruct (calls =? 5); [discriminate|].
      destruct i as [|[p|p|]]; try (destruct p; discriminate Hi); discriminate. }
    repeat constructor; exact H.
Qed.
(** Each run starts with another number of calls made. *)
Example C119_struct_runs :
  let run o calls := @struct_from_called debug64 _ ex119_boom ex119_thing _ ex119_decs ex119_fields o ([], calls) in
  run 2 0 = (([9; 9], 2), Ended (Some (true, (false, tt)))) /\
  run 4 0 = (([9; 9; 0; 0], 2), Ended None) /\
  run 6 0 = (([9; 9; 1; 0], 2), Unwinds PUser) /\
  run 2 1 = (([9; 9; 0], 3), Unwinds PIndex) /\
  run 3 1 = (([9; 9; 1], 3), Aborts) /\
  run 2 3 = (([9; 9; 0], 5), Unwinds PUnwrap) /\
  run 2 5 = (([9], 6), Aborts).
Proof. repeat split; vm_compute; reflexivity. Qed.
(** Three fields: after a panic the fields made are destroyed from the first. The enum has a variant without fields. *)
Example C119_tuple_enum_runs :
  let run o calls := @tuple_from_called debug64 _ (fun _ _ => None) ex119_thing _ ex119_decs [ex119_bool; ex119_bool; ex119_bool] o ([], calls) in
  let vs := [{| v_discriminant := None; v_fields := FUnit |}; {| v_discriminant := None; v_fields := ex119_fields |}] in
  let run_enum o calls := @enum_from_called debug64 _ ex119_boom ex119_thing _ ex119_decs vs o ([], calls) in
  run 2 0 = (([9; 9; 9; 1; 0], 3), Unwinds PIndex) /\
  run 1 0 = (([9; 9; 9; 0; 1], 3), Unwinds PIndex) /\
  run_enum 0 2 = (([], 2), Ended (Some (inl tt))) /\
  run_enum 3 0 = (([9; 9], 2), Ended (Some (inr (inl (true, (false, tt)))))) /\
  run_enum 3 1 = (([9; 9; 0], 3), Unwinds PIndex) /\
  run_enum 5 0 = (([], 0), Ended None).
Proof. repeat split; vm_compute; reflexivity. Qed.
Example C119_array_runs :
  let run o calls := let '(s, e) := @array_from_called _ ex119_boom _ (fun i => i) {| ORDINAL_SIZE := Val 2; ordinal := Val; from_ordinal := fun i => Val (Some i) |}
      2 _ (ex119_dec (fun i => i)) o ([], calls) in
    (s, match e with Ended (Some a) => Ended (Some (arr_list a)) | Ended None => Ended None | Unwinds w => Unwinds w | Aborts => Aborts | Stuck => Stuck end) in
  run 2 0 = (([9; 9], 2), Ended (Some [1; 0])) /\
  run 4 0 = (([9; 9; 0; 0], 2), Ended None) /\
  run 5 0 = (([9; 9; 1], 2), Unwinds PUser) /\
  run 2 1 = (([9; 9; 0], 3), Unwinds PIndex) /\
  run 3 1 = (([9; 9; 1], 3), Aborts).
Proof. repeat split; vm_compute; reflexivity. Qed.
Example C119_array_hypotheses : forall i s, i < 2 -> snd (ex119_dec (fun i => i) i s) <> Stuck.
Proof.
  intros i [log calls] _. unfold ex119_dec. destruct (calls =? 2); [discriminate|]. destruct (calls =? 4); [discriminate|]. destruct (calls =? 5); discriminate.
Qed.
