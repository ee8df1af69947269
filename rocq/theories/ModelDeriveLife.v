(** * ModelDeriveLife: who destroys the fields in the [from_ordinal] generated for structs, tuples and enums.

    The statements generated in ModelDerive.v are run with the log of the values whose destructors were started
    (ModelLife.v). [thing f v] is the value [v] of the field type [f] as something with a destructor.
    The [from_ordinal] of a field is taken to destroy nothing itself. *)
From Verif Require Import Base Spec SpecCatch ModelDerive ModelCatch ModelLife SpecDeriveLife.
From Coq Require Import List. Import ListNotations.

Section DeriveLife.
  Context {cfg : Config} {T : Type} (boom : list T -> T -> option panic) (thing : forall f : ftype, ft_T f -> T).
  Context {M : Type}.
  Local Notation code := (act (list T * M)).

  Fixpoint field_thing (fs : list ftype) (i : nat) : partial_tuple fs -> list T :=
    match fs with
    | [] => fun _ => []
    | f :: r =>
        match i with
        | O => fun p => match fst p with Some v => [thing f v] | None => [] end
        | S i' => fun p => field_thing r i' (snd p)
        end
    end.

  (** ordinal-map-derive/src/ordinal.rs:260-303. [locals]: the variables declared so far, the last one first, in
      which order they are destroyed when the block is left. *)
  Fixpoint run_stmts_owned (fs : list ftype) (ov : N) (stmts : list stmt) (rem : N) (p : partial_tuple fs) (locals : list T)
      : code (option (N * partial_tuple fs * list T)) :=
    match stmts with
    | [] => ret (Some (rem, p, locals))
    | LetMutRem e :: r =>
        rem' <! owning boom locals (look (fun _ => eval false no_ordinals ov e)) ;;
        run_stmts_owned fs ov r rem' p locals
    | LetField _ i sz :: r =>
        p' <! owning boom locals (look (fun _ =>
          n <- eval false no_ordinals ov sz ;;
          o <- urem rem n ;;
          decode_field fs i o p)) ;;
        run_stmts_owned fs ov r rem p' (field_thing fs i p' ++ locals)
    | RemDivAssign sz :: r =>
        rem' <! owning boom locals (look (fun _ => n <- eval false no_ordinals ov sz ;; udiv rem n)) ;;
        run_stmts_owned fs ov r rem' p locals
    | IfRemReturnNone :: r =>
        if negb (rem =? 0) then glue boom locals ;;! ret None else run_stmts_owned fs ov r rem p locals
    end.
  (** The constructor takes the variables. *)
  Definition run_block_owned (fs : list ftype) (ov : N) (stmts : list stmt) : code (option (tuple fs)) :=
    r <! run_stmts_owned fs ov stmts 0 (no_fields fs) [] ;;
    match r with
    | None => ret None
    | Some (_, p, _) => match all_fields fs p with Some t => ret (Some t) | None => fun s => (s, Stuck) end
    end.
  (** ordinal-map-derive/src/ordinal.rs:54-59, 524-528 *)
  Definition product_from_owned (fs : list ftype) (size : rexpr) (block : list stmt) (o : N) : code (option (tuple fs)) :=
    n <! look (fun _ => run_size size) ;;
    if n =? 0 then ret None else run_block_owned fs o block.
  (** [S::from_ordinal(o)], see [derive_struct] in ModelDerive.v *)
  Definition struct_from_owned (f : fields) (o : N) : code (option (tuple (field_types f))) :=
    match struct_size f, struct_ord f, struct_block f with
    | Val size, Val _, Val block =>
        if resolves block (field_vars f) then product_from_owned (field_types f) size block o else fun s => (s, Stuck)
    | _, _, _ => fun s => (s, Stuck)
    end.
  (** [<(A, B, ..)>::from_ordinal(o)], see [impl_ordinal_for_tuple_n] in ModelDerive.v *)
  Definition tuple_from_owned (tys : list ftype) (o : N) : code (option (tuple tys)) :=
    if Nat.ltb 26 (length tys) then fun s => (s, Stuck) else
    match (s <- struct_ordinal_size tys ;; expr s),
          (s <- struct_ordinal tys ;; expr s),
          struct_from_ordinal ROrdinalVar (tuple_vars 0 tys) tys with
    | Val size, Val _, Val block =>
        if resolves block (tuple_vars 0 tys) then product_from_owned tys size block o else fun s => (s, Stuck)
    | _, _, _ => fun s => (s, Stuck)
    end.
  (** ordinal-map-derive/src/ordinal.rs:439-480, see [run_branches] *)
  Fixpoint run_branches_owned (vs : list (list ftype)) (bs : list (rexpr * list stmt)) (o : N) : code (option (enum_val vs)) :=
    match vs, bs with
    | v :: r, (including, block) :: bs' =>
        n <! look (fun _ => eval false no_ordinals o including) ;;
        if o <? n then
          x <! run_block_owned v o block ;; ret (opt_map inl x)
        else
          x <! run_branches_owned r bs' o ;; ret (opt_map inr x)
    | _, _ => ret None
    end.
  (** [E::from_ordinal(o)], see [derive_enum] in ModelDerive.v *)
  Definition enum_from_owned (vs : list variant) (o : N) : code (option (enum_val (variant_types vs))) :=
    match enum_size vs, enum_arms vs 0 vs, enum_branches vs 0 vs with
    | Val size, Val _, Val bs =>
        if branches_resolve vs bs then
          n <! look (fun _ => run_size size) ;;
          if n =? 0 then ret None else run_branches_owned (variant_types vs) bs o
        else fun s => (s, Stuck)
    | _, _, _ => fun s => (s, Stuck)
    end.

  (** For the statement: a field type as a field of SpecDeriveLife.v, and the fields of a value. *)
  Definition as_field (f : ftype) : field (T := T) :=
    (match ORDINAL_SIZE (ft_ord f) with Val n => n | _ => 0 end,
     fun i => match from_ordinal (ft_ord f) i with Val o => Seen (opt_map (thing f) o) | Panic w => Caught w | _ => Seen None end).
  Fixpoint tuple_things (fs : list ftype) : tuple fs -> list T :=
    match fs with [] => fun _ => [] | f :: r => fun t => thing f (fst t) :: tuple_things r (snd t) end.
  (** The variant and the fields. *)
  Fixpoint enum_things (i : nat) (vs : list (list ftype)) : enum_val vs -> nat * list T :=
    match vs with
    | [] => fun e => match e with end
    | v :: r => fun e => match e with inl t => (i, tuple_things v t) | inr e' => enum_things (S i) r e' end
    end.
End DeriveLife.
