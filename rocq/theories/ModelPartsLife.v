(** * ModelPartsLife: [from_ordinal] of structs, tuples, enums and arrays, when that of a part is arbitrary code.

    The code of ModelDeriveLife.v and ModelArrayLife.v; [dec f i] is the code of [from_ordinal(i)] of the type [f],
    which may destroy values itself, has a state in [M], and need not be a function. *)
From Verif Require Import Base Spec SpecCatch ModelOrdinal ModelArrayBuilder ModelDerive ModelCatch ModelLife ModelKeyMake ModelDeriveLife ModelArrayLife
  SpecKeyMake SpecPartsLife.
From Coq Require Import List. Import ListNotations.

(** [x.unwrap()] *)
Definition unwrapped {M A} (x : act M (option A)) : act M A :=
  v <! x ;; match v with Some a => ret a | None => fun s => (s, Unwinds PUnwrap) end.
(** Code as a callback of SpecKeyMake.v. *)
Definition as_calls {T M A B} (f : A -> B) (x : act (list T * M) (option A)) : calls (T := T) (St := M) (option B) :=
  fun s => let '(s', e) := x s in
           (s', match e with Ended o => Some (Seen (opt_map f o)) | Unwinds w => Some (Caught w) | Aborts | Stuck => None end).

Section Products.
  Context {cfg : Config} {T : Type} (boom : list T -> T -> option panic) (thing : forall f : ftype, ft_T f -> T) {M : Type}.
  Local Notation code := (act (list T * M)).
  Context (dec : forall f : ftype, N -> code (option (ft_T f))).

  (** [<ty_i as Ordinal>::from_ordinal(o).unwrap()], see [decode_field] in ModelDerive.v *)
  Fixpoint decode_field_called (fs : list ftype) (i : nat) (o : N) : partial_tuple fs -> code (partial_tuple fs) :=
    match fs with
    | [] => fun _ s => (s, Stuck)
    | f :: r =>
        match i with
        | O => fun p => v <! unwrapped (dec f o) ;; ret (Some v, snd p)
        | S i' => fun p => p' <! decode_field_called r i' o (snd p) ;; ret (fst p, p')
        end
    end.
  (** ordinal-map-derive/src/ordinal.rs:260-303, see [run_stmts_owned] in ModelDeriveLife.v *)
  Fixpoint run_stmts_called (fs : list ftype) (ov : N) (stmts : list stmt) (rem : N) (p : partial_tuple fs) (locals : list T)
      : code (option (N * partial_tuple fs * list T)) :=
    match stmts with
    | [] => ret (Some (rem, p, locals))
    | LetMutRem e :: r =>
        rem' <! owning boom locals (look (fun _ => eval false no_ordinals ov e)) ;;
        run_stmts_called fs ov r rem' p locals
    | LetField _ i sz :: r =>
        p' <! owning boom locals (
          o <! look (fun _ => n <- eval false no_ordinals ov sz ;; urem rem n) ;;
          decode_field_called fs i o p) ;;
        run_stmts_called fs ov r rem p' (field_thing thing fs i p' ++ locals)
    | RemDivAssign sz :: r =>
        rem' <! owning boom locals (look (fun _ => n <- eval false no_ordinals ov sz ;; udiv rem n)) ;;
        run_stmts_called fs ov r rem' p locals
    | IfRemReturnNone :: r =>
        if negb (rem =? 0) then glue boom locals ;;! ret None else run_stmts_called fs ov r rem p locals
    end.
  Definition run_block_called (fs : list ftype) (ov : N) (stmts : list stmt) : code (option (tuple fs)) :=
    r <! run_stmts_called fs ov stmts 0 (no_fields fs) [] ;;
    match r with
    | None => ret None
    | Some (_, p, _) => match all_fields fs p with Some t => ret (Some t) | None => fun s => (s, Stuck) end
    end.
  (** ordinal-map-derive/src/ordinal.rs:54-59, 524-528 *)
  Definition product_from_called (fs : list ftype) (size : rexpr) (block : list stmt) (o : N) : code (option (tuple fs)) :=
    n <! look (fun _ => run_size size) ;;
    if n =? 0 then ret None else run_block_called fs o block.
  (** [S::from_ordinal(o)], see [derive_struct] in ModelDerive.v *)
  Definition struct_from_called (f : fields) (o : N) : code (option (tuple (field_types f))) :=
    match struct_size f, struct_ord f, struct_block f with
    | Val size, Val _, Val block =>
        if resolves block (field_vars f) then product_from_called (field_types f) size block o else fun s => (s, Stuck)
    | _, _, _ => fun s => (s, Stuck)
    end.
  (** [<(A, B, ..)>::from_ordinal(o)], see [impl_ordinal_for_tuple_n] in ModelDerive.v *)
  Definition tuple_from_called (tys : list ftype) (o : N) : code (option (tuple tys)) :=
    if Nat.ltb 26 (length tys) then fun s => (s, Stuck) else
    match (s <- struct_ordinal_size tys ;; expr s),
          (s <- struct_ordinal tys ;; expr s),
          struct_from_ordinal ROrdinalVar (tuple_vars 0 tys) tys with
    | Val size, Val _, Val block =>
        if resolves block (tuple_vars 0 tys) then product_from_called tys size block o else fun s => (s, Stuck)
    | _, _, _ => fun s => (s, Stuck)
    end.

  (** ordinal-map-derive/src/ordinal.rs:439-480, see [run_branches] *)
  Fixpoint run_branches_called (vs : list (list ftype)) (bs : list (rexpr * list stmt)) (o : N) : code (option (enum_val vs)) :=
    match vs, bs with
    | v :: r, (including, block) :: bs' =>
        n <! look (fun _ => eval false no_ordinals o including) ;;
        if o <? n then
          x <! run_block_called v o block ;; ret (opt_map inl x)
        else
          x <! run_branches_called r bs' o ;; ret (opt_map inr x)
    | _, _ => ret None
    end.
  (** [E::from_ordinal(o)], see [derive_enum] in ModelDerive.v *)
  Definition enum_from_called (vs : list variant) (o : N) : code (option (enum_val (variant_types vs))) :=
    match enum_size vs, enum_arms vs 0 vs, enum_branches vs 0 vs with
    | Val size, Val _, Val bs =>
        if branches_resolve vs bs then
          n <! look (fun _ => run_size size) ;;
          if n =? 0 then ret None else run_branches_called (variant_types vs) bs o
        else fun s => (s, Stuck)
    | _, _, _ => fun s => (s, Stuck)
    end.

  (** For the statement. *)
  Definition as_part (f : ftype) : part (T := T) (St := M) :=
    (match ORDINAL_SIZE (ft_ord f) with Val n => n | _ => 0 end, fun i => as_calls (thing f) (dec f i)).
End Products.

Section Arrays.
  Context {T : Type} (boom : list T -> T -> option panic) {E : Type} (thing : E -> T) (O : Ordinal E) (len : nat) {M : Type}.
  Local Notation code := (act (list T * M)).
  Context (dec : N -> code (option E)).

  (** ordinal/impls/array.rs:24-41, see [array_from_loop_owned] in ModelArrayLife.v *)
  Fixpoint array_from_loop_called (size : N) (turns : nat) (n : N) (b : builder E) : code (option (arr E len)) :=
    match turns with
    | Datatypes.O =>
        if negb (n =? 0) then builder_end boom (elem_of thing) b ;;! ret None
        else
          a <! finish_owned boom (elem_of thing) len b ;;
          look (fun _ => match try_arr len (rev (arr_list a)) with None => UB | Some a' => Val (Some a') end)
    | S turns' =>
        match checked_rem n size with
        | None => builder_end boom (elem_of thing) b ;;! ret None
        | Some i =>
            v <! building boom (elem_of thing) b (unwrapped (dec i)) ;;
            b' <! building boom (elem_of thing) b (push_owned boom (elem_of thing) len b v) ;;
            n' <! building boom (elem_of thing) b' (look (fun _ => udiv n size)) ;;
            array_from_loop_called size turns' n' b'
        end
    end.
  Definition array_from_called (o : N) : code (option (arr E len)) :=
    match ORDINAL_SIZE O with
    | Val size => array_from_loop_called size len o (builder_new len)
    | _ => fun s => (s, Stuck)
    end.
  (** For the statement. *)
  Definition elem_part : part (T := T) (St := M) :=
    (match ORDINAL_SIZE O with Val n => n | _ => 0 end, fun i => as_calls thing (dec i)).
End Arrays.
