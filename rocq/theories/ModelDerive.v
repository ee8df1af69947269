(** * ModelDerive: ordinal-map-derive/src/ordinal.rs.

    The macro is modelled as a generator: a declaration is turned into [SizeExpr]s,
    these into Rust expressions ([rexpr]) and statements ([stmt]); the generated code is
    then run by an evaluator with usize semantics. *)
From Verif Require Import Base Spec.
From Coq Require Import String Ascii List.
Import ListNotations.

(** A field type: a Rust type with its [Ordinal] impl. [ft_lt] is Rust's [<] on it; it
    is used only in the statement of the order property. *)
Record ftype := {
  ft_T : Type;
  ft_ord : Ordinal ft_T;
  ft_lt : ft_T -> ft_T -> Prop
}.

(** syn::Fields *)
Inductive fields :=
| FUnit
| FUnnamed (tys : list ftype)
| FNamed (fs : list (string * ftype)).

(** A variant; its explicit discriminant (never read by the macro) and fields. *)
Record variant := { v_discriminant : option Z; v_fields : fields }.

(** ordinal-map-derive/src/ordinal.rs:87-89 *)
Definition field_types (f : fields) : list ftype :=
  match f with
  | FUnit => []
  | FUnnamed tys => tys
  | FNamed fs => map snd fs
  end.

Definition digit (n : nat) : string := String (ascii_of_nat (48 + n)) EmptyString.
Fixpoint dec_fuel (fuel n : nat) : string :=
  match fuel with
  | O => EmptyString
  | S fuel' => if Nat.ltb n 10 then digit n
               else (dec_fuel fuel' (Nat.div n 10) ++ digit (Nat.modulo n 10))%string
  end.
(** Decimal text of a field index. *)
Definition dec (n : nat) : string := dec_fuel (S n) n.

Fixpoint numbered_names (prefix : string) (i : nat) (tys : list ftype) : list string :=
  match tys with
  | [] => []
  | _ :: r => (prefix ++ dec i)%string :: numbered_names prefix (S i) r
  end.

(** ordinal-map-derive/src/ordinal.rs:80-85 *)
Definition field_vars (f : fields) : list string :=
  match f with
  | FUnit => []
  | FUnnamed tys => numbered_names "f" 0 tys
  | FNamed fs => map fst fs
  end.

(** ** Generated Rust expressions (of type usize) *)
Inductive rexpr :=
| RLit (c : N)                  (* {c}usize *)
| RSizeOf (ty : ftype)          (* <ty as ordinal_map::Ordinal>::ORDINAL_SIZE *)
| ROrdinalOf (field : nat)      (* ordinal_map::Ordinal::ordinal(<field expr>) *)
| RAdd (a b : rexpr)
| RMul (a b : rexpr)
| RSub (a b : rexpr)
| ROrdinalVar                   (* the parameter [ordinal] *)
| RConst (e : rexpr).           (* const { e } *)

(** ordinal-map-derive/src/ordinal.rs:91-96 *)
Inductive SizeExpr :=
| SConst (c : N)
| SSyn (e : rexpr)
| SSum (l : list SizeExpr)
| SProduct (l : list SizeExpr).

Definition u64_max : N := 18446744073709551615.

(** ordinal-map-derive/src/ordinal.rs:99-103 *)
Definition ordinal_size_expr (ty : ftype) : SizeExpr := SSyn (RSizeOf ty).

(** ordinal-map-derive/src/ordinal.rs:105-109 *)
Definition ordinal_expr (field : nat) : SizeExpr := SSyn (ROrdinalOf field).

(** ordinal-map-derive/src/ordinal.rs:112-121 *)
Definition product_ignore_const (exprs : list SizeExpr) : SizeExpr :=
  match exprs with
  | [] => SConst 1
  | [first] => first
  | first :: second :: rest => SProduct (first :: second :: rest)
  end.

(** ordinal-map-derive/src/ordinal.rs:125-131: the loop;
    [expect("size overflow")] in u64 aborts macro expansion. *)
Fixpoint product_scan (exprs : list SizeExpr) (product : N) (items : list SizeExpr)
    : res (N * list SizeExpr) :=
  match exprs with
  | [] => Val (product, items)
  | SConst c :: r =>
      if product * c <=? u64_max then product_scan r (product * c) items else NoCompile
  | SProduct xs :: r => product_scan r product (items ++ xs)
  | (SSyn _ | SSum _) as s :: r => product_scan r product (items ++ [s])
  end.

(** ordinal-map-derive/src/ordinal.rs:111-137 *)
Definition product (exprs : list SizeExpr) : res SizeExpr :=
  '(p, items) <- product_scan exprs 1 [] ;;
  if p =? 0 then Val (SConst 0)
  else if p =? 1 then Val (product_ignore_const items)
  else Val (product_ignore_const (SConst p :: items)).

(** ordinal-map-derive/src/ordinal.rs:140-149 *)
Definition sum_ignore_const (exprs : list SizeExpr) : SizeExpr :=
  match exprs with
  | [] => SConst 0
  | [first] => first
  | first :: second :: rest => SSum (first :: second :: rest)
  end.

(** ordinal-map-derive/src/ordinal.rs:153-159 *)
Fixpoint sum_scan (exprs : list SizeExpr) (sum : N) (items : list SizeExpr)
    : res (N * list SizeExpr) :=
  match exprs with
  | [] => Val (sum, items)
  | SConst c :: r =>
      if sum + c <=? u64_max then sum_scan r (sum + c) items else NoCompile
  | SSum xs :: r => sum_scan r sum (items ++ xs)
  | (SSyn _ | SProduct _) as s :: r => sum_scan r sum (items ++ [s])
  end.

(** ordinal-map-derive/src/ordinal.rs:139-164 *)
Definition sum (exprs : list SizeExpr) : res SizeExpr :=
  '(s, items) <- sum_scan exprs 0 [] ;;
  if s =? 0 then Val (sum_ignore_const items)
  else Val (sum_ignore_const (SConst s :: items)).

(** [( first op e op e ... )] *)
Definition chain (op : rexpr -> rexpr -> rexpr) (es : list rexpr) : res rexpr :=
  match es with
  | first :: _ :: _ => Val (fold_left op (tl es) first)
  | _ => NoCompile               (* assert!(exprs.len() >= 2) in the macro *)
  end.

(** ordinal-map-derive/src/ordinal.rs:171-196 *)
Fixpoint expr (s : SizeExpr) : res rexpr :=
  match s with
  | SConst c => Val (RLit c)
  | SSyn e => Val e
  | SSum l =>
      es <- (fix go (l : list SizeExpr) : res (list rexpr) :=
               match l with
               | [] => Val []
               | x :: r => e <- expr x ;; es <- go r ;; Val (e :: es)
               end) l ;;
      chain RAdd es
  | SProduct l =>
      es <- (fix go (l : list SizeExpr) : res (list rexpr) :=
               match l with
               | [] => Val []
               | x :: r => e <- expr x ;; es <- go r ;; Val (e :: es)
               end) l ;;
      chain RMul es
  end.

(** ordinal-map-derive/src/ordinal.rs:198-210 *)
Definition const_expr (s : SizeExpr) : res rexpr :=
  match s with
  | SConst c => Val (RLit c)
  | s => e <- expr s ;; Val (RConst e)
  end.

(** ordinal-map-derive/src/ordinal.rs:217-219 *)
Definition struct_ordinal_size (types : list ftype) : res SizeExpr :=
  product (map ordinal_size_expr types).

(** ordinal-map-derive/src/ordinal.rs:226-228 *)
Definition tuple_2_ordinal (a b b_count : SizeExpr) : res SizeExpr :=
  p <- product [a; b_count] ;; sum [p; b].

(** ordinal-map-derive/src/ordinal.rs:230-250; fields are named by position. *)
Fixpoint struct_ordinal_impl (field_exprs : list nat) (types : list ftype) : res SizeExpr :=
  match field_exprs, types with
  | [], [] => Val (SConst 0)
  | [field], [_] => Val (ordinal_expr field)
  | first_expr :: rem_exprs, _ :: rem_tys =>
      rem_count <- product (map ordinal_size_expr rem_tys) ;;
      rem_expr <- struct_ordinal_impl rem_exprs rem_tys ;;
      tuple_2_ordinal (ordinal_expr first_expr) rem_expr rem_count
  | _, _ => NoCompile            (* "Mismatched field_expr_refs and field_types" *)
  end.

(** ordinal-map-derive/src/ordinal.rs:221-258 *)
Definition struct_ordinal (types : list ftype) : res SizeExpr :=
  struct_ordinal_impl (seq 0 (length types)) types.

(** ** Generated statements of [from_ordinal] *)
Inductive stmt :=
| LetMutRem (e : rexpr)                          (* let mut rem = e; *)
| LetField (x : string) (field : nat) (sz : rexpr)
    (* let x = <ty_field as Ordinal>::from_ordinal(rem % sz).unwrap(); *)
| RemDivAssign (sz : rexpr)                      (* rem /= sz; *)
| IfRemReturnNone.                               (* if rem != 0 { return None } *)

(** ordinal-map-derive/src/ordinal.rs:274-285: the statements of one field. *)
Fixpoint field_stmts (vars : list string) (i : nat) (types : list ftype)
    : res (list (list stmt)) :=
  match vars, types with
  | x :: vars', ty :: types' =>
      sz <- const_expr (ordinal_size_expr ty) ;;
      r <- field_stmts vars' (S i) types' ;;
      Val ([LetField x i sz; RemDivAssign sz] :: r)
  | _, _ => Val []               (* zip stops at the shorter list *)
  end.

(** ordinal-map-derive/src/ordinal.rs:260-303: statements (fields in reverse order) of the
    block; the constructor call
    mentions the field variables in declaration order. *)
Definition struct_from_ordinal (ordinal : rexpr) (vars : list string) (types : list ftype)
    : res (list stmt) :=
  fs <- field_stmts vars 0 types ;;
  Val (LetMutRem ordinal :: concat (rev fs) ++ [IfRemReturnNone]).

(** *** Name resolution of a generated block *)
Inductive binder := BMutUsize | BUsize | BField (field : nat).

Fixpoint lookup (x : string) (env : list (string * binder)) : option binder :=
  match env with
  | [] => None
  | (y, b) :: r => if String.eqb x y then Some b else lookup x r
  end.

(** [rem] must denote the mutable usize local for [rem %], [rem /=] and [rem != 0] to
    type-check (no Ordinal impl exists for usize, so a field is never a usize). *)
Definition rem_ok (env : list (string * binder)) : bool :=
  match lookup "rem" env with Some BMutUsize => true | _ => false end.

(** A pattern [x] binds a variable only if [x] is not the name of a constant, static, unit or
    tuple struct or variant in scope. The prelude has the variants [None] (a pattern that
    fails to type-check or is refutable; not so for a field of type [Option<!>], which is
    treated as rejected all the same) and [Some], [Ok], [Err] (error E0530). Other such
    items around the derive are the subject of ModelSite.v. *)
Definition prelude_values : list string := ["None"; "Some"; "Ok"; "Err"]%string.
Definition bindable (x : string) : bool := negb (existsb (String.eqb x) prelude_values).

Fixpoint ctor_args_ok (env : list (string * binder)) (vars : list string) (i : nat) : bool :=
  match vars with
  | [] => true
  | x :: r => match lookup x env with
              | Some (BField j) => Nat.eqb i j && ctor_args_ok env r (S i)
              | _ => false
              end
  end.

Fixpoint block_resolves (env : list (string * binder)) (stmts : list stmt)
    (ctor_args : list string) : bool :=
  match stmts with
  | [] => ctor_args_ok env ctor_args 0
  | LetMutRem _ :: r => block_resolves (("rem"%string, BMutUsize) :: env) r ctor_args
  | LetField x i _ :: r => bindable x && rem_ok env && block_resolves ((x, BField i) :: env) r ctor_args
  | RemDivAssign _ :: r => rem_ok env && block_resolves env r ctor_args
  | IfRemReturnNone :: r => rem_ok env && block_resolves env r ctor_args
  end.

(** The parameter [ordinal] is the only name in scope at the start of a block. *)
Definition resolves (stmts : list stmt) (ctor_args : list string) : bool :=
  block_resolves [("ordinal"%string, BUsize)] stmts ctor_args.

(** ** Values of declared types *)

(** The fields of a struct / variant / tuple. *)
Fixpoint tuple (fs : list ftype) : Type :=
  match fs with
  | [] => unit
  | f :: r => (ft_T f * tuple r)%type
  end.

(** A value of an enum whose variants have these field types. *)
Fixpoint enum_val (vs : list (list ftype)) : Type :=
  match vs with
  | [] => Empty_set
  | v :: r => (tuple v + enum_val r)%type
  end.

(** Partially decoded fields. *)
Fixpoint partial_tuple (fs : list ftype) : Type :=
  match fs with
  | [] => unit
  | f :: r => (option (ft_T f) * partial_tuple r)%type
  end.

Fixpoint no_fields (fs : list ftype) : partial_tuple fs :=
  match fs with
  | [] => tt
  | f :: r => (None, no_fields r)
  end.

Fixpoint all_fields (fs : list ftype) : partial_tuple fs -> option (tuple fs) :=
  match fs with
  | [] => fun _ => Some tt
  | f :: r => fun p =>
      match fst p, all_fields r (snd p) with
      | Some v, Some t => Some (v, t)
      | _, _ => None
      end
  end.

(** ** Running the generated code *)
Section Run.
  Context {cfg : Config}.

  (** [<ty_i as Ordinal>::from_ordinal(o).unwrap()] stored into field [i]. *)
  Fixpoint decode_field (fs : list ftype) (i : nat) (o : N)
      : partial_tuple fs -> res (partial_tuple fs) :=
    match fs with
    | [] => fun _ => NoCompile
    | f :: r =>
        match i with
        | O => fun p =>
            x <- from_ordinal (ft_ord f) o ;;
            v <- unwrap x ;;
            Val (Some v, snd p)
        | S i' => fun p => p' <- decode_field r i' o (snd p) ;; Val (fst p, p')
        end
    end.

  (** [Ordinal::ordinal(&field_i)]. *)
  Fixpoint field_ordinal (fs : list ftype) : tuple fs -> nat -> res N :=
    match fs with
    | [] => fun _ _ => NoCompile
    | f :: r => fun t i =>
        match i with
        | O => ordinal (ft_ord f) (fst t)
        | S i' => field_ordinal r (snd t) i'
        end
    end.

  (** Evaluation; [ctx] is true in const contexts, [fo] gives the ordinals of the
      fields in scope and [ov] the value of the parameter [ordinal]. *)
  Fixpoint eval (ctx : bool) (fo : nat -> res N) (ov : N) (e : rexpr) : res N :=
    match e with
    | RLit c => if c <=? usize_max then Val c else NoCompile  (* overflowing_literals *)
    | RSizeOf ty => ORDINAL_SIZE (ft_ord ty)
    | ROrdinalOf i => fo i
    | RAdd a b => x <- eval ctx fo ov a ;; y <- eval ctx fo ov b ;;
                  if ctx then cadd x y else uadd x y
    | RMul a b => x <- eval ctx fo ov a ;; y <- eval ctx fo ov b ;;
                  if ctx then cmul x y else umul x y
    | RSub a b => x <- eval ctx fo ov a ;; y <- eval ctx fo ov b ;;
                  if ctx then csub x y else usub x y
    | ROrdinalVar => Val ov
    | RConst e => eval true fo ov e
    end.

  Definition no_ordinals : nat -> res N := fun _ => NoCompile.

  (** Runs the statements from a value of [rem] and the fields bound so far; [None]
      means [return None] was executed. *)
  Fixpoint run_stmts (fs : list ftype) (ov : N) (stmts : list stmt)
      (rem : N) (p : partial_tuple fs) : res (option (N * partial_tuple fs)) :=
    match stmts with
    | [] => Val (Some (rem, p))
    | LetMutRem e :: r =>
        rem' <- eval false no_ordinals ov e ;;
        run_stmts fs ov r rem' p
    | LetField _ i sz :: r =>
        n <- eval false no_ordinals ov sz ;;
        o <- urem rem n ;;
        p' <- decode_field fs i o p ;;
        run_stmts fs ov r rem p'
    | RemDivAssign sz :: r =>
        n <- eval false no_ordinals ov sz ;;
        rem' <- udiv rem n ;;
        run_stmts fs ov r rem' p
    | IfRemReturnNone :: r =>
        if negb (rem =? 0) then Val None else run_stmts fs ov r rem p
    end.

  (** The whole block [{ stmts; Some(Ctor(vars)) }]. *)
  Definition run_block (fs : list ftype) (ov : N) (stmts : list stmt)
      : res (option (tuple fs)) :=
    r <- run_stmts fs ov stmts 0 (no_fields fs) ;;
    match r with
    | None => Val None
    | Some (_, p) => match all_fields fs p with
                | Some t => Val (Some t)
                | None => NoCompile      (* use of an undeclared variable *)
                end
    end.

  (** An impl that does not compile: every use is a compile error. *)
  Definition rejected (T : Type) : Ordinal T := {|
    ORDINAL_SIZE := NoCompile;
    ordinal := fun _ => NoCompile;
    from_ordinal := fun _ => NoCompile
  |}.

  (** [const ORDINAL_SIZE: usize = #size;] (ordinal-map-derive/src/ordinal.rs:47, 517) *)
  Definition run_size (e : rexpr) : res N := eval true no_ordinals 0 e.

  (** The impl emitted for a product type from its three generated pieces
      (ordinal-map-derive/src/ordinal.rs:44-60 for structs, 515-529 for tuples, with
      check_overflow 63-68 and
      check_zero_size 70-78). *)
  Definition product_impl (fs : list ftype) (size ord : rexpr) (block : list stmt)
      : Ordinal (tuple fs) := {|
    ORDINAL_SIZE := run_size size;
    ordinal := fun self =>
      run_size size ;;;
      eval false (field_ordinal fs self) 0 ord;
    from_ordinal := fun o =>
      n <- run_size size ;;
      if n =? 0 then Val None else run_block fs o block
  |}.

  (** ordinal-map-derive/src/ordinal.rs:305-362 and 14-22: the generated pieces for a struct. *)
  Definition struct_size (f : fields) : res rexpr :=
    s <- struct_ordinal_size (field_types f) ;; expr s.
  Definition struct_ord (f : fields) : res rexpr :=
    s <- struct_ordinal (field_types f) ;; expr s.
  Definition struct_block (f : fields) : res (list stmt) :=
    struct_from_ordinal ROrdinalVar (field_vars f) (field_types f).

  (** [#[derive(Ordinal)] struct S {...}] (ordinal-map-derive/src/ordinal.rs:4-61). *)
  Definition derive_struct (f : fields) : Ordinal (tuple (field_types f)) :=
    match struct_size f, struct_ord f, struct_block f with
    | Val size, Val ord, Val block =>
        if resolves block (field_vars f)
        then product_impl (field_types f) size ord block
        else rejected _
    | _, _, _ => rejected _
    end.

  (** The variables [a], [b], ... of impl_ordinal_for_tuple_n (ordinal-map-derive/src/ordinal.rs:489-491). *)
  Fixpoint tuple_vars (i : nat) (tys : list ftype) : list string :=
    match tys with
    | [] => []
    | _ :: r => String (ascii_of_nat (97 + i)) EmptyString :: tuple_vars (S i) r
    end.

  (** ordinal-map-derive/src/ordinal.rs:484-530. From 27 elements on, [format_ident!] of the
      character after [Z] (ordinal.rs:486-488) panics, so that the crate does not compile. *)
  Definition impl_ordinal_for_tuple_n (tys : list ftype) : Ordinal (tuple tys) :=
    if Nat.ltb 26 (length tys) then rejected _ else
    match (s <- struct_ordinal_size tys ;; expr s),
          (s <- struct_ordinal tys ;; expr s),
          struct_from_ordinal ROrdinalVar (tuple_vars 0 tys) tys with
    | Val size, Val ord, Val block =>
        if resolves block (tuple_vars 0 tys)
        then product_impl tys size ord block
        else rejected _
    | _, _, _ => rejected _
    end.

  (** ** Enums *)

  Fixpoint sizes_of (vs : list variant) : res (list SizeExpr) :=
    match vs with
    | [] => Val []
    | v :: r =>
        s <- struct_ordinal_size (field_types (v_fields v)) ;;
        ss <- sizes_of r ;;
        Val (s :: ss)
    end.

  (** ordinal-map-derive/src/ordinal.rs:369-377 *)
  Definition size_of_first_variants (vs : list variant) (i : nat) : res SizeExpr :=
    sizes <- sizes_of (firstn i vs) ;; sum sizes.

  (** ordinal-map-derive/src/ordinal.rs:379-381 *)
  Definition enum_size (vs : list variant) : res rexpr :=
    s <- size_of_first_variants vs (length vs) ;; expr s.

  (** ordinal-map-derive/src/ordinal.rs:389-428: one arm per variant. *)
  Fixpoint enum_arms (vs : list variant) (i : nat) (rest : list variant) : res (list rexpr) :=
    match rest with
    | [] => Val []
    | v :: r =>
        before <- size_of_first_variants vs i ;;
        so <- struct_ordinal (field_types (v_fields v)) ;;
        s <- sum [before; so] ;;
        value <- expr s ;;
        arms <- enum_arms vs (S i) r ;;
        Val (value :: arms)
    end.

  (** ordinal-map-derive/src/ordinal.rs:439-473: one
      [if ordinal < including { return block }] per variant. *)
  Fixpoint enum_branches (vs : list variant) (i : nat) (rest : list variant)
      : res (list (rexpr * list stmt)) :=
    match rest with
    | [] => Val []
    | v :: r =>
        before_s <- size_of_first_variants vs i ;;
        before <- const_expr before_s ;;
        including_s <- size_of_first_variants vs (S i) ;;
        including <- const_expr including_s ;;
        block <- struct_from_ordinal (RSub ROrdinalVar before)
                   (field_vars (v_fields v)) (field_types (v_fields v)) ;;
        bs <- enum_branches vs (S i) r ;;
        Val ((including, block) :: bs)
    end.

  Definition variant_types (vs : list variant) : list (list ftype) :=
    map (fun v => field_types (v_fields v)) vs.

  (** Running [match self { arms }]. *)
  Fixpoint run_arms (vs : list (list ftype)) (arms : list rexpr) : enum_val vs -> res N :=
    match vs with
    | [] => fun e => match e with end
    | v :: r => fun e =>
        match arms with
        | [] => NoCompile                  (* non-exhaustive match *)
        | a :: arms' =>
            match e with
            | inl t => eval false (field_ordinal v t) 0 a
            | inr e' => run_arms r arms' e'
            end
        end
    end.

  (** Running the [if] chain followed by [None] (ordinal-map-derive/src/ordinal.rs:474-480). *)
  Fixpoint run_branches (vs : list (list ftype)) (bs : list (rexpr * list stmt)) (o : N)
      : res (option (enum_val vs)) :=
    match vs, bs with
    | v :: r, (including, block) :: bs' =>
        n <- eval false no_ordinals o including ;;
        if o <? n then
          x <- run_block v o block ;; Val (opt_map inl x)
        else
          x <- run_branches r bs' o ;; Val (opt_map inr x)
    | _, _ => Val None
    end.

  Fixpoint branches_resolve (vs : list variant) (bs : list (rexpr * list stmt)) : bool :=
    match vs, bs with
    | v :: r, (_, block) :: bs' =>
        resolves block (field_vars (v_fields v)) && branches_resolve r bs'
    | _, _ => true
    end.

  (** [#[derive(Ordinal)] enum E {...}] (ordinal-map-derive/src/ordinal.rs:4-61,
      364-482). For an enum without variants
      the body of [ordinal] is the literal 0 (384-387), unreachable here. *)
  Definition derive_enum (vs : list variant) : Ordinal (enum_val (variant_types vs)) :=
    match enum_size vs, enum_arms vs 0 vs, enum_branches vs 0 vs with
    | Val size, Val arms, Val bs =>
        if branches_resolve vs bs then {|
          ORDINAL_SIZE := run_size size;
          ordinal := fun self =>
            run_size size ;;;
            run_arms (variant_types vs) arms self;
          from_ordinal := fun o =>
            n <- run_size size ;;
            if n =? 0 then Val None else run_branches (variant_types vs) bs o
        |} else rejected _
    | _, _, _ => rejected _
    end.
End Run.
