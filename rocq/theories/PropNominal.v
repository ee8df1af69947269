(** * PropNominal: C83 (generic declarations) and C84 (recursive declarations).

    [implements p bounds t]: trait selection finds an [Ordinal] impl for [t] in the program
    [p] when the type parameters in [bounds] have one.  [inst args ns t]: [t] with the
    parameters replaced.  [unfold p limit t]: the type expression [t] stands for, or [None]
    if the compiler gave up. *)
From Verif Require Import Base Spec SpecUniverse ModelOrdinal ModelUniverse ModelNominal SpecNominal NominalProofs.
From Coq Require Import String List Relation_Operators Lia. Import ListNotations.

(** ** C83 *)
(** The impl is accepted exactly if in every permitted instance every field has an impl. *)
Theorem C83_checked_once : forall (p : program) (it : item) (ns : list nat), well_scoped it ->
  impl_accepted p it = true <->
  forall args, arguments_ok p it args ->
    Forall (fun f => implements p [] (inst args ns f) = true) (body_types (it_body it)).
Proof. exact accepted_iff. Qed.
Print Assumptions C83_checked_once.
(** The bounds have to be written: unlike the derives of std, this one adds none. *)
Theorem C83_no_bound_added : forall (p : program) (it : item) (i : nat),
  In (GVar i) (body_types (it_body it)) -> ~ In i (it_bounds it) -> impl_accepted p it = false.
Proof. exact no_bound_added. Qed.
Print Assumptions C83_no_bound_added.
(** In an accepted program no instance lacks an impl later on. *)
Theorem C83_no_late_error : forall (p : program) (s t : gty),
  program_accepted p = true -> implements p [] t = true -> inside p s t -> implements p [] s = true.
Proof. exact inside_implements. Qed.
Print Assumptions C83_no_late_error.
(** And instances obey the law of Ordinal. *)
Theorem C83_instances_lawful : forall (cfg : Config) (p : program) (t : gty),
  program_accepted p = true -> implements p [] t = true -> finite_type p t ->
  exists limit u, (forall m, (limit <= m)%nat -> unfold p m t = Some u) /\
    forall n, ORDINAL_SIZE (impl_of u) = Val n -> ordinal_bijection (impl_of u) n.
Proof. exact @instances_lawful. Qed.
Print Assumptions C83_instances_lawful.

(** ** C84 *)
Theorem C84_endless_rejected : forall (p : program) (t : gty),
  ~ finite_type p t -> forall limit, unfold p limit t = None.
Proof. exact endless_rejected. Qed.
Print Assumptions C84_endless_rejected.
Theorem C84_cycle_rejected : forall (p : program) (s t : gty),
  inside p s s -> (s = t \/ inside p s t) -> forall limit, unfold p limit t = None.
Proof. exact cycle_rejected. Qed.
Print Assumptions C84_cycle_rejected.
Theorem C84_finite_accepted : forall (p : program) (t : gty),
  program_accepted p = true -> implements p [] t = true -> finite_type p t ->
  exists limit u, forall m, (limit <= m)%nat -> unfold p m t = Some u.
Proof. exact finite_unfolds. Qed.
Print Assumptions C84_finite_accepted.
(** The limit has no influence on what is accepted, only on whether it is. *)
Theorem C84_limit : forall (p : program) (limit limit' : nat) (t : gty) (u v : ty),
  unfold p limit t = Some u -> unfold p limit' t = Some v -> u = v.
Proof. exact unfold_unique. Qed.
Print Assumptions C84_limit.
(** Without parameters, the endless types are those with a type inside itself. *)
Theorem C84_cycles_only : forall (p : program) (t : gty), plain_program p -> plain t ->
  (finite_type p t <-> forall s, s = t \/ inside p s t -> ~ inside p s s).
Proof. exact plain_exact. Qed.
Print Assumptions C84_cycles_only.

(** ** Examples.
<<
    struct Pair<T: Ordinal>(T, bool);                     // 0
    enum List { Nil, Cons(u8, Box<List>) }                // 1
    struct Wrap<T>(T);                                    // 2
    struct Row<T: Ordinal, const N: usize>([T; N]);       // 3
    enum Grow<T: Ordinal> { A(T), B(Box<Grow<Option<T>>>) } // 4
    struct Tag { x: u8, p: Option<Pair<bool>> }           // 5
>> *)
Definition one (t : gty) : decl gty := DUnnamed [t].
Definition demo_items : program := [
  {| it_params := 1; it_bounds := [0%nat]; it_body := BStruct (DUnnamed [GVar 0; GPrim Pbool]) |};
  {| it_params := 0; it_bounds := []; it_body := BEnum [VDecl None DUnit; VDecl None (DUnnamed [GPrim Pu8; GBox (GNamed 1 [] [])])] |};
  {| it_params := 1; it_bounds := []; it_body := BStruct (one (GVar 0)) |};
  {| it_params := 1; it_bounds := [0%nat]; it_body := BStruct (one (GArray (GVar 0) (LParam 0))) |};
  {| it_params := 1; it_bounds := [0%nat]; it_body := BEnum [VDecl None (one (GVar 0)); VDecl None (one (GBox (GNamed 4 [GOption (GVar 0)] [])))] |};
  {| it_params := 0; it_bounds := []; it_body := BStruct (DNamed [("x"%string, GPrim Pu8); ("p"%string, GOption (GNamed 0 [GPrim Pbool] []))]) |} ].

Example which_accepted : map (impl_accepted demo_items) demo_items = [true; true; false; true; true; true].
Proof. reflexivity. Qed.
(** [Wrap<bool>] alone would be fine. *)
Example wrap_bool : implements demo_items [] (inst [GPrim Pbool] [] (GVar 0)) = true.
Proof. reflexivity. Qed.

(** With [struct Wrap<T: Ordinal>(T)] instead. *)
Definition good_items : program :=
  firstn 2 demo_items ++ [{| it_params := 1; it_bounds := [0%nat]; it_body := BStruct (one (GVar 0)) |}] ++ skipn 3 demo_items.
Example good_accepted : program_accepted good_items = true.
Proof. reflexivity. Qed.
(** [Row<Pair<bool>, 2>] has 16 values. *)
Definition row : gty := GNamed 3 [GNamed 0 [GPrim Pbool] []] [LConst 2].
Definition row_ty : ty := TStruct (DUnnamed [TArray (TStruct (DUnnamed [TPrim Pbool; TPrim Pbool])) 2]).
Example row_implements : implements good_items [] row = true.
Proof. reflexivity. Qed.
Example row_unfolds : forall m, (4 <= m)%nat -> unfold good_items m row = Some row_ty.
Proof. intros m H. exact (@unfold_mono good_items 4 m row row_ty H eq_refl). Qed.
Example row_finite : finite_type good_items row.
Proof. apply (@unfold_finite good_items 4). discriminate. Qed.
Example row_size : forall cfg : Config, ORDINAL_SIZE (impl_of row_ty) = Val 16.
Proof. intros [[] [] []]; reflexivity. Qed.
(** A field type without an impl is found with the parameters left open. *)
Example foreign_field : impl_accepted good_items
  {| it_params := 1; it_bounds := [0%nat]; it_body := BStruct (DUnnamed [GVar 0; GForeign]) |} = false.
Proof. reflexivity. Qed.

(** [List] is inside itself, [Grow<bool>] never ends without being so. *)
Example list_cycle : inside good_items (GNamed 1 [] []) (GNamed 1 [] []).
Proof.
  eapply t_trans; apply t_step.
  - instantiate (1 := GBox (GNamed 1 [] [])). left. reflexivity.
  - right. left. reflexivity.
Qed.
Example list_rejected : forall limit, unfold good_items limit (GOption (GNamed 1 [] [])) = None.
Proof.
  apply (cycle_rejected list_cycle). right. apply t_step. left. reflexivity.
Qed.
Example grow_rejected : forall limit t, unfold good_items limit (GNamed 4 [t] []) = None.
Proof.
  assert (G : forall n m t, (m <= n)%nat -> unfold good_items m (GNamed 4 [t] []) = None).
  { induction n as [|n IH]; intros [|[|m]] t H; try reflexivity; [inversion H|].
    destruct (unfold good_items (S (S m)) (GNamed 4 [t] [])) as [u|] eqn:E; [|reflexivity]. exfalso.
    assert (A : unfold good_items (S (S m)) (GNamed 4 [t] []) <> None) by congruence.
    apply unfold_parts in A. inversion A as [|? ? _ A1]. inversion A1 as [|? ? A2 _].
    apply unfold_parts in A2. inversion A2 as [|? ? A3 _]. apply A3, (IH m (GOption t)). lia. }
  intros limit t. exact (G limit limit t (le_n limit)).
Qed.
Example plain_list_item : plain_program [nth 1 demo_items {| it_params := 0; it_bounds := []; it_body := BStruct DUnit |}].
Proof. repeat constructor. Qed.
