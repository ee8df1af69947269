(** * SafetyProofs4: proofs for C64, whole programs, every provided type, AtomicOrdinal. *)
From Verif Require Import Base Spec SpecMap SpecTotal SpecSet SpecIter SpecAtomic SpecDerive SpecUniverse SpecSafety
  ModelOrdinal ModelValues ModelArrayBuilder ModelDerive ModelIter ModelMap ModelTotal ModelSet ModelAtomic ModelUniverse
  MapMachine TotalMachine SetMachine UniverseProofs2 UniverseProofs4 SafetyProofs SafetyProofs2 SafetyProofs3.
From Coq Require Import String List. Import ListNotations.
Unset Strict Implicit.

Section Programs.
  Context {cfg : Config} {K V : Type}.

  Lemma run_any {Op Out St} (step : Ordinal K -> Op -> St -> res (Out * St)) :
    (forall O, any_impl O -> forall op s, post (step O op s) (fun _ => True)) ->
    forall ops : list (Ordinal K * Op), Forall (fun p => any_impl (fst p)) ops ->
    forall s, no_ub (run_ops (fun p => step (fst p) (snd p)) ops s).
  Proof.
    intros H ops F. apply run_no_ub. eapply Forall_impl; [|exact F]. intros [O op] HO s.
    exact (post_no_ub (H O HO op s)).
  Qed.
  Lemma heap_any (ops : list (Ordinal K * map_op K V)) : Forall (fun p => any_impl (fst p)) ops ->
    forall m, no_ub (run_ops (fun p => heap_step (fst p) (snd p)) ops m).
  Proof. apply run_any. intros O HO. exact (heap_step_good HO). Qed.
  Lemma array_any S (ops : list (Ordinal K * map_op K V)) : Forall (fun p => any_impl (fst p)) ops ->
    forall m, no_ub (run_ops (fun p => array_step (fst p) (S := S) (snd p)) ops m).
  Proof. apply (@run_any _ _ (OrdinalArrayMap S) (fun O op m => array_step O op m)). intros O HO op m. apply (array_step_good HO). Qed.
  Lemma htotal_any (ops : list (Ordinal K * total_op K V)) : Forall (fun p => any_impl (fst p)) ops ->
    forall m, no_ub (run_ops (fun p => htotal_step (fst p) (snd p)) ops m).
  Proof. apply run_any. intros O HO. exact (htotal_step_good HO). Qed.
  Lemma atotal_any S (ops : list (Ordinal K * total_op K V)) : Forall (fun p => any_impl (fst p)) ops ->
    forall m, no_ub (run_ops (fun p => atotal_step (fst p) (S := S) (snd p)) ops m).
  Proof. apply (@run_any _ _ (OrdinalTotalArrayMap S V) (fun O op m => atotal_step O op m)). intros O HO op m. apply (atotal_step_good HO). Qed.
  Lemma set_any (ops : list (Ordinal K * set_op K)) : Forall (fun p => any_impl (fst p)) ops ->
    forall m, no_ub (run_ops (fun p => set_step (fst p) (snd p)) ops m).
  Proof. apply run_any. intros O HO. exact (set_step_good HO). Qed.
  Lemma array_set_any S (ops : list (Ordinal K * set_op K)) : Forall (fun p => any_impl (fst p)) ops ->
    forall m, no_ub (run_ops (fun p => array_set_step (fst p) (S := S) (snd p)) ops m).
  Proof. apply (@run_any _ _ (OrdinalArraySet S) (fun O op m => array_set_step O op m)). intros O HO op m. apply (array_set_step_good HO). Qed.
  Lemma set64_any (ops : list (Ordinal K * set_op K)) : Forall (fun p => any_impl (fst p)) ops ->
    forall m, no_ub (run_ops (fun p => set64_step (fst p) (snd p)) ops m).
  Proof. apply run_any. intros O HO. exact (set64_step_good HO). Qed.

  Context (O : Ordinal K) (HO : any_impl O).
  Lemma iter_mut_any (m : list (option V)) (evs : list (mut_event V)) :
    no_ub (mut_run (fun st => IterMut_step O st) snd write_some evs m (OrdinalMap_iter_mut m) []).
  Proof.
    assert (B : items_ok (in_bounds m) (OrdinalMap_iter_mut m)) by apply in_bounds_slots.
    eapply post_no_ub, mut_run_good; [intros st; apply (iter_mut_good HO)|exact B|constructor].
  Qed.
  Lemma values_mut_any (m : list (option V)) (evs : list (mut_event V)) :
    no_ub (mut_run (fun st => ValuesMut_step O st) (fun i : N => i) write_some evs m (OrdinalMap_values_mut m) []).
  Proof.
    assert (B : items_ok (in_bounds m) (OrdinalMap_values_mut m)) by apply in_bounds_slots.
    eapply post_no_ub, (mut_run_good (slot := fun i : N => i)); [intros st; apply (values_mut_good HO)|exact B|constructor].
  Qed.
  Lemma titer_mut_any (m : list V) (evs : list (mut_event V)) :
    no_ub (mut_run (fun _ => TIterMut_step O) snd write_slot evs m (OrdinalTotalMap_iter_mut m) []).
  Proof.
    assert (B : items_ok (in_bounds m) (OrdinalTotalMap_iter_mut m)) by apply in_bounds_slots.
    eapply post_no_ub, (tmut_run_good (step := fun _ => TIterMut_step O)); [intros st; apply (titer_mut_good HO)|exact B|constructor].
  Qed.
  Lemma amut_any S (a : @OrdinalArrayMap V S) (evs : list (mut_event V)) :
    no_ub (mut_run (fun st => IterMut_step O st) snd write_some evs (arr_list a) (OrdinalArrayMap_iter_mut a) []) /\
    no_ub (mut_run (fun st => ValuesMut_step O st) (fun i : N => i) write_some evs (arr_list a) (OrdinalArrayMap_values_mut a) []).
  Proof.
    split.
    - assert (B : items_ok (in_bounds (arr_list a)) (OrdinalArrayMap_iter_mut a)) by apply in_bounds_slots.
      eapply post_no_ub, mut_run_good; [intros st; apply (iter_mut_good HO)|exact B|constructor].
    - assert (B : items_ok (in_bounds (arr_list a)) (OrdinalArrayMap_values_mut a)) by apply in_bounds_slots.
      eapply post_no_ub, (mut_run_good (slot := fun i : N => i)); [intros st; apply (values_mut_good HO)|exact B|constructor].
  Qed.
  Lemma atmut_any S (a : OrdinalTotalArrayMap S V) (evs : list (mut_event V)) :
    no_ub (mut_run (fun _ => TIterMut_step O) snd write_slot evs (arr_list a) (OrdinalTotalArrayMap_iter_mut a) []).
  Proof.
    assert (B : items_ok (in_bounds (arr_list a)) (OrdinalTotalArrayMap_iter_mut a)) by apply in_bounds_slots.
    eapply post_no_ub, (tmut_run_good (step := fun _ => TIterMut_step O)); [intros st; apply (titer_mut_good HO)|exact B|constructor].
  Qed.
  Lemma values_any (sched : list dir) (s : OrdinalValues) : no_ub (drive (values_step O) sched s).
  Proof. eapply post_no_ub, (post_drive (values_good HO)). exact I. Qed.

  (** One AtomicOrdinal call. *)
  Lemma decode_any v : no_ub (decode O v).
  Proof.
    unfold decode. apply post_no_ub with (P := fun _ => True). apply post_bind with (1 := post_from HO v).
    intros o _. now apply post_unwrap.
  Qed.
  Lemma call_any (c : call K) (cell : N) : no_ub (fst (call_alone O c cell)).
  Proof.
    assert (D := decode_any). destruct HO as (_ & Ho & _).
    assert (M : forall A (f : K -> A) v, no_ub (a <- (t <- decode O v ;; Val t) ;; Val (f a))).
    { intros A f v. specialize (D v). destruct (decode O v); cbn in *; tauto. }
    assert (M' : forall A (f : K + K -> A) g v, no_ub (a <- (t <- decode O v ;; Val (g t)) ;; Val (f a))).
    { intros A f g v. specialize (D v). destruct (decode O v); cbn in *; tauto. }
    unfold call_alone, call_method. destruct c as [o|t o|old new s f|]; cbn [method_map AtomicOrdinal_load AtomicOrdinal_fmt bind].
    - unfold sc_apply. destruct (illegal_request _); cbn; [exact I|]. specialize (D cell). destruct (decode O cell); cbn in *; tauto.
    - unfold method_map, AtomicOrdinal_store. specialize (Ho t). destruct (ordinal O t); cbn in *; try tauto.
      unfold sc_apply. destruct (illegal_request _); cbn; exact I.
    - unfold method_map, AtomicOrdinal_compare_exchange. pose proof (Ho new) as Hn. specialize (Ho old).
      destruct (ordinal O old); cbn in *; try tauto. destruct (ordinal O new); cbn in *; try tauto.
      unfold sc_apply. destruct (illegal_request _); cbn; [exact I|]. destruct (cell =? _); cbn; apply M'.
    - unfold sc_apply. cbn. specialize (D cell). destruct (decode O cell); cbn in *; tauto.
  Qed.
End Programs.

Section Types.
  Context {cfg : Config}.
  Lemma any_prim p : any_impl (ft_ord (denote_prim p)).
  Proof.
    assert (U : forall a b, no_ub (uadd a b)) by (intros; apply post_no_ub with (P := fun _ => True); now apply post_uadd).
    assert (S : forall a b, no_ub (usub a b)) by (intros; apply post_no_ub with (P := fun _ => True); now apply post_usub).
    assert (B : forall A C (e : res A) (k : A -> res C), no_ub e -> (forall a, no_ub (k a)) -> no_ub (bind e k))
      by (intros A C [] k; cbn; auto; tauto).
    assert (W : forall A (o : option A), no_ub (unwrap o)) by (intros A []; exact I).
    assert (CA : forall a b, no_ub (cadd a b)) by (intros; unfold cadd, usize_const; match goal with |- context [if ?x then _ else _] => destruct x end; exact I).
    assert (CS : forall a b, no_ub (csub a b)) by (intros; unfold csub, usize_const; match goal with |- context [if ?x then _ else _] => destruct x end; exact I).
    assert (Z6 : no_ub NonZeroU64_ORDINAL_SIZE) by (unfold NonZeroU64_ORDINAL_SIZE; destruct (_ =? _); exact I).
    assert (Z3 : no_ub u32_ORDINAL_SIZE) by apply CA.
    destruct p; (split; [|split; [intros t|intros i]]); cbn [denote_prim of_impl ft_ord ft_T ORDINAL_SIZE ordinal from_ordinal
      Ordinal_bool Ordinal_u8 Ordinal_i8 Ordinal_u16 Ordinal_i16 Ordinal_u32 Ordinal_i32 Ordinal_NonZeroU8 Ordinal_NonZeroI8
      Ordinal_NonZeroU16 Ordinal_NonZeroI16 Ordinal_NonZeroU32 Ordinal_NonZeroI32 Ordinal_NonZeroU64 Ordinal_NonZeroI64
      Ordinal_NonZeroUsize Ordinal_NonZeroIsize Ordinal_char Ordinal_Ordering Ordinal_Infallible] in *;
      repeat first [exact I | apply U | apply S | apply W | apply CA | apply CS | exact Z6 | exact Z3 | apply B; intros
        | match goal with |- no_ub (match ?x with _ => _ end) => destruct x end ].
  Qed.

  Lemma any_type t : any_impl (impl_of t).
  Proof.
    unfold impl_of, type_of.
    induction t as [p|t IH|t IH|a b IHa IHb|a b IHa IHb|t len IH|ts IH|d IH|vs IH] using ty_ind'; cbn [denote of_impl ft_ord ft_T].
    - apply any_prim.
    - apply (any_Box IH).
    - apply (any_Option IH).
    - apply (any_Result IHa IHb).
    - apply (any_Either IHa IHb).
    - apply (any_array len IH).
    - unfold tuple_impl. destruct (Nat.leb _ _); [|apply any_rejected]. apply any_tuple. apply Forall_map. exact IH.
    - apply any_struct. rewrite field_types_denote. apply Forall_map. exact IH.
    - apply any_enum. apply Forall_map. eapply Forall_impl; [|exact IH]. intros [z d] H. unfold any_variant.
      cbn [denote_variant v_fields vd_fields] in *. rewrite field_types_denote. apply Forall_map. exact H.
  Qed.
End Types.

Section All.
  Context {cfg : Config} {K V : Type}.
  Lemma maps_any (ops : list (Ordinal K * map_op K V)) : Forall (fun p => any_impl (fst p)) ops ->
    (forall m : @OrdinalMap V, no_ub (run_ops (fun p => heap_step (fst p) (snd p)) ops m)) /\
    (forall (S : nat) (m : @OrdinalArrayMap V S), no_ub (run_ops (fun p => array_step (fst p) (S := S) (snd p)) ops m)).
  Proof. intros H. split; [exact (heap_any H)|intros S; exact (@array_any _ _ _ S ops H)]. Qed.
  Lemma totals_any (ops : list (Ordinal K * total_op K V)) : Forall (fun p => any_impl (fst p)) ops ->
    (forall m : @OrdinalTotalMap V, no_ub (run_ops (fun p => htotal_step (fst p) (snd p)) ops m)) /\
    (forall (S : nat) (m : OrdinalTotalArrayMap S V), no_ub (run_ops (fun p => atotal_step (fst p) (S := S) (snd p)) ops m)).
  Proof. intros H. split; [exact (htotal_any H)|intros S; exact (@atotal_any _ _ _ S ops H)]. Qed.
  Lemma sets_any (ops : list (Ordinal K * set_op K)) : Forall (fun p => any_impl (fst p)) ops ->
    (forall s : OrdinalSet, no_ub (run_ops (fun p => set_step (fst p) (snd p)) ops s)) /\
    (forall (S : nat) (s : OrdinalArraySet S), no_ub (run_ops (fun p => array_set_step (fst p) (S := S) (snd p)) ops s)) /\
    (forall s : OrdinalSet64, no_ub (run_ops (fun p => set64_step (fst p) (snd p)) ops s)).
  Proof. intros H. split; [exact (set_any H)|split; [intros S; exact (@array_set_any _ _ S ops H)|exact (set64_any H)]]. Qed.
End All.

Lemma constructors_any {cfg : Config} {K V} (O : Ordinal K) S (l : list (K * V)) : any_impl O ->
  no_ub (OrdinalMap_from_iter O l) /\ no_ub (@OrdinalArrayMap_new K V O S) /\ no_ub (OrdinalArrayMap_from_iter O S l) /\
  no_ub (OrdinalSet64_all O).
Proof.
  intros HO. split; [apply (heap_from_iter_good HO)|split; [exact (post_no_ub (@array_new_good _ _ HO V S))|
    split; [apply (array_from_iter_map_good HO)|apply (set64_all_good HO)]]].
Qed.
Lemma total_constructors_any {cfg : Config} {K V E St} (O : Ordinal K) S
    (try_init : St -> K -> St * res (result V E)) (init : St -> K -> St * res V) (st : St) :
  any_impl O -> (forall st k, no_ub (snd (try_init st k))) -> (forall st k, no_ub (snd (init st k))) ->
  no_ub (snd (OrdinalTotalMap_try_new O try_init st)) /\
  no_ub (snd (OrdinalTotalMap_new O init st)) /\
  no_ub (returned (snd (OrdinalTotalArrayMap_try_new O S try_init st))) /\
  no_ub (returned (snd (OrdinalTotalArrayMap_new O S init st))).
Proof.
  intros HO H1 H2. split; [apply (htry_new_good HO); exact H1|split; [apply (hnew_good HO); exact H2|
    split; [apply (atry_new_good HO); exact H1|apply (anew_good HO); exact H2]]].
Qed.
Lemma total_mapping_any {cfg : Config} {K V W St} (O : Ordinal K) S (f : St -> K -> V -> St * res W)
    (m : OrdinalTotalArrayMap S V) (st : St) :
  any_impl O -> (forall st k v, no_ub (snd (f st k v))) ->
  no_ub (returned (snd (OrdinalTotalArrayMap_map O f m st))) /\ no_ub (OrdinalTotalArrayMap_as_ref O m).
Proof. intros HO H. split; [apply (amap_good HO); exact H|apply (as_ref_good HO)]. Qed.
Lemma retain_any {cfg : Config} {K V St} (O : Ordinal K) S
    (f : St -> K -> V -> St * V * res bool) (m : @OrdinalArrayMap V S) (st : St) :
  any_impl O -> (forall st k v, no_ub (snd (f st k v))) ->
  exists st' storage' r, OrdinalArrayMap_retain O f m st = (st', storage', r) /\ List.length storage' = S /\ no_ub r.
Proof.
  intros HO H. pose proof (array_retain_good HO m st H) as R.
  destruct (OrdinalArrayMap_retain O f m st) as [[st' storage'] r]. exists st', storage', r. now split.
Qed.
Lemma mutable_any {cfg : Config} {K V} (O : Ordinal K) (evs : list (mut_event V)) : any_impl O ->
  (forall m : @OrdinalMap V,
     no_ub (mut_run (fun st => IterMut_step O st) snd write_some evs m (OrdinalMap_iter_mut m) []) /\
     no_ub (mut_run (fun st => ValuesMut_step O st) (fun i : N => i) write_some evs m (OrdinalMap_values_mut m) [])) /\
  (forall (S : nat) (a : @OrdinalArrayMap V S),
     no_ub (mut_run (fun st => IterMut_step O st) snd write_some evs (arr_list a) (OrdinalArrayMap_iter_mut a) []) /\
     no_ub (mut_run (fun st => ValuesMut_step O st) (fun i : N => i) write_some evs (arr_list a) (OrdinalArrayMap_values_mut a) [])) /\
  (forall m : @OrdinalTotalMap V,
     no_ub (mut_run (fun _ => TIterMut_step O) snd write_slot evs m (OrdinalTotalMap_iter_mut m) [])) /\
  (forall (S : nat) (a : OrdinalTotalArrayMap S V),
     no_ub (mut_run (fun _ => TIterMut_step O) snd write_slot evs (arr_list a) (OrdinalTotalArrayMap_iter_mut a) [])).
Proof.
  intros HO. split; [|split; [|split]].
  - intros m. split; [apply (iter_mut_any HO)|apply (values_mut_any HO)].
  - intros S a. apply (amut_any HO).
  - intros m. apply (titer_mut_any HO).
  - intros S a. apply (atmut_any HO).
Qed.
Lemma values_all_any {K} (O : Ordinal K) (sched : list dir) (show : K -> string) (s : OrdinalValues) : any_impl O ->
  no_ub (values_new O) /\ no_ub (drive (values_step O) sched s) /\ no_ub (values_last O s) /\ no_ub (values_debug O show s).
Proof.
  intros HO. split; [exact (post_no_ub (post_values_new HO))|split; [apply (values_any HO)|split; [apply (values_last_safe HO)|apply (values_debug_safe HO)]]].
Qed.
Lemma debug_all_any {cfg : Config} {K V} (O : Ordinal K) (sched : list dir) : any_impl O ->
  (forall s : @Iter V, no_ub (Iter_debug O s)) /\ (forall s : @Keys V, no_ub (Keys_debug O s)) /\
  (forall s : @Values V, no_ub (Values_debug O s)) /\ (forall s : @TIter V, no_ub (TIter_debug O s)) /\
  (forall s, no_ub (SetIter_debug O s)) /\ (forall w, w < 2 ^ 64 -> no_ub (Iter64_debug O w)) /\
  (forall m : list (option V),
     no_ub ('(_, it) <- drive (IterMut_step O m) sched (OrdinalMap_iter_mut m) ;; IterMut_debug O m it) /\
     no_ub ('(_, it) <- drive (ValuesMut_step O m) sched (OrdinalMap_values_mut m) ;; ValuesMut_debug O m it)) /\
  (forall m : list V,
     no_ub ('(_, it) <- drive (TIterMut_step O) sched (OrdinalTotalMap_iter_mut m) ;; TIterMut_debug O m it)).
Proof.
  intros HO. split; [|split; [|split; [|split; [|split; [|split; [|split]]]]]].
  - apply (iter_debug_good HO).
  - apply (keys_debug_good HO).
  - apply (values_debug_good HO).
  - apply (titer_debug_good HO).
  - apply (set_iter_debug_good HO).
  - intros w H. apply (iter64_debug_good HO). exact H.
  - intros m. split; [apply (iter_mut_debug_good HO)|apply (values_mut_debug_good HO)].
  - intros m. apply (titer_mut_debug_good HO).
Qed.
Lemma atomic_any {K} (O : Ordinal K) (c : call K) (cell : N) : any_impl O -> no_ub (fst (call_alone O c cell)).
Proof. intros HO. apply (call_any HO). Qed.
Lemma provided_any {cfg : Config} {A B} (OA : Ordinal A) (OB : Ordinal B) len : any_impl OA -> any_impl OB ->
  any_impl (Ordinal_Box OA) /\ any_impl (Ordinal_Option OA) /\ any_impl (Ordinal_Result OA OB) /\
  any_impl (Ordinal_Either OA OB) /\ any_impl (Ordinal_array OA len).
Proof.
  intros HA HB. split; [apply (any_Box HA)|split; [apply (any_Option HA)|split; [apply (any_Result HA HB)|split;
    [apply (any_Either HA HB)|apply (any_array len HA)]]]].
Qed.
Lemma derived_any {cfg : Config} (f : fields) (vs : list variant) (tys : list ftype) :
  Forall (fun ty => any_impl (ft_ord ty)) (field_types f) ->
  Forall (fun v => Forall (fun ty => any_impl (ft_ord ty)) (field_types (v_fields v))) vs ->
  Forall (fun ty => any_impl (ft_ord ty)) tys ->
  any_impl (derive_struct f) /\ any_impl (derive_enum vs) /\ any_impl (impl_ordinal_for_tuple_n tys).
Proof. intros H1 H2 H3. split; [apply any_struct, H1|split; [apply any_enum, H2|apply any_tuple, H3]]. Qed.
