(** * CallsProofs11: the statements of PropCalls. *)
From Verif Require Import Base Spec SpecMap SpecTotal SpecSet SpecAtomic SpecSafety SpecCalls ModelOrdinal ModelValues ModelArrayBuilder
  ModelIter ModelTotal ModelMap ModelSet ModelAtomic MapMachine TotalMachine SetMachine ModelCalls BaseProofs ArrayProofs SafetyProofs
  CallsProofs1 CallsProofs2 CallsProofs3 CallsProofs4 CallsProofs5 CallsProofs6 CallsProofs7 CallsProofs8 CallsProofs9.
From Coq Require Import List. Import ListNotations.

Lemma map_asked : forall (cfg : Config) (K C X : Type) (V : Type) (U : Type) (w : world K C (fun _ => X) U) (u : U) (size : res N) (op : map_op K V) (m : @OrdinalMap V),
  llen m <= usize_max -> asked (map_questions op m) (run w u (heap_step_p size op m)).
Proof.
  intros cfg K C X V U w u size op m H. eapply asks_asked, map_asks, H.
Qed.

Lemma array_map_asked : forall (cfg : Config) (K C X : Type) (V : Type) (U : Type) (w : world K C (fun _ => X) U) (u : U) (S : nat) (op : map_op K V) (m : @OrdinalArrayMap V S),
  N.of_nat S <= usize_max -> asked (map_questions op (arr_list m)) (run w u (array_step_p op m)).
Proof.
  intros cfg K C X V U w u S op m H. eapply asks_asked, array_map_asks. unfold llen. now rewrite arr_length.
Qed.

Lemma total_map_asked : forall (cfg : Config) (K C X : Type) (V : Type) (U : Type) (w : world K C (fun _ => X) U) (u : U) (n : N) (op : total_op K V) (m : @OrdinalTotalMap V),
  llen m <= usize_max -> asked (total_questions n op m) (run w u (htotal_step_p (Val n) op m)).
Proof.
  intros cfg K C X V U w u n op m H. eapply asks_asked, total_map_asks, H.
Qed.

Lemma array_total_asked : forall (cfg : Config) (K C X : Type) (V : Type) (U : Type) (w : world K C (fun _ => X) U) (u : U) (n : N) (S : nat) (op : total_op K V) (m : OrdinalTotalArrayMap S V),
  N.of_nat S <= usize_max -> asked (total_questions n op (arr_list m)) (run w u (atotal_step_p (Val n) op m)).
Proof.
  intros cfg K C X V U w u n S op m H. eapply asks_asked, array_total_asks. unfold llen. now rewrite arr_length.
Qed.

Lemma set_asked : forall (cfg : Config) (K C X : Type) (U : Type) (w : world K C (fun _ => X) U) (u : U) (n : N) (op : set_op K) (s : OrdinalSet),
  let '(_, l, r) := run w u (set_step_p (Val n) op s) in set_questions op n (ended r) (questions l).
Proof.
  intros cfg K C X U w u n op s. exact (@set_ends cfg K C _ n op s U w u).
Qed.

Lemma array_set_asked : forall (cfg : Config) (K C X : Type) (U : Type) (w : world K C (fun _ => X) U) (u : U) (n : N) (S : nat) (op : set_op K) (s : OrdinalArraySet S),
  let '(_, l, r) := run w u (array_set_step_p (Val n) op s) in set_questions op n (ended r) (questions l).
Proof.
  intros cfg K C X U w u n S op s. exact (@array_set_ends cfg K C _ n S op s U w u).
Qed.

Lemma set64_asked : forall (cfg : Config) (K C X : Type) (U : Type) (w : world K C (fun _ => X) U) (u : U) (n : N) (op : set_op K) (s : OrdinalSet64),
  s < 18446744073709551616 ->
  let '(_, l, r) := run w u (set64_step_p (Val n) op s) in set64_questions op n s (ended r) (questions l).
Proof.
  intros cfg K C X U w u n op s H. exact (@set64_ends cfg K C _ n op s H U w u).
Qed.

Lemma atomic_asked : forall (K C X : Type) (U : Type) (w : world K C (fun _ => X) U) (u : U) (c : call K) (cell : N),
  call_asked c cell (run w u (call_alone_p c cell)).
Proof.
  intros K C X U w u c cell. apply call_run.
Qed.

Lemma array_ordinal_asked : forall (cfg : Config) (K C X : Type) (U : Type) (w : world K C (fun _ => X) U) (u : U) (size : res N) (len : nat) (a : arr K len),
  asked (map QOrdinal (arr_list a)) (run w u (array_ordinal_p size a)).
Proof.
  intros cfg K C X U w u size len a. eapply asks_asked, array_ordinal_asks.
Qed.

Lemma array_from_asked : forall (K C X : Type) (U : Type) (w : world K C (fun _ => X) U) (u : U) (size : N) (len : nat) (i : N),
  exists u' l o, run w u (array_from_ordinal_p (Val size) len i) = (u', l, Val o) /\
    match returned o with
    | Val (Some a) => questions l = froms (digits size i len) /\ arr_list a = rev (decoded l) /\ dropped o = []
    | Val None | Panic _ => prefix (questions l) (froms (digits size i len)) /\ dropped o = decoded l
    | _ => prefix (questions l) (froms (digits size i len))
    end.
Proof.
  intros K C X U w u size len i. destruct (array_from_owned w size len i u) as (u' & l & o & E & H & _). exists u', l, o. split; [exact E|].
  pose proof (array_from_run size len i w u) as H2. rewrite E in H2. destruct o as [[[a|]| | | |] d]; cbn [returned dropped] in *; auto.
Qed.

Lemma try_new_asked : forall (K V E U : Type) (w : world K K (fun _ => result V E) U) (u : U) (n : N),
  let '(_, l, r) := run w u (OrdinalTotalMap_try_new_p (Val n)) in
  exists made, built (repeat (fun k => k) (N.to_nat n)) (fun v => ResOk v) (fun e => ResErr e) l made r /\
    forall m, r = Val (ResOk m) -> m = made.
Proof.
  intros K V E U w u n. exact (@try_new_run K V E U w n u).
Qed.

Lemma array_try_new_asked : forall (K V E U : Type) (w : world K K (fun _ => result V E) U) (u : U) (S : nat),
  exists u' l o, run w u (OrdinalTotalArrayMap_try_new_p (Val (N.of_nat S)) S) = (u', l, Val o) /\
    exists made, built (repeat (fun k => k) S) (fun v => ResOk v) (fun e => ResErr e) l made (returned o) /\
      match returned o with
      | Val (ResOk a) => arr_list a = made /\ dropped o = []
      | Val (ResErr _) | Panic _ => dropped o = made
      | _ => True
      end.
Proof.
  intros K V E U w u S. exact (@array_try_new_run K V E S U w u).
Qed.

Lemma total_map_map_asked : forall (cfg : Config) (K V W U : Type) (w : world K (K * V) (fun _ => W) U) (u : U) (S : nat) (m : OrdinalTotalArrayMap S V),
  N.of_nat S <= usize_max ->
  exists u' l o, run w u (OrdinalTotalArrayMap_map_p m) = (u', l, Val o) /\
    exists made, built (map (fun v k => (k, v)) (arr_list m)) (fun v => v) (fun e : Empty_set => match e with end) l made (returned o) /\
      match returned o with
      | Val (ResOk a) => arr_list a = made /\ dropped o = []
      | Val (ResErr _) | Panic _ => dropped o = made
      | _ => True
      end.
Proof.
  intros cfg K V W U w u S m H. exact (@total_map_run cfg K V W S U w m u H).
Qed.

Lemma retain_asked : forall (cfg : Config) (K V U : Type) (w : world K (K * V) (fun _ => (V * res bool)%type) U) (u : U) (S : nat) (m : @OrdinalArrayMap V S),
  closure_returns w -> N.of_nat S <= usize_max ->
  exists u' l m' r, run w u (OrdinalArrayMap_retain_p m) = (u', l, Val (m', r)) /\ retained 0 (arr_list m) l m' r.
Proof.
  intros cfg K V U w u S m H HS. exact (@retain_run cfg K V S U w m u H HS).
Qed.

Lemma map_model : forall (cfg : Config) (K C X : Type) (O : Ordinal K) (St : Type) (f : St -> C -> St * res X) (st : St) (V : Type) (op : map_op K V) (m : @OrdinalMap V),
  exists l, run (mixed O f) st (heap_step_p (ORDINAL_SIZE O) op m) = (st, l, heap_step O op m).
Proof.
  intros cfg K C X O St f st V op m. exact (is_map_step O f op m st).
Qed.

Lemma array_map_model : forall (cfg : Config) (K C X : Type) (O : Ordinal K) (St : Type) (f : St -> C -> St * res X) (st : St) (V : Type) (S : nat) (op : map_op K V) (m : @OrdinalArrayMap V S),
  exists l, run (mixed O f) st (array_step_p op m) = (st, l, array_step O op m).
Proof.
  intros cfg K C X O St f st V S op m. exact (is_array_step O f op m st).
Qed.

Lemma total_map_model : forall (cfg : Config) (K C X : Type) (O : Ordinal K) (St : Type) (f : St -> C -> St * res X) (st : St) (V : Type) (op : total_op K V) (m : @OrdinalTotalMap V),
  exists l, run (mixed O f) st (htotal_step_p (ORDINAL_SIZE O) op m) = (st, l, htotal_step O op m).
Proof.
  intros cfg K C X O St f st V op m. exact (is_total_step O f op m st).
Qed.

Lemma array_total_map_model : forall (cfg : Config) (K C X : Type) (O : Ordinal K) (St : Type) (f : St -> C -> St * res X) (st : St) (V : Type) (S : nat) (op : total_op K V) (m : OrdinalTotalArrayMap S V),
  exists l, run (mixed O f) st (atotal_step_p (ORDINAL_SIZE O) op m) = (st, l, atotal_step O op m).
Proof.
  intros cfg K C X O St f st V S op m. exact (is_array_total_step O f op m st).
Qed.

Lemma set_model : forall (cfg : Config) (K C X : Type) (O : Ordinal K) (St : Type) (f : St -> C -> St * res X) (st : St) (op : set_op K) (s : OrdinalSet),
  exists l, run (mixed O f) st (set_step_p (ORDINAL_SIZE O) op s) = (st, l, set_step O op s).
Proof.
  intros cfg K C X O St f st op s. exact (is_set_step O f op s st).
Qed.

Lemma array_set_model : forall (cfg : Config) (K C X : Type) (O : Ordinal K) (St : Type) (f : St -> C -> St * res X) (st : St) (S : nat) (op : set_op K) (s : OrdinalArraySet S),
  exists l, run (mixed O f) st (array_set_step_p (ORDINAL_SIZE O) op s) = (st, l, array_set_step O op s).
Proof.
  intros cfg K C X O St f st S op s. exact (is_array_set_step O f op s st).
Qed.

Lemma set64_model : forall (cfg : Config) (K C X : Type) (O : Ordinal K) (St : Type) (f : St -> C -> St * res X) (st : St) (op : set_op K) (s : OrdinalSet64),
  exists l, run (mixed O f) st (set64_step_p (ORDINAL_SIZE O) op s) = (st, l, set64_step O op s).
Proof.
  intros cfg K C X O St f st op s. exact (is_set64_step O f op s st).
Qed.

Lemma atomic_model : forall (K C X : Type) (O : Ordinal K) (St : Type) (f : St -> C -> St * res X) (st : St) (c : call K) (cell : N),
  exists l, run (mixed O f) st (call_alone_p c cell) = (st, l, Val (call_alone O c cell)).
Proof.
  intros K C X O St f st c cell. exact (is_call O f c cell st).
Qed.

Lemma array_ordinal_model : forall (cfg : Config) (K C X : Type) (O : Ordinal K) (St : Type) (f : St -> C -> St * res X) (st : St) (len : nat) (a : arr K len),
  exists l, run (mixed O f) st (array_ordinal_p (ORDINAL_SIZE O) a) = (st, l, ordinal (Ordinal_array O len) a).
Proof.
  intros cfg K C X O St f st len a. exact (is_array_ordinal O f a st).
Qed.

Lemma array_from_model : forall (K C X : Type) (O : Ordinal K) (St : Type) (f : St -> C -> St * res X) (st : St) (len : nat) (i : N),
  exists l, run (mixed O f) st (array_from_ordinal_p (ORDINAL_SIZE O) len i) = (st, l, Val (array_from_ordinal O len i)).
Proof.
  intros K C X O St f st len i. exact (is_array_from O f len i st).
Qed.

Lemma try_new_model : forall (K V E St : Type) (O : Ordinal K) (f : St -> K -> St * res (result V E)) (st : St),
  exists l, run (mixed O f) st (OrdinalTotalMap_try_new_p (ORDINAL_SIZE O)) =
    (fst (OrdinalTotalMap_try_new O f st), l, snd (OrdinalTotalMap_try_new O f st)).
Proof.
  intros K V E St O f st. exact (try_new_evals O f st).
Qed.

Lemma array_try_new_model : forall (K V E St : Type) (O : Ordinal K) (S : nat) (f : St -> K -> St * res (result V E)) (st : St),
  exists l, run (mixed O f) st (OrdinalTotalArrayMap_try_new_p (ORDINAL_SIZE O) S) =
    (fst (OrdinalTotalArrayMap_try_new O S f st), l, Val (snd (OrdinalTotalArrayMap_try_new O S f st))).
Proof.
  intros K V E St O S f st. exact (array_try_new_evals O S f st).
Qed.

Lemma retain_model : forall (cfg : Config) (K V St : Type) (O : Ordinal K) (S : nat) (f : St -> K -> V -> St * V * res bool) (m : @OrdinalArrayMap V S) (st : St),
  let '(st', m', r) := OrdinalArrayMap_retain O f m st in
  exists l, run (mixed O (fun st c => let '(st', v, r) := f st (fst c) (snd c) in (st', Val (v, r)))) st (OrdinalArrayMap_retain_p m) = (st', l, Val (m', r)).
Proof.
  intros cfg K V St O S f m st. exact (retain_evals O f _ (arr_list m) (OrdinalTotalArrayMap_iter_mut m) st).
Qed.

Lemma map_programs_safe : forall (cfg : Config) (K C X : Type) (V : Type) (U : Type) (w : world K C (fun _ => X) U) (u : U) (n : N) (ops : list (map_op K V)),
  n <= usize_max -> safe_world w -> no_ub (snd (run w u (run_ops_p (heap_step_p (Val n)) ops []))).
Proof.
  intros cfg K C X V U w u n ops Hn S. eapply post_no_ub. apply (@map_program_safe cfg K C X V n ops Hn U w u S).
Qed.

Lemma array_map_programs_safe : forall (cfg : Config) (K C X : Type) (V : Type) (U : Type) (w : world K C (fun _ => X) U) (u : U) (S : nat) (ops : list (map_op K V)) (m : @OrdinalArrayMap V S),
  N.of_nat S <= usize_max -> safe_world w -> no_ub (snd (run w u (run_ops_p (fun op m => array_step_p op m) ops m))).
Proof.
  intros cfg K C X V U w u S ops m Hn Sw. eapply post_no_ub. apply (@array_map_program_safe cfg K C X V S ops m Hn U w u Sw).
Qed.

Lemma total_programs_safe : forall (cfg : Config) (K C X : Type) (V : Type) (U : Type) (w : world K C (fun _ => X) U) (u : U) (n : N) (ops : list (total_op K V)) (m : @OrdinalTotalMap V),
  llen m <= usize_max -> safe_world w -> no_ub (snd (run w u (run_ops_p (htotal_step_p (Val n)) ops m))).
Proof.
  intros cfg K C X V U w u n ops m Hn S. eapply post_no_ub. apply (@total_program_safe cfg K C X V n ops m Hn U w u S).
Qed.

Lemma array_total_programs_safe : forall (cfg : Config) (K C X : Type) (V : Type) (U : Type) (w : world K C (fun _ => X) U) (u : U) (n : N) (S : nat) (ops : list (total_op K V)) (m : OrdinalTotalArrayMap S V),
  N.of_nat S <= usize_max -> safe_world w -> no_ub (snd (run w u (run_ops_p (fun op m => atotal_step_p (Val n) op m) ops m))).
Proof.
  intros cfg K C X V U w u n S ops m Hn Sw. eapply post_no_ub. apply (@array_total_program_safe cfg K C X V n S ops m Hn U w u Sw).
Qed.

Lemma set_programs_safe : forall (cfg : Config) (K C X : Type) (U : Type) (w : world K C (fun _ => X) U) (u : U) (size : res N) (ops : list (set_op K)) (s : OrdinalSet),
  no_ub size -> safe_world w -> no_ub (snd (run w u (run_ops_p (set_step_p size) ops s))).
Proof.
  intros cfg K C X U w u size ops s Hs S. eapply post_no_ub. apply (@ppost_run_ops K C (fun _ => X) _ _ _ (set_step_p size) (fun _ => True)); auto.
  intros op s1 _. now apply ppost_set.
Qed.

Lemma array_set_programs_safe : forall (cfg : Config) (K C X : Type) (U : Type) (w : world K C (fun _ => X) U) (u : U) (size : res N) (S : nat) (ops : list (set_op K)) (s : OrdinalArraySet S),
  no_ub size -> safe_world w -> no_ub (snd (run w u (run_ops_p (fun op s => array_set_step_p size op s) ops s))).
Proof.
  intros cfg K C X U w u size S ops s Hs Sw. eapply post_no_ub.
  apply (@ppost_run_ops K C (fun _ => X) _ _ _ (fun op s => array_set_step_p size op s) (fun _ => True)); auto.
  intros op s1 _. now apply ppost_array_set.
Qed.

Lemma set64_programs_safe : forall (cfg : Config) (K C X : Type) (U : Type) (w : world K C (fun _ => X) U) (u : U) (size : res N) (ops : list (set_op K)) (s : OrdinalSet64),
  no_ub size -> safe_world w -> no_ub (snd (run w u (run_ops_p (set64_step_p size) ops s))).
Proof.
  intros cfg K C X U w u size ops s Hs S. eapply post_no_ub. apply (@ppost_run_ops K C (fun _ => X) _ _ _ (set64_step_p size) (fun _ => True)); auto.
  intros op s1 _. now apply ppost_set64.
Qed.

Lemma atomic_safe : forall (K C X : Type) (U : Type) (w : world K C (fun _ => X) U) (u : U) (c : call K) (cell : N),
  safe_world w -> exists r cell', snd (run w u (call_alone_p c cell)) = Val (r, cell') /\ no_ub r.
Proof.
  intros K C X U w u c cell S. now apply call_safe.
Qed.

Lemma array_ordinal_no_ub : forall (cfg : Config) (K C X : Type) (U : Type) (w : world K C (fun _ => X) U) (u : U) (size : res N) (len : nat) (a : arr K len),
  no_ub size -> safe_world w -> no_ub (snd (run w u (array_ordinal_p size a))).
Proof.
  intros cfg K C X U w u size len a Hs S. now apply array_ordinal_safe.
Qed.

Lemma array_from_no_ub : forall (K C X : Type) (U : Type) (w : world K C (fun _ => X) U) (u : U) (size : N) (len : nat) (i : N),
  safe_world w -> exists o, snd (run w u (array_from_ordinal_p (Val size) len i)) = Val o /\ no_ub (returned o).
Proof.
  intros K C X U w u size len i S. now apply array_from_safe.
Qed.

Lemma try_new_no_ub : forall (K V E U : Type) (w : world K K (fun _ => result V E) U) (u : U) (n : N),
  safe_world w -> no_ub (snd (run w u (OrdinalTotalMap_try_new_p (Val n)))).
Proof.
  intros K V E U w u n S. now apply try_new_safe.
Qed.

Lemma array_try_new_no_ub : forall (K V E U : Type) (w : world K K (fun _ => result V E) U) (u : U) (S : nat),
  safe_world w -> exists o, snd (run w u (OrdinalTotalArrayMap_try_new_p (Val (N.of_nat S)) S)) = Val o /\ no_ub (returned o).
Proof.
  intros K V E U w u S Sw. now apply array_try_new_safe.
Qed.

Lemma total_map_map_no_ub : forall (cfg : Config) (K V W U : Type) (w : world K (K * V) (fun _ => W) U) (u : U) (S : nat) (m : OrdinalTotalArrayMap S V),
  N.of_nat S <= usize_max -> safe_world w -> exists o, snd (run w u (OrdinalTotalArrayMap_map_p m)) = Val o /\ no_ub (returned o).
Proof.
  intros cfg K V W U w u S m H Sw. now apply total_map_safe.
Qed.

Lemma retain_no_ub : forall (cfg : Config) (K V U : Type) (w : world K (K * V) (fun _ => (V * res bool)%type) U) (u : U) (S : nat) (m : @OrdinalArrayMap V S),
  N.of_nat S <= usize_max -> safe_world w -> closure_returns w ->
  exists m' r, snd (run w u (OrdinalArrayMap_retain_p m)) = Val (m', r) /\ length m' = S /\ no_ub r.
Proof.
  intros cfg K V U w u S m H Sw Hw. now apply retain_safe.
Qed.

Lemma map_as_fixed : forall (cfg : Config) (K C X : Type) (V : Type) (U : Type) (w : world K C (fun _ => X) U) (u : U) (size : res N) (op : map_op K V) (m : @OrdinalMap V),
  llen m <= usize_max ->
  exists O, ORDINAL_SIZE O = size /\ (no_ub size -> safe_world w -> any_impl O) /\
    snd (run w u (heap_step_p size op m)) = heap_step O op m.
Proof.
  intros cfg K C X V U w u size op m H. now apply map_fixed.
Qed.

Lemma array_map_as_fixed : forall (cfg : Config) (K C X : Type) (V : Type) (U : Type) (w : world K C (fun _ => X) U) (u : U) (size : res N) (S : nat) (op : map_op K V) (m : @OrdinalArrayMap V S),
  N.of_nat S <= usize_max ->
  exists O, ORDINAL_SIZE O = size /\ (no_ub size -> safe_world w -> any_impl O) /\
    snd (run w u (array_step_p op m)) = array_step O op m.
Proof.
  intros cfg K C X V U w u size S op m H. now apply array_map_fixed.
Qed.

Lemma total_as_fixed : forall (cfg : Config) (K C X : Type) (V : Type) (U : Type) (w : world K C (fun _ => X) U) (u : U) (n : N) (op : total_op K V) (m : @OrdinalTotalMap V),
  llen m <= usize_max ->
  exists O, ORDINAL_SIZE O = Val n /\ (safe_world w -> any_impl O) /\
    snd (run w u (htotal_step_p (Val n) op m)) = htotal_step O op m.
Proof.
  intros cfg K C X V U w u n op m H. now apply total_fixed.
Qed.

Lemma array_total_as_fixed : forall (cfg : Config) (K C X : Type) (V : Type) (U : Type) (w : world K C (fun _ => X) U) (u : U) (n : N) (S : nat) (op : total_op K V) (m : OrdinalTotalArrayMap S V),
  N.of_nat S <= usize_max ->
  exists O, ORDINAL_SIZE O = Val n /\ (safe_world w -> any_impl O) /\
    snd (run w u (atotal_step_p (Val n) op m)) = atotal_step O op m.
Proof.
  intros cfg K C X V U w u n S op m H. now apply array_total_fixed.
Qed.

Lemma try_new_as_fixed : forall (K V E U : Type) (w : world K K (fun _ => result V E) U) (u : U) (n : N),
  exists O St (f : St -> K -> St * res (result V E)) st,
    ORDINAL_SIZE O = Val n /\ (safe_world w -> any_impl O) /\
    snd (run w u (OrdinalTotalMap_try_new_p (Val n))) = snd (OrdinalTotalMap_try_new O f st).
Proof.
  intros K V E U w u n. apply try_new_fixed.
Qed.

Lemma array_try_new_as_fixed : forall (K V E U : Type) (w : world K K (fun _ => result V E) U) (u : U) (S : nat),
  exists O St (f : St -> K -> St * res (result V E)) st,
    ORDINAL_SIZE O = Val (N.of_nat S) /\ (safe_world w -> any_impl O) /\
    snd (run w u (OrdinalTotalArrayMap_try_new_p (Val (N.of_nat S)) S)) = Val (snd (OrdinalTotalArrayMap_try_new O S f st)).
Proof.
  intros K V E U w u S. apply array_try_new_fixed.
Qed.

Lemma total_map_map_as_fixed : forall (cfg : Config) (K V W U : Type) (w : world K (K * V) (fun _ => W) U) (u : U) (S : nat) (m : OrdinalTotalArrayMap S V),
  N.of_nat S <= usize_max ->
  exists O St (f : St -> K -> V -> St * res W) st o,
    ORDINAL_SIZE O = Val (N.of_nat S) /\ (safe_world w -> any_impl O) /\
    snd (run w u (OrdinalTotalArrayMap_map_p m)) = Val o /\
    returned (snd (OrdinalTotalArrayMap_map O f m st)) = (a <- returned o ;; Val (into_ok a)) /\
    dropped (snd (OrdinalTotalArrayMap_map O f m st)) = dropped o.
Proof.
  intros cfg K V W U w u S m H. now apply total_map_map_fixed.
Qed.

Lemma retain_as_fixed : forall (cfg : Config) (K V U : Type) (w : world K (K * V) (fun _ => (V * res bool)%type) U) (u : U) (S : nat) (m : @OrdinalArrayMap V S),
  N.of_nat S <= usize_max -> closure_returns w ->
  exists O St (f : St -> K -> V -> St * V * res bool) st,
    ORDINAL_SIZE O = Val (N.of_nat S) /\ (safe_world w -> any_impl O) /\
    let '(_, m', r) := OrdinalArrayMap_retain O f m st in
    snd (run w u (OrdinalArrayMap_retain_p m)) = Val (m', r).
Proof.
  intros cfg K V U w u S m H Hw. now apply retain_fixed.
Qed.

Lemma set_contains_as_fixed : forall (cfg : Config) (K C X : Type) (U : Type) (w : world K C (fun _ => X) U) (u : U) (size : res N) (t : K) (s : OrdinalSet),
  exists O, ORDINAL_SIZE O = size /\ (no_ub size -> safe_world w -> any_impl O) /\
    snd (run w u (set_step_p size (SContains t) s)) = set_step O (SContains t) s.
Proof.
  intros cfg K C X U w u size t s. apply set_contains_fixed.
Qed.

Lemma array_set_contains_as_fixed : forall (cfg : Config) (K C X : Type) (U : Type) (w : world K C (fun _ => X) U) (u : U) (size : res N) (S : nat) (t : K) (s : OrdinalArraySet S),
  exists O, ORDINAL_SIZE O = size /\ (no_ub size -> safe_world w -> any_impl O) /\
    snd (run w u (array_set_step_p size (SContains t) s)) = array_set_step O (SContains t) s.
Proof.
  intros cfg K C X U w u size S t s. apply array_set_contains_fixed.
Qed.

Lemma set64_contains_as_fixed : forall (cfg : Config) (K C X : Type) (U : Type) (w : world K C (fun _ => X) U) (u : U) (size : res N) (t : K) (s : OrdinalSet64),
  exists O, ORDINAL_SIZE O = size /\ (no_ub size -> safe_world w -> any_impl O) /\
    snd (run w u (set64_step_p size (SContains t) s)) = set64_step O (SContains t) s.
Proof.
  intros cfg K C X U w u size t s. apply set64_contains_fixed.
Qed.
