(** * PropCalls: properties C85, C86 and C87, the calls of user code.

    A dialogue ([prog], ModelCalls.v) asks user code questions, and user code ([world]) answers
    with a state of its own: two equal questions may get different answers. [run] returns the
    final state, the questions with their answers, and the outcome. [asked], [map_questions],
    [total_questions], [set_questions], [set64_questions], [call_asked], [built], [retained],
    [safe_world]: SpecCalls.v. *)
From Verif Require Import Base Spec SpecMap SpecTotal SpecSet SpecAtomic SpecSafety SpecCalls ModelOrdinal ModelValues ModelArrayBuilder
  ModelIter ModelTotal ModelMap ModelSet ModelAtomic MapMachine TotalMachine SetMachine ModelCalls CallsProofs10 CallsProofs11.
From Coq Require Import List. Import ListNotations.

(** ** C85 *)

(** The questions of the operations. *)
Theorem C85_map : forall (cfg : Config) (K C X : Type) (V : Type) (U : Type) (w : world K C (fun _ => X) U) (u : U) (size : res N) (op : map_op K V) (m : @OrdinalMap V),
  llen m <= usize_max -> asked (map_questions op m) (run w u (heap_step_p size op m)).
Proof. exact @map_asked. Qed.
Print Assumptions C85_map.
Theorem C85_array_map : forall (cfg : Config) (K C X : Type) (V : Type) (U : Type) (w : world K C (fun _ => X) U) (u : U) (S : nat) (op : map_op K V) (m : @OrdinalArrayMap V S),
  N.of_nat S <= usize_max -> asked (map_questions op (arr_list m)) (run w u (array_step_p op m)).
Proof. exact @array_map_asked. Qed.
Print Assumptions C85_array_map.
Theorem C85_total_map : forall (cfg : Config) (K C X : Type) (V : Type) (U : Type) (w : world K C (fun _ => X) U) (u : U) (n : N) (op : total_op K V) (m : @OrdinalTotalMap V),
  llen m <= usize_max -> asked (total_questions n op m) (run w u (htotal_step_p (Val n) op m)).
Proof. exact @total_map_asked. Qed.
Print Assumptions C85_total_map.
Theorem C85_array_total_map : forall (cfg : Config) (K C X : Type) (V : Type) (U : Type) (w : world K C (fun _ => X) U) (u : U) (n : N) (S : nat) (op : total_op K V) (m : OrdinalTotalArrayMap S V),
  N.of_nat S <= usize_max -> asked (total_questions n op (arr_list m)) (run w u (atotal_step_p (Val n) op m)).
Proof. exact @array_total_asked. Qed.
Print Assumptions C85_array_total_map.
Theorem C85_set : forall (cfg : Config) (K C X : Type) (U : Type) (w : world K C (fun _ => X) U) (u : U) (n : N) (op : set_op K) (s : OrdinalSet),
  let '(_, l, r) := run w u (set_step_p (Val n) op s) in set_questions op n (ended r) (questions l).
Proof. exact @set_asked. Qed.
Print Assumptions C85_set.
Theorem C85_array_set : forall (cfg : Config) (K C X : Type) (U : Type) (w : world K C (fun _ => X) U) (u : U) (n : N) (S : nat) (op : set_op K) (s : OrdinalArraySet S),
  let '(_, l, r) := run w u (array_set_step_p (Val n) op s) in set_questions op n (ended r) (questions l).
Proof. exact @array_set_asked. Qed.
Print Assumptions C85_array_set.
Theorem C85_set64 : forall (cfg : Config) (K C X : Type) (U : Type) (w : world K C (fun _ => X) U) (u : U) (n : N) (op : set_op K) (s : OrdinalSet64),
  s < 18446744073709551616 ->
  let '(_, l, r) := run w u (set64_step_p (Val n) op s) in set64_questions op n s (ended r) (questions l).
Proof. exact @set64_asked. Qed.
Print Assumptions C85_set64.
Theorem C85_atomic : forall (K C X : Type) (U : Type) (w : world K C (fun _ => X) U) (u : U) (c : call K) (cell : N),
  call_asked c cell (run w u (call_alone_p c cell)).
Proof. exact @atomic_asked. Qed.
Print Assumptions C85_atomic.
Theorem C85_array_ordinal : forall (cfg : Config) (K C X : Type) (U : Type) (w : world K C (fun _ => X) U) (u : U) (size : res N) (len : nat) (a : arr K len),
  asked (map QOrdinal (arr_list a)) (run w u (array_ordinal_p size a)).
Proof. exact @array_ordinal_asked. Qed.
Print Assumptions C85_array_ordinal.

(** The elements of an array are decoded from the last to the first. *)
Theorem C85_array_from_ordinal : forall (K C X : Type) (U : Type) (w : world K C (fun _ => X) U) (u : U) (size : N) (len : nat) (i : N),
  exists u' l o, run w u (array_from_ordinal_p (Val size) len i) = (u', l, Val o) /\
    match returned o with
    | Val (Some a) => questions l = froms (digits size i len) /\ arr_list a = rev (decoded l) /\ dropped o = []
    | Val None | Panic _ => prefix (questions l) (froms (digits size i len)) /\ dropped o = decoded l
    | _ => prefix (questions l) (froms (digits size i len))
    end.
Proof. exact @array_from_asked. Qed.
Print Assumptions C85_array_from_ordinal.

(** Functions with a closure. *)
Theorem C85_try_new : forall (K V E U : Type) (w : world K K (fun _ => result V E) U) (u : U) (n : N),
  let '(_, l, r) := run w u (OrdinalTotalMap_try_new_p (Val n)) in
  exists made, built (repeat (fun k => k) (N.to_nat n)) (fun v => ResOk v) (fun e => ResErr e) l made r /\
    forall m, r = Val (ResOk m) -> m = made.
Proof. exact @try_new_asked. Qed.
Print Assumptions C85_try_new.
Theorem C85_array_try_new : forall (K V E U : Type) (w : world K K (fun _ => result V E) U) (u : U) (S : nat),
  exists u' l o, run w u (OrdinalTotalArrayMap_try_new_p (Val (N.of_nat S)) S) = (u', l, Val o) /\
    exists made, built (repeat (fun k => k) S) (fun v => ResOk v) (fun e => ResErr e) l made (returned o) /\
      match returned o with
      | Val (ResOk a) => arr_list a = made /\ dropped o = []
      | Val (ResErr _) | Panic _ => dropped o = made
      | _ => True
      end.
Proof. exact @array_try_new_asked. Qed.
Print Assumptions C85_array_try_new.
Theorem C85_total_map_map : forall (cfg : Config) (K V W U : Type) (w : world K (K * V) (fun _ => W) U) (u : U) (S : nat) (m : OrdinalTotalArrayMap S V),
  N.of_nat S <= usize_max ->
  exists u' l o, run w u (OrdinalTotalArrayMap_map_p m) = (u', l, Val o) /\
    exists made, built (map (fun v k => (k, v)) (arr_list m)) (fun v => v) (fun e : Empty_set => match e with end) l made (returned o) /\
      match returned o with
      | Val (ResOk a) => arr_list a = made /\ dropped o = []
      | Val (ResErr _) | Panic _ => dropped o = made
      | _ => True
      end.
Proof. exact @total_map_map_asked. Qed.
Print Assumptions C85_total_map_map.
Theorem C85_retain : forall (cfg : Config) (K V U : Type) (w : world K (K * V) (fun _ => (V * res bool)%type) U) (u : U) (S : nat) (m : @OrdinalArrayMap V S),
  closure_returns w -> N.of_nat S <= usize_max ->
  exists u' l m' r, run w u (OrdinalArrayMap_retain_p m) = (u', l, Val (m', r)) /\ retained 0 (arr_list m) l m' r.
Proof. exact @retain_asked. Qed.
Print Assumptions C85_retain.

(** With an impl that is a pair of functions the dialogues are the models all other properties
    are about. *)
Theorem C85_map_model : forall (cfg : Config) (K C X : Type) (O : Ordinal K) (St : Type) (f : St -> C -> St * res X) (st : St) (V : Type) (op : map_op K V) (m : @OrdinalMap V),
  exists l, run (mixed O f) st (heap_step_p (ORDINAL_SIZE O) op m) = (st, l, heap_step O op m).
Proof. exact @map_model. Qed.
Print Assumptions C85_map_model.
Theorem C85_array_map_model : forall (cfg : Config) (K C X : Type) (O : Ordinal K) (St : Type) (f : St -> C -> St * res X) (st : St) (V : Type) (S : nat) (op : map_op K V) (m : @OrdinalArrayMap V S),
  exists l, run (mixed O f) st (array_step_p op m) = (st, l, array_step O op m).
Proof. exact @array_map_model. Qed.
Print Assumptions C85_array_map_model.
Theorem C85_total_map_model : forall (cfg : Config) (K C X : Type) (O : Ordinal K) (St : Type) (f : St -> C -> St * res X) (st : St) (V : Type) (op : total_op K V) (m : @OrdinalTotalMap V),
  exists l, run (mixed O f) st (htotal_step_p (ORDINAL_SIZE O) op m) = (st, l, htotal_step O op m).
Proof. exact @total_map_model. Qed.
Print Assumptions C85_total_map_model.
Theorem C85_array_total_map_model : forall (cfg : Config) (K C X : Type) (O : Ordinal K) (St : Type) (f : St -> C -> St * res X) (st : St) (V : Type) (S : nat) (op : total_op K V) (m : OrdinalTotalArrayMap S V),
  exists l, run (mixed O f) st (atotal_step_p (ORDINAL_SIZE O) op m) = (st, l, atotal_step O op m).
Proof. exact @array_total_map_model. Qed.
Print Assumptions C85_array_total_map_model.
Theorem C85_set_model : forall (cfg : Config) (K C X : Type) (O : Ordinal K) (St : Type) (f : St -> C -> St * res X) (st : St) (op : set_op K) (s : OrdinalSet),
  exists l, run (mixed O f) st (set_step_p (ORDINAL_SIZE O) op s) = (st, l, set_step O op s).
Proof. exact @set_model. Qed.
Print Assumptions C85_set_model.
Theorem C85_array_set_model : forall (cfg : Config) (K C X : Type) (O : Ordinal K) (St : Type) (f : St -> C -> St * res X) (st : St) (S : nat) (op : set_op K) (s : OrdinalArraySet S),
  exists l, run (mixed O f) st (array_set_step_p (ORDINAL_SIZE O) op s) = (st, l, array_set_step O op s).
Proof. exact @array_set_model. Qed.
Print Assumptions C85_array_set_model.
Theorem C85_set64_model : forall (cfg : Config) (K C X : Type) (O : Ordinal K) (St : Type) (f : St -> C -> St * res X) (st : St) (op : set_op K) (s : OrdinalSet64),
  exists l, run (mixed O f) st (set64_step_p (ORDINAL_SIZE O) op s) = (st, l, set64_step O op s).
Proof. exact @set64_model. Qed.
Print Assumptions C85_set64_model.
Theorem C85_atomic_model : forall (K C X : Type) (O : Ordinal K) (St : Type) (f : St -> C -> St * res X) (st : St) (c : call K) (cell : N),
  exists l, run (mixed O f) st (call_alone_p c cell) = (st, l, Val (call_alone O c cell)).
Proof. exact @atomic_model. Qed.
Print Assumptions C85_atomic_model.
Theorem C85_array_ordinal_model : forall (cfg : Config) (K C X : Type) (O : Ordinal K) (St : Type) (f : St -> C -> St * res X) (st : St) (len : nat) (a : arr K len),
  exists l, run (mixed O f) st (array_ordinal_p (ORDINAL_SIZE O) a) = (st, l, ordinal (Ordinal_array O len) a).
Proof. exact @array_ordinal_model. Qed.
Print Assumptions C85_array_ordinal_model.
Theorem C85_array_from_ordinal_model : forall (K C X : Type) (O : Ordinal K) (St : Type) (f : St -> C -> St * res X) (st : St) (len : nat) (i : N),
  exists l, run (mixed O f) st (array_from_ordinal_p (ORDINAL_SIZE O) len i) = (st, l, Val (array_from_ordinal O len i)).
Proof. exact @array_from_model. Qed.
Print Assumptions C85_array_from_ordinal_model.
Theorem C85_try_new_model : forall (K V E St : Type) (O : Ordinal K) (f : St -> K -> St * res (result V E)) (st : St),
  exists l, run (mixed O f) st (OrdinalTotalMap_try_new_p (ORDINAL_SIZE O)) =
    (fst (OrdinalTotalMap_try_new O f st), l, snd (OrdinalTotalMap_try_new O f st)).
Proof. exact @try_new_model. Qed.
Print Assumptions C85_try_new_model.
Theorem C85_array_try_new_model : forall (K V E St : Type) (O : Ordinal K) (S : nat) (f : St -> K -> St * res (result V E)) (st : St),
  exists l, run (mixed O f) st (OrdinalTotalArrayMap_try_new_p (ORDINAL_SIZE O) S) =
    (fst (OrdinalTotalArrayMap_try_new O S f st), l, Val (snd (OrdinalTotalArrayMap_try_new O S f st))).
Proof. exact @array_try_new_model. Qed.
Print Assumptions C85_array_try_new_model.
Theorem C85_retain_model : forall (cfg : Config) (K V St : Type) (O : Ordinal K) (S : nat) (f : St -> K -> V -> St * V * res bool) (m : @OrdinalArrayMap V S) (st : St),
  let '(st', m', r) := OrdinalArrayMap_retain O f m st in
  exists l, run (mixed O (fun st c => let '(st', v, r) := f st (fst c) (snd c) in (st', Val (v, r)))) st (OrdinalArrayMap_retain_p m) = (st', l, Val (m', r)).
Proof. exact @retain_model. Qed.
Print Assumptions C85_retain_model.

(** [tired] panics once it has answered as often as the number says. Both ends of a map with an empty slot; the second time user code panics. *)
Example C85_case :
  let asks u := run (C := Empty_set) (tired tt) u (heap_step_p (cfg := debug64) (Val 3) (OpIter [Back; Front]) [None; Some 7; Some 8]) in
  questions (snd (fst (asks 9%nat))) = [QFrom 2; QFrom 0; QFrom 1] /\
  map_questions (OpIter [Back; Front]) [None; Some 7; Some 8] = froms (K := comparison) (C := Empty_set) [2; 0; 1] /\
  snd (asks 9%nat) = Val (OutEntries [Some (Gt, 8); Some (Eq, 7)], [None; Some 7; Some 8]) /\
  questions (snd (fst (asks 1%nat))) = [QFrom 2; QFrom 0] /\ snd (asks 1%nat) = Panic PUser.
Proof. repeat split; reflexivity. Qed.
(** A set [{Less, Greater}]: [insert] of a missing element asks four times. *)
Example C85_set_case :
  let asks op := questions (snd (fst (run (C := Empty_set) (tired tt) 20%nat (set_step_p (cfg := debug64) (Val 3) op (Small 5))))) in
  asks (SInsert Eq) = repeat (QOrdinal Eq) 4 /\
  asks (SIter [Front; Front]) = [QFrom 0; QOrdinal Lt; QOrdinal Lt; QFrom 1; QOrdinal Eq; QOrdinal Eq; QFrom 2; QOrdinal Gt; QOrdinal Gt].
Proof. split; reflexivity. Qed.
(** The third key cannot be decoded any more: what was made is dropped. *)
Example C85_array_try_new_case :
  let o u := run (tired (ResOk (B := N) 7)) u (OrdinalTotalArrayMap_try_new_p (Val 3) 3) in
  snd (o 4%nat) = Val {| returned := Panic PUser; dropped := [7; 7] |} /\
  questions (snd (fst (o 4%nat))) = [QFrom 0; QUser Lt; QFrom 1; QUser Eq; QFrom 2].
Proof. split; reflexivity. Qed.
Example C85_retain_case : exists (m : @OrdinalArrayMap N 3), arr_list m = [Some 1; None; Some 2] /\
  let o u := run (tired (9, Val false)) u (OrdinalArrayMap_retain_p (cfg := debug64) m) in
  snd (o 3%nat) = Val ([None; None; Some 2], Panic PUser) /\
  questions (snd (fst (o 3%nat))) = [QFrom 0; QUser (Lt, 1); QFrom 1; QFrom 2].
Proof. exists (@mk_arr (option N) 3 [Some 1; None; Some 2] eq_refl). repeat split; reflexivity. Qed.
Example C85_array_case :
  let o u := run (C := Empty_set) (tired tt) u (array_from_ordinal_p (Val 3) 2 5) in
  questions (snd (fst (o 9%nat))) = [QFrom 2; QFrom 1] /\ digits 3 5 2 = [2; 1] /\
  snd (o 1%nat) = Val {| returned := Panic PUser; dropped := [Gt] |}.
Proof. repeat split; reflexivity. Qed.

(** ** C86 *)
Theorem C86_map : forall (cfg : Config) (K C X : Type) (V : Type) (U : Type) (w : world K C (fun _ => X) U) (u : U) (n : N) (ops : list (map_op K V)),
  n <= usize_max -> safe_world w -> no_ub (snd (run w u (run_ops_p (heap_step_p (Val n)) ops []))).
Proof. exact @map_programs_safe. Qed.
Print Assumptions C86_map.
Theorem C86_array_map : forall (cfg : Config) (K C X : Type) (V : Type) (U : Type) (w : world K C (fun _ => X) U) (u : U) (S : nat) (ops : list (map_op K V)) (m : @OrdinalArrayMap V S),
  N.of_nat S <= usize_max -> safe_world w -> no_ub (snd (run w u (run_ops_p (fun op m => array_step_p op m) ops m))).
Proof. exact @array_map_programs_safe. Qed.
Print Assumptions C86_array_map.
Theorem C86_total_map : forall (cfg : Config) (K C X : Type) (V : Type) (U : Type) (w : world K C (fun _ => X) U) (u : U) (n : N) (ops : list (total_op K V)) (m : @OrdinalTotalMap V),
  llen m <= usize_max -> safe_world w -> no_ub (snd (run w u (run_ops_p (htotal_step_p (Val n)) ops m))).
Proof. exact @total_programs_safe. Qed.
Print Assumptions C86_total_map.
Theorem C86_array_total_map : forall (cfg : Config) (K C X : Type) (V : Type) (U : Type) (w : world K C (fun _ => X) U) (u : U) (n : N) (S : nat) (ops : list (total_op K V)) (m : OrdinalTotalArrayMap S V),
  N.of_nat S <= usize_max -> safe_world w -> no_ub (snd (run w u (run_ops_p (fun op m => atotal_step_p (Val n) op m) ops m))).
Proof. exact @array_total_programs_safe. Qed.
Print Assumptions C86_array_total_map.
Theorem C86_set : forall (cfg : Config) (K C X : Type) (U : Type) (w : world K C (fun _ => X) U) (u : U) (size : res N) (ops : list (set_op K)) (s : OrdinalSet),
  no_ub size -> safe_world w -> no_ub (snd (run w u (run_ops_p (set_step_p size) ops s))).
Proof. exact @set_programs_safe. Qed.
Print Assumptions C86_set.
Theorem C86_array_set : forall (cfg : Config) (K C X : Type) (U : Type) (w : world K C (fun _ => X) U) (u : U) (size : res N) (S : nat) (ops : list (set_op K)) (s : OrdinalArraySet S),
  no_ub size -> safe_world w -> no_ub (snd (run w u (run_ops_p (fun op s => array_set_step_p size op s) ops s))).
Proof. exact @array_set_programs_safe. Qed.
Print Assumptions C86_array_set.
Theorem C86_set64 : forall (cfg : Config) (K C X : Type) (U : Type) (w : world K C (fun _ => X) U) (u : U) (size : res N) (ops : list (set_op K)) (s : OrdinalSet64),
  no_ub size -> safe_world w -> no_ub (snd (run w u (run_ops_p (set64_step_p size) ops s))).
Proof. exact @set64_programs_safe. Qed.
Print Assumptions C86_set64.
Theorem C86_atomic : forall (K C X : Type) (U : Type) (w : world K C (fun _ => X) U) (u : U) (c : call K) (cell : N),
  safe_world w -> exists r cell', snd (run w u (call_alone_p c cell)) = Val (r, cell') /\ no_ub r.
Proof. exact @atomic_safe. Qed.
Print Assumptions C86_atomic.
Theorem C86_array_ordinal : forall (cfg : Config) (K C X : Type) (U : Type) (w : world K C (fun _ => X) U) (u : U) (size : res N) (len : nat) (a : arr K len),
  no_ub size -> safe_world w -> no_ub (snd (run w u (array_ordinal_p size a))).
Proof. exact @array_ordinal_no_ub. Qed.
Print Assumptions C86_array_ordinal.
Theorem C86_array_from_ordinal : forall (K C X : Type) (U : Type) (w : world K C (fun _ => X) U) (u : U) (size : N) (len : nat) (i : N),
  safe_world w -> exists o, snd (run w u (array_from_ordinal_p (Val size) len i)) = Val o /\ no_ub (returned o).
Proof. exact @array_from_no_ub. Qed.
Print Assumptions C86_array_from_ordinal.
Theorem C86_try_new : forall (K V E U : Type) (w : world K K (fun _ => result V E) U) (u : U) (n : N),
  safe_world w -> no_ub (snd (run w u (OrdinalTotalMap_try_new_p (Val n)))).
Proof. exact @try_new_no_ub. Qed.
Print Assumptions C86_try_new.
Theorem C86_array_try_new : forall (K V E U : Type) (w : world K K (fun _ => result V E) U) (u : U) (S : nat),
  safe_world w -> exists o, snd (run w u (OrdinalTotalArrayMap_try_new_p (Val (N.of_nat S)) S)) = Val o /\ no_ub (returned o).
Proof. exact @array_try_new_no_ub. Qed.
Print Assumptions C86_array_try_new.
Theorem C86_total_map_map : forall (cfg : Config) (K V W U : Type) (w : world K (K * V) (fun _ => W) U) (u : U) (S : nat) (m : OrdinalTotalArrayMap S V),
  N.of_nat S <= usize_max -> safe_world w -> exists o, snd (run w u (OrdinalTotalArrayMap_map_p m)) = Val o /\ no_ub (returned o).
Proof. exact @total_map_map_no_ub. Qed.
Print Assumptions C86_total_map_map.
Theorem C86_retain : forall (cfg : Config) (K V U : Type) (w : world K (K * V) (fun _ => (V * res bool)%type) U) (u : U) (S : nat) (m : @OrdinalArrayMap V S),
  N.of_nat S <= usize_max -> safe_world w -> closure_returns w ->
  exists m' r, snd (run w u (OrdinalArrayMap_retain_p m)) = Val (m', r) /\ length m' = S /\ no_ub r.
Proof. exact @retain_no_ub. Qed.
Print Assumptions C86_retain.

(** [telling] answers [ordinal] with one number after the other and is safe. *)
Example C86_case : safe_world (@telling Empty_set) /\
  snd (run (telling (C := Empty_set)) [1; 9; 0; 1] (run_ops_p (heap_step_p (cfg := debug64) (Val 2)) [OpInsert tt 5; OpGet tt; OpGet tt; OpIter [Front]; OpInsert tt 6] [])) =
    Val ([OutValue None; OutValue None; OutValue None; OutEntries [Some (tt, 5)]; OutValue (Some 5)], [None; Some 6]) /\
  snd (run (telling (C := Empty_set)) [1; 1; 1; 65] (run_ops_p (set_step_p (cfg := debug64) (Val 2)) [SInsert tt] (Small 0))) =
    Panic PIndex /\
  snd (run (telling (C := Empty_set)) [1; 65] (call_alone_p (CCas tt tt SeqCst SeqCst) 1)) = Val (Val (OOk tt), 65).
Proof. split; [exact (@telling_safe Empty_set)|]. repeat split; reflexivity. Qed.

(** ** C87 *)
Theorem C87_map : forall (cfg : Config) (K C X : Type) (V : Type) (U : Type) (w : world K C (fun _ => X) U) (u : U) (size : res N) (op : map_op K V) (m : @OrdinalMap V),
  llen m <= usize_max ->
  exists O, ORDINAL_SIZE O = size /\ (no_ub size -> safe_world w -> any_impl O) /\
    snd (run w u (heap_step_p size op m)) = heap_step O op m.
Proof. exact @map_as_fixed. Qed.
Print Assumptions C87_map.
Theorem C87_array_map : forall (cfg : Config) (K C X : Type) (V : Type) (U : Type) (w : world K C (fun _ => X) U) (u : U) (size : res N) (S : nat) (op : map_op K V) (m : @OrdinalArrayMap V S),
  N.of_nat S <= usize_max ->
  exists O, ORDINAL_SIZE O = size /\ (no_ub size -> safe_world w -> any_impl O) /\
    snd (run w u (array_step_p op m)) = array_step O op m.
Proof. exact @array_map_as_fixed. Qed.
Print Assumptions C87_array_map.
Theorem C87_total_map : forall (cfg : Config) (K C X : Type) (V : Type) (U : Type) (w : world K C (fun _ => X) U) (u : U) (n : N) (op : total_op K V) (m : @OrdinalTotalMap V),
  llen m <= usize_max ->
  exists O, ORDINAL_SIZE O = Val n /\ (safe_world w -> any_impl O) /\
    snd (run w u (htotal_step_p (Val n) op m)) = htotal_step O op m.
Proof. exact @total_as_fixed. Qed.
Print Assumptions C87_total_map.
Theorem C87_array_total_map : forall (cfg : Config) (K C X : Type) (V : Type) (U : Type) (w : world K C (fun _ => X) U) (u : U) (n : N) (S : nat) (op : total_op K V) (m : OrdinalTotalArrayMap S V),
  N.of_nat S <= usize_max ->
  exists O, ORDINAL_SIZE O = Val n /\ (safe_world w -> any_impl O) /\
    snd (run w u (atotal_step_p (Val n) op m)) = atotal_step O op m.
Proof. exact @array_total_as_fixed. Qed.
Print Assumptions C87_array_total_map.
Theorem C87_try_new : forall (K V E U : Type) (w : world K K (fun _ => result V E) U) (u : U) (n : N),
  exists O St (f : St -> K -> St * res (result V E)) st,
    ORDINAL_SIZE O = Val n /\ (safe_world w -> any_impl O) /\
    snd (run w u (OrdinalTotalMap_try_new_p (Val n))) = snd (OrdinalTotalMap_try_new O f st).
Proof. exact @try_new_as_fixed. Qed.
Print Assumptions C87_try_new.
Theorem C87_array_try_new : forall (K V E U : Type) (w : world K K (fun _ => result V E) U) (u : U) (S : nat),
  exists O St (f : St -> K -> St * res (result V E)) st,
    ORDINAL_SIZE O = Val (N.of_nat S) /\ (safe_world w -> any_impl O) /\
    snd (run w u (OrdinalTotalArrayMap_try_new_p (Val (N.of_nat S)) S)) = Val (snd (OrdinalTotalArrayMap_try_new O S f st)).
Proof. exact @array_try_new_as_fixed. Qed.
Print Assumptions C87_array_try_new.
Theorem C87_total_map_map : forall (cfg : Config) (K V W U : Type) (w : world K (K * V) (fun _ => W) U) (u : U) (S : nat) (m : OrdinalTotalArrayMap S V),
  N.of_nat S <= usize_max ->
  exists O St (f : St -> K -> V -> St * res W) st o,
    ORDINAL_SIZE O = Val (N.of_nat S) /\ (safe_world w -> any_impl O) /\
    snd (run w u (OrdinalTotalArrayMap_map_p m)) = Val o /\
    returned (snd (OrdinalTotalArrayMap_map O f m st)) = (a <- returned o ;; Val (into_ok a)) /\
    dropped (snd (OrdinalTotalArrayMap_map O f m st)) = dropped o.
Proof. exact @total_map_map_as_fixed. Qed.
Print Assumptions C87_total_map_map.
Theorem C87_retain : forall (cfg : Config) (K V U : Type) (w : world K (K * V) (fun _ => (V * res bool)%type) U) (u : U) (S : nat) (m : @OrdinalArrayMap V S),
  N.of_nat S <= usize_max -> closure_returns w ->
  exists O St (f : St -> K -> V -> St * V * res bool) st,
    ORDINAL_SIZE O = Val (N.of_nat S) /\ (safe_world w -> any_impl O) /\
    let '(_, m', r) := OrdinalArrayMap_retain O f m st in
    snd (run w u (OrdinalArrayMap_retain_p m)) = Val (m', r).
Proof. exact @retain_as_fixed. Qed.
Print Assumptions C87_retain.
Theorem C87_set_contains : forall (cfg : Config) (K C X : Type) (U : Type) (w : world K C (fun _ => X) U) (u : U) (size : res N) (t : K) (s : OrdinalSet),
  exists O, ORDINAL_SIZE O = size /\ (no_ub size -> safe_world w -> any_impl O) /\
    snd (run w u (set_step_p size (SContains t) s)) = set_step O (SContains t) s.
Proof. exact @set_contains_as_fixed. Qed.
Print Assumptions C87_set_contains.
Theorem C87_array_set_contains : forall (cfg : Config) (K C X : Type) (U : Type) (w : world K C (fun _ => X) U) (u : U) (size : res N) (S : nat) (t : K) (s : OrdinalArraySet S),
  exists O, ORDINAL_SIZE O = size /\ (no_ub size -> safe_world w -> any_impl O) /\
    snd (run w u (array_set_step_p size (SContains t) s)) = array_set_step O (SContains t) s.
Proof. exact @array_set_contains_as_fixed. Qed.
Print Assumptions C87_array_set_contains.
Theorem C87_set64_contains : forall (cfg : Config) (K C X : Type) (U : Type) (w : world K C (fun _ => X) U) (u : U) (size : res N) (t : K) (s : OrdinalSet64),
  exists O, ORDINAL_SIZE O = size /\ (no_ub size -> safe_world w -> any_impl O) /\
    snd (run w u (set64_step_p size (SContains t) s)) = set64_step O (SContains t) s.
Proof. exact @set64_contains_as_fixed. Qed.
Print Assumptions C87_set64_contains.

(** Not so for the other operations of sets and for [compare_exchange]: with answers that change,
    [insert] reports that it added an element although the set stays the same, *)
Theorem C87_set_insert_differs : exists U (w : world unit Empty_set (fun _ => unit) U) u s, safe_world w /\
  snd (run w u (@set_step_p debug64 unit Empty_set (fun _ => unit) (Val 2) (SInsert tt) s)) = Val (SBool true, s) /\
  forall O, @set_step debug64 unit O (SInsert tt) s <> Val (SBool true, s).
Proof. exact @insert_lies. Qed.
Print Assumptions C87_set_insert_differs.

(** [OrdinalSet64::insert] reports that the element was there and adds one, *)
Theorem C87_set64_insert_differs : exists U (w : world unit Empty_set (fun _ => unit) U) u s s', safe_world w /\ s' <> s /\
  snd (run w u (@set64_step_p debug64 unit Empty_set (fun _ => unit) (Val 64) (SInsert tt) s)) = Val (SBool false, s') /\
  forall O, @set64_step debug64 unit O (SInsert tt) s <> Val (SBool false, s').
Proof. exact @insert64_lies. Qed.
Print Assumptions C87_set64_insert_differs.

(** an iterator visits one of two ordinals that are decoded to the same key, *)
Theorem C87_set_iter_differs : exists U (w : world unit Empty_set (fun _ => unit) U) u s, safe_world w /\
  snd (run w u (@set_step_p debug64 unit Empty_set (fun _ => unit) (Val 2) (SIter [Front; Front]) s)) = Val (SItems [Some tt; None], s) /\
  forall O, ORDINAL_SIZE O = Val 2 -> @set_step debug64 unit O (SIter [Front; Front]) s <> Val (SItems [Some tt; None], s).
Proof. exact @iter_differs. Qed.
Print Assumptions C87_set_iter_differs.

(** and [compare_exchange] of a value with itself changes the cell. *)
Theorem C87_compare_exchange_differs : exists U (w : world unit Empty_set (fun _ => unit) U) u, safe_world w /\
  snd (run w u (call_alone_p (CCas tt tt SeqCst SeqCst) 0)) = Val (Val (OOk tt), 1) /\
  forall O, call_alone O (CCas tt tt SeqCst SeqCst) 0 <> (Val (OOk tt), 1).
Proof. exact @cas_differs. Qed.
Print Assumptions C87_compare_exchange_differs.

(** The second call of [get] gets another answer, and is again one with a fixed impl. *)
Example C87_case :
  let get u := snd (run (telling (C := Empty_set)) u (heap_step_p (cfg := debug64) (Val 2) (OpGet tt) [None; Some 5])) in
  let fixed i := {| ORDINAL_SIZE := Val 2; ordinal := fun _ : unit => Val i; from_ordinal := fun _ => Val None |} in
  get [0] = heap_step (cfg := debug64) (fixed 0) (OpGet tt) [None; Some 5] /\
  get [1] = heap_step (cfg := debug64) (fixed 1) (OpGet tt) [None; Some 5] /\ get [0] <> get [1].
Proof. repeat split; discriminate. Qed.
(** [contains] with the answers 64 and 3 is [contains] of 67. *)
Example C87_contains_case :
  let fixed i := {| ORDINAL_SIZE := Val 100; ordinal := fun _ : unit => Val i; from_ordinal := fun _ => Val None |} in
  snd (run (telling (C := Empty_set)) [64; 3] (set_step_p (cfg := debug64) (Val 100) (SContains tt) (Large [0; 8]))) =
    set_step (cfg := debug64) (fixed 67) (SContains tt) (Large [0; 8]).
Proof. reflexivity. Qed.
