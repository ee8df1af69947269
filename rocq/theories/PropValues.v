(** * PropValues: properties C20 - C22 (values.rs, Ordinal::all_values).

    [enumeration O l]: [l] lists every value exactly once in ordinal order;
    [deque_run sched l]: what the calls [sched] of next/next_back return on the sequence
    [l] and what is left (Spec.v). *)
From Verif Require Import Base Spec ModelValues ModelOrdinal OrdinalProofs IterLib ValuesProofs.
From Coq Require Import String List.
Import ListNotations.

(** ** C20. [collect next fuel] calls [next] until [None], at most [fuel] times. *)
Theorem C20_all_values : forall (cfg : Config) (T : Type) (O : Ordinal T) (n : N),
  ordinal_bijection O n ->
  exists l s, enumeration O l /\ llen l = n /\ values_new O = Val s /\
    forall fuel, (List.length l < fuel)%nat -> exists s', collect (values_next O) fuel s = Val (l, s').
Proof. exact @all_values_law. Qed.
Print Assumptions C20_all_values.
Example C20_case : @ordinal_bijection debug64 _ Ordinal_Ordering 3 /\
  exists s, collect (values_next Ordinal_Ordering) 4 {| r_start := 0; r_end := 3 |} = Val ([Lt; Eq; Gt], s).
Proof. split; [apply (@Ordering_lawful debug64)|]. eexists. reflexivity. Qed.

(** ** C21 *)
Theorem C21_all_values_iterator : forall (cfg : Config) (T : Type) (O : Ordinal T) (n : N),
  ordinal_bijection O n ->
  forall (l : list T) (sched : list dir), enumeration O l ->
  exists s s', values_new O = Val s /\
    drive (values_step O) sched s = Val (fst (deque_run sched l), s') /\
    let rest := snd (deque_run sched l) in
    values_len s' = llen rest /\
    values_size_hint s' = (llen rest, Some (llen rest)) /\
    values_count s' = llen rest /\
    values_last O s' = Val (fst (deque_step Back rest)).
Proof. exact @all_values_iterator. Qed.
Print Assumptions C21_all_values_iterator.
Example C21_case : enumeration Ordinal_Ordering [Lt; Eq; Gt] /\
  deque_run [Back; Front; Back; Back; Front] [Lt; Eq; Gt] =
    ([Some Gt; Some Lt; Some Eq; None; None], []).
Proof.
  split; [|reflexivity]. split; [intros []; cbn; auto|].
  repeat constructor; eexists _, _; repeat split.
Qed.

(** ** C22. [rest] is what is left after the calls; [l = pre ++ rest] says the upper end
    is untouched. *)
Theorem C22_debug : forall (cfg : Config) (T : Type) (O : Ordinal T) (n : N),
  ordinal_bijection O n ->
  forall (show : T -> string) (l : list T) (sched : list dir) (rest : list T),
  enumeration O l -> rest = snd (deque_run sched l) ->
  exists s os s', values_new O = Val s /\ drive (values_step O) sched s = Val (os, s') /\
    (rest = [] -> values_debug O show s' = Val "[]"%string) /\
    (forall pre first more, l = pre ++ rest -> rest = first :: more ->
       values_debug O show s' = Val ("[" ++ show first ++ "..]")%string) /\
    (forall only, rest = [only] -> (forall pre, l <> pre ++ rest) ->
       values_debug O show s' = Val ("[" ++ show only ++ "]")%string) /\
    (forall first middle last, rest = first :: middle ++ [last] -> (forall pre, l <> pre ++ rest) ->
       values_debug O show s' = Val ("[" ++ show first ++ "..=" ++ show last ++ "]")%string).
Proof. exact @values_debug_law. Qed.
Print Assumptions C22_debug.
Example C22_case :
  let show := fun c => match c with Lt => "Less" | Eq => "Equal" | Gt => "Greater" end%string in
  values_debug Ordinal_Ordering show {| r_start := 0; r_end := 2 |} = Val "[Less..=Equal]"%string /\
  values_debug Ordinal_Ordering show {| r_start := 1; r_end := 2 |} = Val "[Equal]"%string /\
  values_debug Ordinal_Ordering show {| r_start := 1; r_end := 3 |} = Val "[Equal..]"%string /\
  snd (deque_run [Back; Front] [Lt; Eq; Gt]) = [Eq].
Proof. repeat split. Qed.
