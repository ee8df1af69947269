(** * PropFmt: C93, the text of [{:?}] and [{:#?}] (the Debug implementations of the crate).

    A Debug implementation is a program that hands strings to a sink (SpecFmt.v):
    [says p t]: on a sink that takes everything, [p] succeeds and writes [t]; [heard p]: what it
    writes there and how it ends; [attempts sink st p]: what it offers to any sink.
    [alt]: the alternate flag; [showK], [showV], [show]: arbitrary Debug implementations of the keys,
    values and elements.  [prints_map], [prints_set], [prints_list], [prints_pairs] (SpecFmt.v): the
    program prints these entries, elements or pairs. *)
From Coq Require Import Ascii String List.
From Verif Require Import Base Spec SpecMap SpecTotal SpecSet SpecIter SpecApi SpecAtomic SpecFmt ModelOrdinal ModelValues
  ModelArrayBuilder ModelAtomic ModelIter ModelTotal ModelMap ModelSet ModelFmt MapMachine TotalMachine SetMachine
  OrdinalProofs FmtProofs FmtProofs2.
Import ListNotations.

(** What [prints_map] etc. mean for the text: when the keys and values are shown as [a] and [b], ... *)
Theorem C93_texts :
  (forall A B alt (showA : A -> writing) (showB : B -> writing) (a : A -> string) (b : B -> string) p l,
    (forall e, In e l -> says (showA (fst e)) (a (fst e)) /\ says (showB (snd e)) (b (snd e))) ->
    (prints_map alt showA showB p l ->
     says p (bracketed alt "{" "}" (map (fun e => entry_text (a (fst e)) (b (snd e))) l))) /\
    (prints_pairs alt showA showB p l ->
     says p (bracketed alt "[" "]" (map (fun e => pair_text alt (a (fst e)) (b (snd e))) l)))) /\
  (forall A alt (show : A -> writing) (text : A -> string) p l,
    (forall x, In x l -> says (show x) (text x)) ->
    (prints_set alt show p l -> says p (bracketed alt "{" "}" (map text l))) /\
    (prints_list alt show p l -> says p (bracketed alt "[" "]" (map text l)))).
Proof. exact collections_text. Qed.
Print Assumptions C93_texts.

(** ... and when their implementations pass on errors of the sink, so does the whole: *)
Theorem C93_errors_passed_on :
  (forall A B alt (showA : A -> writing) (showB : B -> writing) p l,
    (forall e, In e l -> polite (showA (fst e)) /\ polite (showB (snd e))) ->
    prints_map alt showA showB p l \/ prints_pairs alt showA showB p l -> polite p) /\
  (forall A alt (show : A -> writing) p l,
    (forall x, In x l -> polite (show x)) ->
    prints_set alt show p l \/ prints_list alt show p l -> polite p).
Proof. exact collections_polite. Qed.
Print Assumptions C93_errors_passed_on.

(** on every sink, either it takes every string and these make up the text, or the first string it
    refuses is the last one offered and the result is an error. *)
Theorem C93_any_sink : forall (St : Type) (sink : St -> string -> bool * St) p t, polite p -> says p t ->
  forall st, exists l, (forall x, In x l -> snd x = true) /\
    ((attempts sink st p = (l, Val true) /\ String.concat "" (map fst l) = t) \/
     (exists s more, attempts sink st p = ((l ++ [(s, false)])%list, Val false) /\
        (String.concat "" (map fst l) ++ s ++ more)%string = t)).
Proof. exact polite_sink. Qed.
Print Assumptions C93_any_sink.

(** ** Maps and their iterators, at every point of every schedule of calls *)
Theorem C93_map : forall (cfg : Config) (K V : Type) (O : Ordinal K) (n : N), ordinal_bijection O n ->
  forall (alt : bool) (showK : bool -> K -> writing) (showV : bool -> V -> writing)
    (st : @OrdinalMap V), heap_reachable O st -> forall l, lists_entries O (OrdinalMap_get O st) l ->
  prints_map alt (showK alt) (showV alt) (OrdinalMap_fmt O alt showK showV st) l /\
  double_ended (Iter_step O) (OrdinalMap_iter st) l
    (fun s r => prints_pairs alt (showK alt) (showV alt) (Iter_fmt O alt showK showV s) r) /\
  double_ended (Values_step O) (OrdinalMap_values st) (map snd l)
    (fun s r => prints_list alt (showV alt) (Values_fmt O alt showV s) r) /\
  double_ended (IntoIter_step O) (OrdinalMap_into_iter st) l
    (fun s r => prints_pairs alt (showK alt) (showV alt) (IntoIter_fmt O alt showK showV s) r) /\
  double_ended_rel (ref_to O st) (IterMut_step O st) (OrdinalMap_iter_mut st) l
    (fun s r => prints_pairs alt (showK alt) (showV alt) (IterMut_fmt O alt showK showV st s) r) /\
  double_ended_rel (value_ref O st) (ValuesMut_step O st) (OrdinalMap_values_mut st) l
    (fun s r => prints_list alt (showV alt) (ValuesMut_fmt O alt showV st s) (map snd r)).
Proof. exact @heap_prints. Qed.
Print Assumptions C93_map.

Theorem C93_array_map : forall (cfg : Config) (K V : Type) (O : Ordinal K) (n : N), ordinal_bijection O n ->
  forall (alt : bool) (showK : bool -> K -> writing) (showV : bool -> V -> writing)
    (S : nat) (a : @OrdinalArrayMap V S), array_reachable O a -> forall l, lists_entries O (OrdinalArrayMap_get O a) l ->
  prints_map alt (showK alt) (showV alt) (OrdinalArrayMap_fmt O alt showK showV a) l /\
  double_ended (Iter_step O) (OrdinalArrayMap_iter a) l
    (fun s r => prints_pairs alt (showK alt) (showV alt) (Iter_fmt O alt showK showV s) r) /\
  double_ended (Values_step O) (OrdinalArrayMap_values a) (map snd l)
    (fun s r => prints_list alt (showV alt) (Values_fmt O alt showV s) r) /\
  double_ended (IntoIterArray_step O) (OrdinalArrayMap_into_iter a) l
    (fun s r => prints_pairs alt (showK alt) (showV alt) (IntoIterArray_fmt O alt showK showV s) r) /\
  double_ended_rel (ref_to O (arr_list a)) (IterMut_step O (arr_list a)) (OrdinalArrayMap_iter_mut a) l
    (fun s r => prints_pairs alt (showK alt) (showV alt) (IterMut_fmt O alt showK showV (arr_list a) s) r) /\
  double_ended_rel (value_ref O (arr_list a)) (ValuesMut_step O (arr_list a)) (OrdinalArrayMap_values_mut a) l
    (fun s r => prints_list alt (showV alt) (ValuesMut_fmt O alt showV (arr_list a) s) (map snd r)).
Proof. exact @array_prints. Qed.
Print Assumptions C93_array_map.

(** Keys has a Debug implementation only when the values are [()]. *)
Theorem C93_keys : forall (cfg : Config) (K : Type) (O : Ordinal K) (n : N), ordinal_bijection O n ->
  forall (alt : bool) (showK : bool -> K -> writing),
  (forall st : @OrdinalMap unit, heap_reachable O st -> forall l, lists_entries O (OrdinalMap_get O st) l ->
    double_ended (Keys_step O) (OrdinalMap_keys st) (map fst l)
      (fun s r => prints_list alt (showK alt) (Keys_fmt O alt showK s) r)) /\
  (forall S (a : @OrdinalArrayMap unit S), array_reachable O a ->
    forall l, lists_entries O (OrdinalArrayMap_get O a) l ->
    double_ended (Keys_step O) (OrdinalArrayMap_keys a) (map fst l)
      (fun s r => prints_list alt (showK alt) (Keys_fmt O alt showK s) r)).
Proof. exact @keys_prints. Qed.
Print Assumptions C93_keys.

Theorem C93_total_map : forall (cfg : Config) (K V : Type) (O : Ordinal K) (n : N), ordinal_bijection O n ->
  forall (alt : bool) (showK : bool -> K -> writing) (showV : bool -> V -> writing)
    (m : @OrdinalTotalMap V), htotal_reachable O m -> forall l, lists_total O (OrdinalTotalMap_get O m) l ->
  prints_map alt (showK alt) (showV alt) (OrdinalTotalMap_fmt O alt showK showV m) l /\
  double_ended (TIter_step O) (OrdinalTotalMap_iter m) l
    (fun s r => prints_pairs alt (showK alt) (showV alt) (TIter_fmt O alt showK showV s) r) /\
  double_ended (TIntoIter_step O) (OrdinalTotalMap_into_iter m) l
    (fun s r => prints_pairs alt (showK alt) (showV alt) (TIntoIter_fmt O alt showK showV s) r) /\
  double_ended_rel (tref_to O m) (TIterMut_step O) (OrdinalTotalMap_iter_mut m) l
    (fun s r => prints_pairs alt (showK alt) (showV alt) (TIterMut_fmt O alt showK showV m s) r).
Proof. exact @htotal_prints. Qed.
Print Assumptions C93_total_map.

Theorem C93_total_array_map : forall (cfg : Config) (K V : Type) (O : Ordinal K) (n : N), ordinal_bijection O n ->
  forall (alt : bool) (showK : bool -> K -> writing) (showV : bool -> V -> writing)
    (S : nat) (m : OrdinalTotalArrayMap S V), atotal_reachable O m ->
  forall l, lists_total O (OrdinalTotalArrayMap_get O m) l ->
  prints_map alt (showK alt) (showV alt) (OrdinalTotalArrayMap_fmt O alt showK showV m) l /\
  double_ended (TIter_step O) (OrdinalTotalArrayMap_iter m) l
    (fun s r => prints_pairs alt (showK alt) (showV alt) (TIter_fmt O alt showK showV s) r) /\
  double_ended (TIntoIterArray_step O) (OrdinalTotalArrayMap_into_iter m) l
    (fun s r => prints_pairs alt (showK alt) (showV alt) (TIntoIterArray_fmt O alt showK showV s) r) /\
  double_ended_rel (tref_to O (arr_list m)) (TIterMut_step O) (OrdinalTotalArrayMap_iter_mut m) l
    (fun s r => prints_pairs alt (showK alt) (showV alt) (TIterMut_fmt O alt showK showV (arr_list m) s) r).
Proof. exact @atotal_prints. Qed.
Print Assumptions C93_total_array_map.

(** ** Sets.  With debug assertions a set over a type without values panics before it writes. *)
Theorem C93_set : forall (cfg : Config) (T : Type) (O : Ordinal T) (n : N), ordinal_bijection O n ->
  forall (alt : bool) (show : bool -> T -> writing) (s : OrdinalSet) l, set_reachable O s ->
  lists_members O (OrdinalSet_contains O s) l ->
  (1 <= n \/ debug_assertions = false -> prints_set alt (show alt) (OrdinalSet_fmt O alt show s) l) /\
  (n = 0 -> debug_assertions = true -> OrdinalSet_fmt O alt show s = Return (Panic PDebugAssert)) /\
  forall it, OrdinalSet_iter O s = Val it ->
    double_ended (SetIter_step O) it l (fun it r => prints_list alt (show alt) (SetIter_fmt O alt show it) r).
Proof. exact @set_prints. Qed.
Print Assumptions C93_set.

Theorem C93_array_set : forall (cfg : Config) (T : Type) (O : Ordinal T) (n : N), ordinal_bijection O n ->
  forall (alt : bool) (show : bool -> T -> writing) (S : nat) (s : OrdinalArraySet S) l, array_set_reachable O s ->
  lists_members O (OrdinalArraySet_contains O s) l -> prints_set alt (show alt) (OrdinalArraySet_fmt O alt show s) l.
Proof. exact @array_set_prints. Qed.
Print Assumptions C93_array_set.

Theorem C93_set64 : forall (cfg : Config) (T : Type) (O : Ordinal T) (n : N), ordinal_bijection O n ->
  forall (alt : bool) (show : bool -> T -> writing) (s : OrdinalSet64) l, set64_reachable O s ->
  lists_members O (OrdinalSet64_contains O s) l ->
  (1 <= n \/ debug_assertions = false -> prints_set alt (show alt) (OrdinalSet64_fmt O alt show s) l) /\
  (n = 0 -> debug_assertions = true -> OrdinalSet64_fmt O alt show s = Return (Panic PDebugAssert)) /\
  exists it, OrdinalSet64_iter O s = Val it /\
    double_ended (Iter64_step O) it l (fun it r => prints_list alt (show alt) (Iter64_fmt O alt show it) r).
Proof. exact @set64_prints. Qed.
Print Assumptions C93_set64.

(** ** OrdinalValues: the elements are shown without the alternate flag, and [{:#?}] is [{:?}]. *)
Theorem C93_values : forall (cfg : Config) (T : Type) (O : Ordinal T) (n : N), ordinal_bijection O n ->
  forall (show : bool -> T -> writing) (text : T -> string) (l : list T) (sched : list dir) (rest : list T),
  (forall x, says (show false x) (text x)) -> enumeration O l -> rest = snd (deque_run sched l) ->
  exists s os s', values_new O = Val s /\ drive (values_step O) sched s = Val (os, s') /\
    (rest = [] -> says (OrdinalValues_fmt O show s') "[]") /\
    (forall pre first more, l = (pre ++ rest)%list -> rest = first :: more ->
       says (OrdinalValues_fmt O show s') ("[" ++ text first ++ "..]")%string) /\
    (forall only, rest = [only] -> (forall pre, l <> (pre ++ rest)%list) ->
       says (OrdinalValues_fmt O show s') ("[" ++ text only ++ "]")%string) /\
    (forall first middle last, rest = (first :: middle ++ [last])%list -> (forall pre, l <> (pre ++ rest)%list) ->
       says (OrdinalValues_fmt O show s') ("[" ++ text first ++ "..=" ++ text last ++ "]")%string).
Proof. exact @values_prints. Qed.
Print Assumptions C93_values.
Theorem C93_values_errors : forall (T : Type) (O : Ordinal T) (show : bool -> T -> writing) s,
  (forall x, polite (show false x)) -> polite (OrdinalValues_fmt O show s).
Proof. exact @values_polite. Qed.
Print Assumptions C93_values_errors.

(** ** AtomicOrdinal: exactly what the value's implementation does, with the caller's flags. *)
Theorem C93_atomic : forall (T : Type) (O : Ordinal T) (alt : bool) (show : bool -> T -> writing) t cell,
  undone O -> AtomicOrdinal_new O t = Val cell -> AtomicOrdinal_fmt O alt show cell = show alt t.
Proof. exact atomic_prints. Qed.
Print Assumptions C93_atomic.

(** Examples: a map from [Ordering] to sets of [bool], on one line and on several; the sink that takes
    five strings; and a value whose implementation gives up. *)
Definition show_ordering (_ : bool) (c : comparison) : writing :=
  write (match c with Lt => "Less" | Eq => "Equal" | Gt => "Greater" end).
Definition show_bool (_ : bool) (b : bool) : writing := write (if b then "true" else "false").
Definition nested (alt : bool) : writing :=
  OrdinalMap_fmt (cfg := release64) Ordinal_Ordering alt show_ordering
    (fun alt => OrdinalSet_fmt (cfg := release64) Ordinal_bool alt show_bool) [Some (Small 3); None; Some (Small 0)].
Example C93_plain : says (nested false) "{Less: {false, true}, Greater: {}}".
Proof. reflexivity. Qed.
Example C93_pretty : says (nested true)
"{
    Less: {
        false,
        true,
    },
    Greater: {},
}".
Proof. reflexivity. Qed.
Example C93_pretty_pairs : says
  (Iter_fmt (cfg := release64) Ordinal_Ordering true show_ordering show_bool
     (OrdinalMap_iter [Some true; None; None]))
"[
    (
        Less,
        true,
    ),
]".
Proof. reflexivity. Qed.
Example C93_sink_full : attempts (fun room s => (Nat.ltb 0 room, Nat.pred room)) 5%nat (nested false) =
  ([("{", true); ("Less", true); (": ", true); ("{", true); ("false", true); (", ", false)]%string, Val false).
Proof. reflexivity. Qed.
Example C93_gives_up : heard (OrdinalMap_fmt (cfg := release64) Ordinal_Ordering true show_ordering
     (fun _ (b : bool) => WriteStr "oh" (fun _ => Return (if b then Panic PUser else Val false)))
     [Some false; Some true; None]) = ("{" ++ nl ++ "    Less: oh", Val false)%string.
Proof. reflexivity. Qed.
