(** * PropLedger: C102 (properties.jsonl). *)
From Verif Require Import Base Spec SpecIter SpecMap SpecTotal SpecCatch SpecResume SpecLedger ModelOrdinal ModelValues ModelArrayBuilder
  ModelIter ModelTotal ModelMap MapMachine TotalMachine ModelCatch OrdinalProofs LedgerProofs3.
From Coq Require Import List Permutation. Import ListNotations.

(** ** C102. Values are neither lost nor duplicated: in a program of calls, each inside its own
    [catch_unwind] and each with an implementation of [Ordinal] of its own, the books balance call by
    call and in sum. *)
Theorem C102_map : forall (cfg : Config) (K V : Type) (ops : list (Ordinal K * map_op K V)) (m : @OrdinalMap V) outs m',
  catch_run (fun p => heap_act (fst p) (snd p)) ops m = Some (outs, m') ->
  exists gs ts ds, books (fun p => map_account (snd p)) ops outs (stored m) gs ts ds (stored m') /\
    balanced (stored m) gs ts ds (stored m').
Proof. exact @heap_books. Qed.
Print Assumptions C102_map.

Theorem C102_array_map : forall (cfg : Config) (K V : Type) (S : nat) (ops : list (Ordinal K * map_op K V))
  (m : @OrdinalArrayMap V S) outs m',
  catch_run (fun p => array_act (fst p) (S := S) (snd p)) ops m = Some (outs, m') ->
  exists gs ts ds, books (fun p => map_account (snd p)) ops outs (stored (arr_list m)) gs ts ds (stored (arr_list m')) /\
    balanced (stored (arr_list m)) gs ts ds (stored (arr_list m')).
Proof. exact @array_books. Qed.
Print Assumptions C102_array_map.

Theorem C102_total_map : forall (cfg : Config) (K V : Type) (ops : list (Ordinal K * total_op K V)) (m : @OrdinalTotalMap V) outs m',
  catch_run (fun p => htotal_act (fst p) (snd p)) ops m = Some (outs, m') ->
  exists gs ts ds, books (fun p s h g t d _ => total_account (snd p) s h g t d) ops outs m gs ts ds m' /\
    balanced m gs ts ds m'.
Proof. exact @htotal_books. Qed.
Print Assumptions C102_total_map.

Theorem C102_total_array_map : forall (cfg : Config) (K V : Type) (S : nat) (ops : list (Ordinal K * total_op K V))
  (m : OrdinalTotalArrayMap S V) outs m',
  catch_run (fun p => atotal_act (fst p) (S := S) (snd p)) ops m = Some (outs, m') ->
  exists gs ts ds, books (fun p s h g t d _ => total_account (snd p) s h g t d) ops outs (arr_list m) gs ts ds (arr_list m') /\
    balanced (arr_list m) gs ts ds (arr_list m').
Proof. exact @atotal_books. Qed.
Print Assumptions C102_total_array_map.

(** The ends of a map's life: collecting puts every value into the map or drops it, and an
    owning iterator hands out every value or still has it. *)
Theorem C102_collect : forall (cfg : Config) (K V : Type) (O : Ordinal K) (l : list (K * V)) (m : @OrdinalMap V),
  OrdinalMap_from_iter O l = Val m -> exists dropped, Permutation (map snd l) (dropped ++ stored m).
Proof. exact @heap_collected. Qed.
Print Assumptions C102_collect.

Theorem C102_collect_array : forall (cfg : Config) (K V : Type) (O : Ordinal K) (S : nat) (l : list (K * V)) (a : @OrdinalArrayMap V S),
  OrdinalArrayMap_from_iter O S l = Val a -> exists dropped, Permutation (map snd l) (dropped ++ stored (arr_list a)).
Proof. exact @array_collected. Qed.
Print Assumptions C102_collect_array.

Theorem C102_into_iter : forall (cfg : Config) (K V : Type) (O : Ordinal K) (S : nat) (sched : list dir) (got : list (option (K * V))),
  (forall (m : @OrdinalMap V) it, drive (IntoIter_step O) sched (OrdinalMap_into_iter m) = Val (got, it) ->
     Permutation (stored m) (map snd (somes got) ++ stored (e_items it))) /\
  (forall (m : @OrdinalArrayMap V S) it, drive (IntoIterArray_step O) sched (OrdinalArrayMap_into_iter m) = Val (got, it) ->
     Permutation (stored (arr_list m)) (map snd (somes got) ++ stored (e_items it))) /\
  (forall (m : @OrdinalTotalMap V) it, drive (TIntoIter_step O) sched (OrdinalTotalMap_into_iter m) = Val (got, it) ->
     Permutation m (map snd (somes got) ++ e_items it)) /\
  (forall (m : OrdinalTotalArrayMap S V) it, drive (TIntoIterArray_step O) sched (OrdinalTotalArrayMap_into_iter m) = Val (got, it) ->
     Permutation (arr_list m) (map snd (somes got) ++ e_items it)).
Proof. exact @all_consumed. Qed.
Print Assumptions C102_into_iter.

(** ** Cases *)

(** [muddled] gives [Lt] and [Eq] the same ordinal, panics for [Gt], and its [from_ordinal] always
    says [Gt]. *)
Definition muddled : Ordinal comparison := {|
  ORDINAL_SIZE := Val 3;
  ordinal := fun k => match k with Gt => Panic PUser | _ => Val 1 end;
  from_ordinal := fun _ => Val (Some Gt) |}.
Example C102_map_case : forall cfg : Config,
  catch_run (fun p => heap_act (fst p) (snd p))
    [(muddled, OpInsert Lt 10); (muddled, OpInsert Eq 20); (muddled, OpInsert Gt 30); (Ordinal_Ordering, OpInsert Gt 40);
     (muddled, OpEntryOrInsert Lt 50 60); (muddled, OpDrain [Back] true); (Ordinal_Ordering, OpClear)]
    OrdinalMap_new =
  Some ([Seen (OutValue None); Seen (OutValue (Some 10)); Caught PUser; Seen (OutValue None);
         Seen (OutValue (Some 20)); Seen (OutEntries [Some (Gt, 40)]); Seen OutUnit], [None; None; None]).
Proof. intros [[] [] []]; vm_compute; reflexivity. Qed.
(** Its sums. *)
Example C102_map_sums :
  balanced [] [10; 20; 40; 60] [10; 20; 40] [60] [].
Proof. apply (NoDup_Permutation_bis); [repeat constructor; cbn; intuition discriminate|cbn; repeat constructor|intros x; cbn; tauto]. Qed.
(** An account that loses a value does not balance. *)
Example C102_unbalanced : ~ balanced [10] [20] [] [] [20].
Proof. intros P. apply Permutation_length in P. discriminate. Qed.
Example C102_array_map_case : forall cfg : Config,
  (a <- OrdinalArrayMap_from_iter muddled 3 [(Lt, 10); (Eq, 20)] ;;
   Val (option_map (fun r => (fst r, arr_list (snd r)))
     (catch_run (fun p => array_act (fst p) (S := 3) (snd p))
        [(Ordinal_Ordering, OpInsert Lt 30); (muddled, OpGetMut Eq 40); (muddled, OpRemove Gt);
         (muddled, OpRetain (fun _ v => (v + 1, v <? 35))); (muddled, OpRemove Lt); (muddled, OpInsert Lt 50)] a))) =
  Val (Some ([Seen (OutValue None); Seen (OutValue (Some 20)); Caught PUser; Seen OutUnit;
             Seen (OutValue None); Seen (OutValue None)], [Some 31; Some 50; None])).
Proof. intros [[] [] []]; vm_compute; reflexivity. Qed.
Example C102_total_map_case : forall cfg : Config,
  catch_run (fun p => htotal_act (fst p) (snd p))
    [(muddled, TInsert Lt 10); (muddled, TGetMut Gt 20); (Ordinal_Ordering, TIndexMut Gt 30); (muddled, TIterMut_ [Back] (fun _ v => v + 1))]
    [0; 1; 2] =
  Some ([Seen (TOValue 1); Caught PUser; Seen (TOValue 2); Seen (TOEntries [Some (Gt, 30)])], [0; 10; 31]).
Proof. intros [[] [] []]; vm_compute; reflexivity. Qed.
Example C102_collect_case : forall cfg : Config,
  OrdinalMap_from_iter muddled [(Lt, 10); (Eq, 20)] = Val [None; Some 20; None] /\
  Permutation (map snd [(Lt, 10); (Eq, 20)]) ([10] ++ stored [None; Some 20; None]).
Proof. intros cfg; split; [destruct cfg as [[] [] []]; vm_compute; reflexivity|apply Permutation_refl]. Qed.
Example C102_into_iter_case : forall cfg : Config, exists it,
  drive (IntoIter_step muddled) [Back; Front] (OrdinalMap_into_iter [Some 10; None; Some 20; Some 30]) =
    Val ([Some (Gt, 30); Some (Gt, 10)], it) /\ stored (e_items it) = [20].
Proof. intros [[] [] []]; eexists; split; vm_compute; reflexivity. Qed.
