(** * PropSource: property C101, about collecting from a caller's iterator with any implementation.

    [collects] (SpecSource.v) compares [from_iter] of an iterator, which may panic, never end or
    go on after its end, with [from_iter] of the list of its elements (ModelMap.v, ModelSet.v). *)
From Verif Require Import Base Spec SpecSource ModelOrdinal ModelArrayBuilder ModelIter ModelTotal ModelMap
  ModelSet ModelDrop SourceProofs.
From Coq Require Import List.
Import ListNotations.

(** ** C101 *)
Theorem C101_map : forall (K V St : Type) (O : Ordinal K) (next : St -> St * res (option (K * V))) (st : St),
  collects (fun fuel => OrdinalMap_from_iter_with O (fun st _ => (st, Val tt)) next fuel st) next st
    (OrdinalMap_from_iter O).
Proof. exact @heap_collects. Qed.
Print Assumptions C101_map.
Theorem C101_array_map : forall (K V St : Type) (O : Ordinal K) (S : nat)
    (next : St -> St * res (option (K * V))) (st : St),
  collects (fun fuel => OrdinalArrayMap_from_iter_with O (fun st _ => (st, Val tt)) S next fuel st) next st
    (OrdinalArrayMap_from_iter O S).
Proof. exact @array_collects. Qed.
Print Assumptions C101_array_map.
Theorem C101_set : forall (cfg : Config) (K St : Type) (O : Ordinal K) (next : St -> St * res (option K)) (st : St),
  collects (fun fuel => OrdinalSet_from_iter_with O next fuel st) next st (OrdinalSet_from_iter O).
Proof. exact @set_collects. Qed.
Print Assumptions C101_set.
Theorem C101_array_set : forall (cfg : Config) (K St : Type) (O : Ordinal K) (S : nat)
    (next : St -> St * res (option K)) (st : St),
  collects (fun fuel => OrdinalArraySet_from_iter_with O S next fuel st) next st (OrdinalArraySet_from_iter O S).
Proof. exact @array_set_collects. Qed.
Print Assumptions C101_array_set.
Theorem C101_set64 : forall (cfg : Config) (K St : Type) (O : Ordinal K) (next : St -> St * res (option K)) (st : St),
  collects (fun fuel => OrdinalSet64_from_iter_with O next fuel st) next st (OrdinalSet64_from_iter O).
Proof. exact @set64_collects. Qed.
Print Assumptions C101_set64.

(** An implementation whose [ordinal] panics on [Gt]; iterators that end, panic, and yield [Gt]. *)
Definition fussy : Ordinal comparison := {|
  ORDINAL_SIZE := Val 3;
  ordinal := fun c => match c with Gt => Panic PUser | c => ordinal Ordinal_Ordering c end;
  from_ordinal := from_ordinal Ordinal_Ordering |}.
Definition script (l : list (res (option comparison))) (st : nat) : nat * res (option comparison) :=
  (S st, nth st l (Val None)).

Example C101_cases :
  let run l := OrdinalSet_from_iter_with (cfg := debug64) fussy (script l) 9 0%nat in
  run [Val (Some Eq); Val (Some Lt); Val None; Val (Some Gt)] = Val (3%nat, Small 3, Val tt) /\
  run [Val (Some Eq); Panic PUser; Val (Some Lt)] = Val (2%nat, Small 2, Panic PUser) /\
  run [Val (Some Eq); Val (Some Gt); Val (Some Lt)] = Val (2%nat, Small 2, Panic PUser) /\
  yields (script [Val (Some Eq); Val (Some Gt); Val (Some Lt)]) 0%nat [Eq; Gt] 2%nat /\
  OrdinalSet_from_iter (cfg := debug64) fussy [Eq] = Val (Small 2) /\
  OrdinalSet_from_iter (cfg := debug64) fussy [Eq; Gt] = Panic PUser.
Proof. repeat split; try reflexivity. econstructor; [reflexivity|]. econstructor; [reflexivity|]. constructor. Qed.
Example C101_endless : forall fuel,
  (forall k, exists l st1 c, length l = k /\ yields (fun st : unit => (st, Val (Some (Lt, 7)))) tt l st1 /\
     OrdinalMap_from_iter fussy l = Val c) /\
  exists st' c, OrdinalMap_from_iter_with fussy (fun st (_ : comparison * N) => (st, Val tt))
    (fun st : unit => (st, Val (Some (Lt, 7)))) fuel tt = Val (st', c, OutOfFuel).
Proof.
  intros fuel.
  assert (A : forall k, exists l st1 c, length l = k /\ yields (fun st : unit => (st, Val (Some (Lt, 7)))) tt l st1 /\
     OrdinalMap_from_iter fussy l = Val c).
  { intros k. exists (repeat (Lt, 7) k), tt. destruct k as [|k]; [exists []; repeat split; constructor|].
    exists [Some 7; None; None]. split; [apply repeat_length|]. split.
    - generalize (S k). intros j. induction j; cbn; econstructor; [reflexivity|assumption].
    - cbn. induction k as [|k IH]; [reflexivity|]. cbn. exact IH. }
  split; [exact A|]. exact (collects_endless (@C101_map _ _ _ _ _ _) A fuel).
Qed.
(** A type with too many values for an OrdinalSet64. *)
Example C101_rejected : forall fuel,
  OrdinalSet64_from_iter_with (cfg := debug64) (@Ordinal_u8 debug64) (fun st : unit => (st, Panic PUser)) fuel tt = NoCompile.
Proof. apply (collects_new_rejected (@C101_set64 debug64 _ _ _ _ _)). reflexivity. Qed.
