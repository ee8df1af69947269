(** * CatchProofs5: lemmas for C96, all collections together. *)
From Verif Require Import Base Spec SpecMap SpecTotal SpecSet SpecCatch ModelOrdinal ModelValues ModelArrayBuilder ModelIter
  ModelTotal ModelMap ModelSet MapMachine TotalMachine SetMachine ModelCatch CatchProofs CatchProofs3.
From Coq Require Import List. Import ListNotations.
Set Implicit Arguments. Unset Strict Implicit.

Section All.
  Context (cfg : Config) (K V : Type) (O : Ordinal K) (S : nat).
  Lemma same_calls :
    (forall op m (o : map_out K V) m', heap_step O op m = Val (o, m') <-> heap_act O op m = (m', Ended o)) /\
    (forall op (m : @OrdinalArrayMap V S) o m', array_step O op m = Val (o, m') <-> array_act O op m = (m', Ended o)) /\
    (forall op m (o : total_out K V) m', htotal_step O op m = Val (o, m') <-> htotal_act O op m = (m', Ended o)) /\
    (forall op (m : OrdinalTotalArrayMap S V) o m', atotal_step O op m = Val (o, m') <-> atotal_act O op m = (m', Ended o)) /\
    (forall op s o s', set_step O op s = Val (o, s') <-> set_act O op s = (s', Ended o)) /\
    (forall op (s : OrdinalArraySet S) o s', array_set_step O op s = Val (o, s') <-> array_set_act O op s = (s', Ended o)) /\
    (forall op s o s', set64_step O op s = Val (o, s') <-> set64_act O op s = (s', Ended o)).
  Proof.
    repeat split; intros H;
      first [apply (heap_erases O) in H|apply (array_erases O) in H|apply (htotal_good O) in H|apply (atotal_good O S) in H|
             apply (set_good O) in H|apply (array_set_good O S) in H|apply (set64_good O) in H]; exact H.
  Qed.
  Lemma left_behind (w : panic) :
    (forall (op : map_op K V) m m', bulk op = false -> heap_act O op m = (m', Unwinds w) ->
      m' = m \/ m = [] /\ exists n, ORDINAL_SIZE O = Val n /\ m' = repeat None (N.to_nat n)) /\
    (forall op (m m' : @OrdinalArrayMap V S), bulk op = false -> array_act O op m = (m', Unwinds w) -> m = m') /\
    (forall (op : total_op K V) m m', htotal_act O op m = (m', Unwinds w) -> m = m') /\
    (forall op (m m' : OrdinalTotalArrayMap S V), atotal_act O op m = (m', Unwinds w) -> m = m') /\
    (forall op s s', set_act O op s = (s', Unwinds w) ->
      s' = s \/ s = Large [] /\ exists n, ORDINAL_SIZE O = Val n /\ s' = Large (repeat 0 (N.to_nat ((n + 63) / 64)))) /\
    (forall op (s s' : OrdinalArraySet S), array_set_act O op s = (s', Unwinds w) -> s = s') /\
    (forall op s s', set64_act O op s = (s', Unwinds w) -> s = s').
  Proof.
    split; [|split; [|split; [|split; [|split; [|split]]]]].
    - intros op m m' B E. exact (proj2 (proj2 (heap_good O B)) _ _ _ E).
    - intros op m m' B E. exact (proj2 (proj2 (array_good O S B)) _ _ _ E).
    - intros op m m' E. exact (proj2 (proj2 (htotal_good O op)) _ _ _ E).
    - intros op m m' E. exact (proj2 (proj2 (atotal_good O S op)) _ _ _ E).
    - intros op m m' E. exact (proj2 (proj2 (set_good O op)) _ _ _ E).
    - intros op m m' E. exact (proj2 (proj2 (array_set_good O S op)) _ _ _ E).
    - intros op m m' E. exact (proj2 (proj2 (set64_good O op)) _ _ _ E).
  Qed.
End All.
