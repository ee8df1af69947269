(** * UseProofs5: several threads over one AtomicOrdinal of a type with too many values. *)
From Verif Require Import Base Spec SpecAtomic ModelAtomic SpecUniverse ModelUniverse ModelMono ModelUse
  SpecMem SpecSafety UniverseProofs4 MonoProofs UseProofs AtomicProofs AtomicProofs2.
From Coq Require Import List.
Import ListNotations.
Set Implicit Arguments.
Unset Strict Implicit.

Section Threads.
  Context {cfg : Config}.

  Lemma inst_undone t : overflow_checks = true -> inst_ordinal t = Val tt -> undone (impl_of t).
  Proof.
    intros C A v. pose proof (inst_safe A v) as S. destruct (ordinal (impl_of t) v) as [i|w| | |] eqn:E;
      try contradiction S; [|exact I]. exact (proj2 (inst_round_trip C A E)).
  Qed.

  Lemma threads_any t (eqd : forall a b : type_of t, {a = b} + {a <> b}) v progs s1 s2 :
    overflow_checks = true ->
    (forall s, compiled_threads t v progs s = NoCompile) \/
    (exists w, forall s, compiled_threads t v progs s = Panic w) \/
    exists t1 t2 vs1 vs2,
      compiled_threads t v progs s1 = Val (Some vs1) /\
      compiled_threads t v progs (s1 ++ s2) = Val (Some vs2) /\
      register_trace eqd v t1 /\ explains_partly (impl_of t) progs t1 vs1 /\
      register_trace eqd v (t1 ++ t2) /\ explains_partly (impl_of t) progs (t1 ++ t2) vs2.
  Proof.
    intros C. unfold compiled_threads.
    destruct (needs_settled t (needs_atomic_new ++ flat_map needs_atomic (concat progs))) as [H|H];
      rewrite H; [|left; reflexivity]. right. cbn [bind].
    assert (A : inst_ordinal t = Val tt). { rewrite needs_val in H. exact (Forall_inv H). }
    destruct (numbered_two A v) as [[i Hi]|[w Hw]].
    2:{ left. exists w. intros s. unfold AtomicOrdinal_new. rewrite Hw. reflexivity. }
    right. unfold AtomicOrdinal_new. rewrite Hi. cbn [bind].
    destruct (sc_linearizable (inst_undone C A) eqd progs s1 s2 Hi) as (t1 & t2 & vs1 & vs2 & V1 & V2 & R).
    exists t1, t2, vs1, vs2. rewrite V1, V2. auto.
  Qed.
End Threads.
