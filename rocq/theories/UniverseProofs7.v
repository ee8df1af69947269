(** * UniverseProofs7: from_ordinal never panics; the refuted statements. *)
From Verif Require Import Base Spec SpecDerive SpecUniverse ModelOrdinal ModelArrayBuilder
  ModelDerive ModelUniverse BaseProofs OrdinalProofs ArrayProofs DeriveProofs DeriveProofs2
  DeriveProofs3 OrdinalProofs2 UniverseProofs UniverseProofs2 UniverseProofs3 UniverseProofs4
  UniverseProofs5 UniverseProofs6.
From Coq Require Import List.
Import ListNotations.
Unset Strict Implicit.

Section Total.
  Context {cfg : Config}.

  Lemma total_of_law t n i : ORDINAL_SIZE (impl_of t) = Val n -> i <= usize_max ->
    exposes_char t = false \/ usize_width = W32 ->
    exists r, from_ordinal (impl_of t) i = Val r.
  Proof.
    intros Hn Hi E. destruct (N.lt_ge_cases i n) as [G|G].
    - destruct (bij_from (composed_bijection Hn) G) as (x & Hx & _). eauto.
    - exists None. exact (@composed_rejects _ _ _ Hn E _ G Hi).
  Qed.

  Lemma composed_total t : forall n i, ORDINAL_SIZE (impl_of t) = Val n -> i <= usize_max ->
    exists r, from_ordinal (impl_of t) i = Val r.
  Proof.
    induction t as [p|t IH|t IH|a b IHa IHb|a b IHa IHb|t len IH|ts IH|d IH|vs IH] using ty_ind'; intros n i Hn Hi;
      try (exact (total_of_law Hn Hi (or_introl eq_refl))).
    - destruct p; try (exact (total_of_law Hn Hi (or_introl eq_refl))).
      cbn [impl_of denote denote_prim of_impl ft_ord from_ordinal Ordinal_char].
      destruct (i <? SURROGATE_START); [eauto|]. destruct (as_u32 i + 2048 <=? 4294967295); eauto.
    - change (exists r, from_ordinal (Ordinal_Box (impl_of t)) i = Val r). cbn [from_ordinal Ordinal_Box].
      destruct (IH n i Hn Hi) as [[r|] ->]; cbn [bind]; eauto.
    - change (exists r, (if i =? 0 then Val (Some None) else
        ' o1 <- usub i 1;; ' r <- from_ordinal (impl_of t) o1;; Val (opt_map Some r)) = Val r).
      destruct (N.eqb_spec i 0); [eauto|]. rewrite usub_ok by lia. cbn [bind].
      change ((' a <- ORDINAL_SIZE (impl_of t);; cadd a 1) = Val n) in Hn.
      destruct (ORDINAL_SIZE (impl_of t)) as [m| | | |] eqn:Em; try discriminate Hn.
      destruct (IH m (i - 1) eq_refl) as [r ->]; [lia|]. cbn [bind]. eauto.
    - change (exists r, from_ordinal (Ordinal_Result (impl_of a) (impl_of b)) i = Val r).
      cbn [from_ordinal Ordinal_Result].
      destruct (@sum_size _ _ _ (impl_of a) (impl_of b) _ Hn) as (x & y & H1 & H2 & -> & H3). rewrite H1. cbn [bind].
      destruct (N.ltb_spec i x) as [G|G].
      + destruct (bij_from (composed_bijection H1) G) as (u & Hu & _). rewrite Hu. cbn [unwrap bind]. eauto.
      + rewrite usub_ok by lia. cbn [bind]. destruct (IHb y (i - x) H2) as [r ->]; [lia|]. cbn [bind]. eauto.
    - change (exists r, from_ordinal (Ordinal_Either (impl_of a) (impl_of b)) i = Val r).
      cbn [from_ordinal Ordinal_Either].
      destruct (@sum_size _ _ _ (impl_of a) (impl_of b) _ Hn) as (x & y & H1 & H2 & -> & H3). rewrite H1. cbn [bind].
      destruct (N.ltb_spec i x) as [G|G].
      + destruct (bij_from (composed_bijection H1) G) as (u & Hu & _). rewrite Hu. cbn [unwrap bind]. eauto.
      + rewrite usub_ok by lia. cbn [bind]. destruct (IHb y (i - x) H2) as [r ->]; [lia|]. cbn [bind]. eauto.
  Qed.
End Total.

(** ** C15: a product is multiplied up from the left *)
Definition wide_then_empty : ty :=
  TTuple [TPrim Pu16; TPrim Pu16; TPrim Pu16; TPrim Pu16; TPrim Pu16; TPrim PInfallible].

(** [[u16; 5]; 0] *)
Definition empty_array : ty := TArray (TArray (TPrim Pu16) 5) 0.

Lemma size_refuted : forall cfg : Config, exists t n, accepted t /\
  has_values (type_of t) n /\ n <= usize_max /\ ORDINAL_SIZE (impl_of t) = NoCompile.
Proof.
  intros cfg. exists wide_then_empty, 0. split; [|split; [|split]].
  - cbn. repeat split; lia.
  - exact (values_card wide_then_empty).
  - lia.
  - destruct cfg as [[] [] []]; vm_compute; reflexivity.
Qed.

Lemma size_refuted_array : forall cfg : Config, exists t n, accepted t /\ n <> 0 /\
  has_values (type_of t) n /\ n <= usize_max /\ ORDINAL_SIZE (impl_of t) = NoCompile.
Proof.
  intros cfg. exists empty_array, 1. split; [exact I|]. split; [lia|]. split; [|split].
  - exact (values_card empty_array).
  - pose proof usize_max_ge. lia.
  - destruct cfg as [[] [] []]; vm_compute; reflexivity.
Qed.

(** ** C16: [Option<Option<NonZeroUsize>>] *)
Definition two_options : ty := TOption (TOption (TPrim PNonZeroUsize)).

Lemma collide_refuted : forall cfg : Config, overflow_checks = false ->
  exists t n (a b : type_of t) i, has_values (type_of t) n /\ usize_max < n /\
    a <> b /\ ordinal (impl_of t) a = Val i /\ ordinal (impl_of t) b = Val i.
Proof.
  intros [[] [] da]; cbn [overflow_checks]; intros E; try discriminate E.
  - set (cfg := {| usize_width := W32; overflow_checks := false; debug_assertions := da |}).
    exists two_options, (usize_max + 2).
    destruct (try_int 0 4294967295 4294967295) as [x|] eqn:Hx; [|vm_compute in Hx; discriminate Hx].
    destruct (nz_new x) as [y|] eqn:Hy.
    + exists None, (Some (Some y)), 0. split; [|split; [|split; [|split]]].
      * exact (values_card two_options).
      * lia.
      * discriminate.
      * reflexivity.
      * vm_compute in Hx. injection Hx as <-. vm_compute in Hy. injection Hy as <-. vm_compute. reflexivity.
    + exfalso. vm_compute in Hx. injection Hx as <-. vm_compute in Hy. discriminate Hy.
  - set (cfg := {| usize_width := W64; overflow_checks := false; debug_assertions := da |}).
    exists two_options, (usize_max + 2).
    destruct (try_int 0 18446744073709551615 18446744073709551615) as [x|] eqn:Hx; [|vm_compute in Hx; discriminate Hx].
    destruct (nz_new x) as [y|] eqn:Hy.
    + exists None, (Some (Some y)), 0. split; [|split; [|split; [|split]]].
      * exact (values_card two_options).
      * lia.
      * discriminate.
      * reflexivity.
      * vm_compute in Hx. injection Hx as <-. vm_compute in Hy. injection Hy as <-. vm_compute. reflexivity.
    + exfalso. vm_compute in Hx. injection Hx as <-. vm_compute in Hy. discriminate Hy.
Qed.

Lemma returns_refuted : forall cfg : Config,
  exists t n (v : type_of t) i, has_values (type_of t) n /\ usize_max < n /\
    ordinal (impl_of t) v = Val i.
Proof.
  intros cfg. exists two_options, (usize_max + 2), None, 0. split; [|split; [lia|reflexivity]].
  replace (usize_max + 2) with (card two_options) by (cbn [card two_options prim_card]; lia).
  apply values_card.
Qed.
