(** * BuildProofs4: the theorems about two targets, or two builds. *)
From Verif Require Import Base BaseProofs Spec SpecMap SpecTotal SpecSet SpecCatch SpecBuild ArrayProofs ModelOrdinal ModelValues
  ModelArrayBuilder ModelIter ModelTotal ModelMap ModelSet ModelResume ModelUnwind ModelCatch MapMachine TotalMachine SetMachine
  BuildProofs BuildProofs2 BuildProofs3.
From Coq Require Import List Lia. Import ListNotations.
Set Implicit Arguments.
Unset Strict Implicit.

Section Maps.
  Context (c d : Config) {K V : Type}.
  Let M := N.min (@usize_max c) (@usize_max d).
  Lemma min_c : M <= @usize_max c.
  Proof. apply N.le_min_l. Qed.
  Lemma min_d : M <= @usize_max d.
  Proof. apply N.le_min_r. Qed.
  Lemma min_sized (O : Ordinal K) : sized_both c d O -> forall n, ORDINAL_SIZE O = Val n -> n <= M.
  Proof. intros [H G] n E. apply N.min_glb; auto. Qed.

  Lemma build_heap (ops : list (Ordinal K * map_op K V)) : Forall (fun p => sized_both c d (fst p)) ops ->
    forall m : @OrdinalMap V, llen m <= @usize_max c -> llen m <= @usize_max d ->
    catch_run (fun p => @heap_act c K V (fst p) (snd p)) ops m = catch_run (fun p => @heap_act d K V (fst p) (snd p)) ops m.
  Proof.
    intros H m Hc Hd. apply (@same_run _ _ _ (short M) (fun p => sized_both c d (fst p))); [| |exact H|now apply N.min_glb].
    - intros [O op] m' P Hm. exact (same_heap_act min_c min_d O op Hm).
    - intros [O op] P. exact (@short_heap_act c K V O M (min_sized P) op).
  Qed.
  Lemma build_array (S : nat) (ops : list (Ordinal K * map_op K V)) : N.of_nat S <= @usize_max c -> N.of_nat S <= @usize_max d ->
    forall m : @OrdinalArrayMap V S,
    catch_run (fun p => @array_act c K V (fst p) S (snd p)) ops m = catch_run (fun p => @array_act d K V (fst p) S (snd p)) ops m.
  Proof.
    intros Hc Hd m. apply (@same_run _ _ _ (fun _ => True) (fun _ => True)); [| | |exact I].
    - intros [O op] m' _ _. exact (@same_array_act c d M min_c min_d K V O S (N.min_glb _ _ _ Hc Hd) op m').
    - intros op _ m' _. exact I.
    - now apply Forall_forall.
  Qed.
  Lemma build_htotal (ops : list (Ordinal K * total_op K V)) (m : @OrdinalTotalMap V) : llen m <= @usize_max c -> llen m <= @usize_max d ->
    catch_run (fun p => @htotal_act c K V (fst p) (snd p)) ops m = catch_run (fun p => @htotal_act d K V (fst p) (snd p)) ops m.
  Proof.
    intros Hc Hd. apply (@same_run _ _ _ (short M) (fun _ => True)); [| | |now apply N.min_glb].
    - intros [O op] m' _ Hm. exact (same_htotal_act min_c min_d O op Hm).
    - intros [O op] _. exact (@short_htotal_act c K V O M op).
    - now apply Forall_forall.
  Qed.
  Lemma build_atotal (S : nat) (ops : list (Ordinal K * total_op K V)) : N.of_nat S <= @usize_max c -> N.of_nat S <= @usize_max d ->
    forall m : OrdinalTotalArrayMap S V,
    catch_run (fun p => @atotal_act c K V (fst p) S (snd p)) ops m = catch_run (fun p => @atotal_act d K V (fst p) S (snd p)) ops m.
  Proof.
    intros Hc Hd m. apply (@same_run _ _ _ (fun _ => True) (fun _ => True)); [| | |exact I].
    - intros [O op] m' _ _. exact (@same_atotal_act c d M min_c min_d K V O S (N.min_glb _ _ _ Hc Hd) op m').
    - intros op _ m' _. exact I.
    - now apply Forall_forall.
  Qed.

  Lemma build_iter U (from : U -> N -> U * res (option K)) sched u (m : list (option V)) : llen m <= @usize_max c -> llen m <= @usize_max d ->
    run_caught (@sparse_resume_step c U K from V) sched (u, enumerate_new m 0) =
    run_caught (@sparse_resume_step d U K from V) sched (u, enumerate_new m 0).
  Proof.
    intros Hc Hd. apply (@same_caught U _ _ (@fits M _)); [|apply (fits_new min_c min_d); now apply N.min_glb].
    intros r u' s Hs. exact (akin_sparse min_c min_d from r _ u' Hs).
  Qed.
  Lemma build_titer U (from : U -> N -> U * res (option K)) sched u (m : list V) : llen m <= @usize_max c -> llen m <= @usize_max d ->
    run_caught (@enumerate_resume c U K from V) sched (u, enumerate_new m 0) =
    run_caught (@enumerate_resume d U K from V) sched (u, enumerate_new m 0).
  Proof.
    intros Hc Hd. apply (@same_caught U _ _ (@fits M _)); [|apply (fits_new min_c min_d); now apply N.min_glb].
    intros r. exact (akin_enum min_c min_d from r).
  Qed.
  Lemma build_iter_mut U (from : U -> N -> U * res (option K)) sched u (m : list (option V)) : llen m <= @usize_max c -> llen m <= @usize_max d ->
    run_caught (@iter_mut_resume_step c U K V from m) sched (u, TIterMut_new (slots (length m))) =
    run_caught (@iter_mut_resume_step d U K V from m) sched (u, TIterMut_new (slots (length m))).
  Proof.
    intros Hc Hd. assert (Hm : @short M _ m) by (now apply N.min_glb).
    apply (@same_caught U _ _ (@fits M _)); [|now apply (fits_slots min_c min_d)].
    intros r u' s Hs. exact (@akin_iter_mut c d M min_c min_d U K from V m r _ u' s Hs).
  Qed.
  Lemma build_drain U (from : U -> N -> U * res (option K)) sched u (m : list (option V)) : llen m <= @usize_max c -> llen m <= @usize_max d ->
    run_caught (@drain_resume_step c U K from V) sched (u, Drain_new m (TIterMut_new (slots (length m)))) =
    run_caught (@drain_resume_step d U K from V) sched (u, Drain_new m (TIterMut_new (slots (length m)))) /\
    @drain_use c U K V from sched (u, Drain_new m (TIterMut_new (slots (length m)))) =
    @drain_use d U K V from sched (u, Drain_new m (TIterMut_new (slots (length m)))).
  Proof.
    intros Hc Hd. assert (Hm : @short M _ m) by (now apply N.min_glb). split.
    - apply (@same_caught U _ _ (fun s : @Drain V => @fits M _ (snd s))); [|now apply (fits_slots min_c min_d)].
      intros r. exact (@akin_drain_step c d M min_c min_d U K from V r).
    - apply (@same_use c d M min_c min_d). now apply (fits_slots min_c min_d).
  Qed.

  Lemma build_retain (S : nat) (O : Ordinal K) St (f : St -> K -> V -> St * V * res bool) (m : @OrdinalArrayMap V S) st :
    N.of_nat S <= @usize_max c -> N.of_nat S <= @usize_max d ->
    @OrdinalArrayMap_retain c K V O S St f m st = @OrdinalArrayMap_retain d K V O S St f m st.
  Proof.
    intros Hc Hd. unfold OrdinalArrayMap_retain. apply (@same_retain c d M min_c min_d).
    apply (fits_slots min_c min_d). unfold short, llen. rewrite arr_length. now apply N.min_glb.
  Qed.
  Lemma build_map (S : nat) (O : Ordinal K) W St (f : St -> K -> V -> St * res W) (m : OrdinalTotalArrayMap S V) st :
    N.of_nat S <= @usize_max c -> N.of_nat S <= @usize_max d ->
    @OrdinalTotalArrayMap_map c K O S V W St f m st = @OrdinalTotalArrayMap_map d K O S V W St f m st.
  Proof.
    intros Hc Hd. unfold OrdinalTotalArrayMap_map, array_from_iter.
    rewrite (@same_fill W S _ _ _ _ (@TIntoIterArray_step c K O V Front) (@TIntoIterArray_step d K O V Front) (@fits M V));
      [reflexivity| |].
    - exact (@alike_enum c d M min_c min_d K O V Front).
    - apply (fits_new min_c min_d). unfold short, llen. rewrite arr_length. now apply N.min_glb.
  Qed.
End Maps.

Section Sets.
  Context (c d : Config) {T : Type} (O : Ordinal T) (n : N) (Hn : ORDINAL_SIZE O = Val n)
    (Hc : n <= @usize_max c) (Hd : n <= @usize_max d).

  Lemma nothing_run Op M Out (I : M -> Prop) (f g : Op -> act M Out) :
    (forall op, up_act (fun _ => False) I (f op) (g op)) -> (forall op, keeps I (f op)) ->
    forall ops m, I m -> catch_run f ops m = catch_run g ops m.
  Proof.
    clear. intros H G ops m Hm. apply (@same_run _ _ _ I (fun _ => True)); [| | |exact Hm].
    - intros op m' _ Hm'. destruct (H op m' Hm') as [(? & ? & [] & _)|E]; exact E.
    - intros op _. apply G.
    - now apply Forall_forall.
  Qed.
  Lemma no_debug : n <> 0 \/ @debug_assertions c = @debug_assertions d ->
    n <> 0 \/ forall b, debug_ok c d (fun _ => False) b.
  Proof. intros [H|H]; [now left|right]. intros b. right. now left. Qed.
  Lemma room_add : 64 < n -> @usize_width c = @usize_width d \/ n <= 64 \/ n + 64 <= @usize_max c /\ n + 64 <= @usize_max d ->
    @checked_add c n 64 = @checked_add d n 64.
  Proof.
    clear. intros L [H|[H|[H G]]]; unfold checked_add.
    - unfold usize_max. now rewrite H.
    - lia.
    - now destruct (N.leb_spec (n + 64) (@usize_max c)), (N.leb_spec (n + 64) (@usize_max d)); try lia.
  Qed.

  Lemma build_set : n <> 0 \/ @debug_assertions c = @debug_assertions d ->
    @usize_width c = @usize_width d \/ n <= 64 \/ n + 64 <= @usize_max c /\ n + 64 <= @usize_max d ->
    forall s0 ops, OrdinalSet_new O = Val s0 -> catch_run (@set_act c T O) ops s0 = catch_run (@set_act d T O) ops s0.
  Proof.
    intros H R s0 ops E. apply (@nothing_run _ _ _ (fit n)).
    - intros op. apply (up_set_act Hn Hc Hd (no_debug H)). intros L. now apply room_add.
    - intros op. exact (@fit_set_act T O n Hn c op).
    - exact (@fit_new T O n Hn s0 E).
  Qed.
  Lemma build_array_set (S : nat) ops (s : OrdinalArraySet S) :
    catch_run (@array_set_act c T O S) ops s = catch_run (@array_set_act d T O S) ops s.
  Proof.
    apply (@nothing_run _ _ _ (fun _ => True)); [|intros op m _; exact I|exact I].
    intros op. exact (@up_array_set_act c d _ T O n Hn Hc Hd S op).
  Qed.
  Lemma wide_max s : s <= u64_max -> wide s.
  Proof.
    clear. intros H k E. destruct (N.ltb_spec k 64) as [L|L]; [exact L|]. exfalso.
    rewrite N.bits_above_log2 in E; [discriminate|]. apply N.le_lt_trans with 63; [|lia].
    apply N.log2_le_mono in H. exact H.
  Qed.
  Lemma build_set64 : n <= 64 -> n <> 0 \/ @debug_assertions c = @debug_assertions d ->
    (forall t i, ordinal O t = Val i -> i < 64) \/ @overflow_checks c = @overflow_checks d ->
    forall s ops, s <= u64_max -> catch_run (@set64_act c T O) ops s = catch_run (@set64_act d T O) ops s.
  Proof.
    intros L H R s ops Hs. apply (@nothing_run _ _ _ wide); [| |now apply wide_max].
    - intros op. apply (up_set64_act Hn Hc Hd (no_debug H)); [|exact L]. intros t i E.
      destruct R as [R|R]; [left; exact (R t i E)|right; now left].
    - intros op. exact (@wide_set64_act T O c op).
  Qed.
  Lemma build_all64 : n <= 64 ->
    (@OrdinalSet64_all c T O = @OrdinalSet64_all d T O <-> n < 64 \/ @overflow_checks c = @overflow_checks d).
  Proof.
    clear Hc Hd. intros L. unfold OrdinalSet64_all, Set64_ASSERT. rewrite Hn. cbn [bind]. unfold assert_const.
    destruct (N.leb_spec n 64) as [_|G]; [cbn [bind]|lia].
    destruct (N.eq_dec n 64) as [-> |Ne].
    - unfold u64_shl. cbn. destruct (@overflow_checks c), (@overflow_checks d); cbn; split; intros F; try reflexivity; try (now right); try discriminate F;
        destruct F as [F|F]; (lia || discriminate F).
    - split; [left; lia|intros _]. rewrite (@same_shl c d) by lia. destruct (@u64_shl d 1 n) as [b|w| | |] eqn:E; try reflexivity.
      cbn [bind]. unfold u64_sub. destruct (N.leb_spec 1 b) as [_|G]; [reflexivity|]. exfalso.
      rewrite BitProofs.shl_one in E by lia. injection E as <-. pose proof (N.pow_nonzero 2 n). lia.
  Qed.

  Lemma all_debug : all_checks c -> n <> 0 \/ forall b, debug_ok c d failed_check b.
  Proof. intros [_ H]. right. intros b. right. right. split; [now right|exact H]. Qed.
  Lemma checked_set : all_checks c -> @usize_width c = @usize_width d -> forall s0 ops outs s, OrdinalSet_new O = Val s0 ->
    catch_run (@set_act c T O) ops s0 = Some (outs, s) -> (forall w, In (Caught w) outs -> ~ failed_check w) ->
    catch_run (@set_act d T O) ops s0 = Some (outs, s).
  Proof.
    intros A W s0 ops outs s E. apply (@up_run failed_check _ _ _ (fit n) (fun _ => True)).
    - intros op _. apply (up_set_act Hn Hc Hd (all_debug A)). intros L. apply room_add; [exact L|now left].
    - intros op _. exact (@fit_set_act T O n Hn c op).
    - now apply Forall_forall.
    - exact (@fit_new T O n Hn s0 E).
  Qed.
  Lemma checked_set64 : all_checks c -> n <= 64 -> forall s0 ops outs s, s0 <= u64_max ->
    catch_run (@set64_act c T O) ops s0 = Some (outs, s) -> (forall w, In (Caught w) outs -> ~ failed_check w) ->
    catch_run (@set64_act d T O) ops s0 = Some (outs, s).
  Proof.
    intros A L s0 ops outs s Hs. apply (@up_run failed_check _ _ _ wide (fun _ => True)).
    - intros op _. apply (up_set64_act Hn Hc Hd (all_debug A)); [|exact L]. intros t i _. right. right.
      split; [now left|exact (proj1 A)].
    - intros op _. exact (@wide_set64_act T O c op).
    - now apply Forall_forall.
    - now apply wide_max.
  Qed.

  (** The iterators of sets. *)
  Lemma build_set_iter U (from : U -> N -> U * res (option T)) r sched st :
    run_caught (set_resume_step from (@OrdinalSetRef_contains c T O r)) sched st =
    run_caught (set_resume_step from (@OrdinalSetRef_contains d T O r)) sched st.
  Proof.
    clear Hn Hc Hd n. assert (H : forall dr fuel st, set_resume from (@OrdinalSetRef_contains c T O r) dr fuel st =
      set_resume from (@OrdinalSetRef_contains d T O r) dr fuel st).
    { intros dr. induction fuel as [|fuel IH]; intros s; cbn [set_resume]; [reflexivity|].
      destruct (values_resume from dr s) as [s1 [[t|]|w| | |]]; try reflexivity. rewrite (@same_contains c d T O).
      destruct (@OrdinalSetRef_contains d T O r t) as [[]|w| | |]; try reflexivity. apply IH. }
    revert st. induction sched as [|dr sched IH]; intros st; cbn [run_caught]; [reflexivity|].
    assert (E : set_resume_step from (@OrdinalSetRef_contains c T O r) dr st = set_resume_step from (@OrdinalSetRef_contains d T O r) dr st)
      by apply H.
    rewrite E. destruct (set_resume_step from (@OrdinalSetRef_contains d T O r) dr st) as [s1 q]. now rewrite IH.
  Qed.
End Sets.
Lemma build_iter64 (c d : Config) U T (from : U -> N -> U * res (option T)) sched : forall u s, s <= u64_max ->
  run_caught (@iter64_resume c U T from) sched (u, s) = run_caught (@iter64_resume d U T from) sched (u, s).
Proof.
  intros u s Hs. apply wide_max in Hs. revert u s Hs. induction sched as [|r rs IH]; intros u s Hs; cbn [run_caught]; [reflexivity|].
  assert (E : @iter64_resume c U T from r (u, s) = @iter64_resume d U T from r (u, s) /\
    wide (snd (fst (@iter64_resume c U T from r (u, s))))).
  { unfold iter64_resume. destruct r.
    - pose proof (BitProofs.trailing_zeros_bits Hs) as G. destruct (trailing_zeros s =? 64); [now split|]. destruct G as [G _].
      rewrite (@same_shl c d) by exact G. split; [reflexivity|]. destruct (u64_shl 1 (trailing_zeros s)) as [b|w| | |]; try exact Hs.
      destruct (ask from u (trailing_zeros s)) as [u1 q]. cbn. now apply wide_land.
    - pose proof (BitProofs.leading_zeros_bits Hs) as G. destruct (checked_sub (64 - 1) (leading_zeros s)) as [i|]; [|now split].
      destruct G as [G _]. rewrite (@same_shl c d) by exact G. split; [reflexivity|].
      destruct (u64_shl 1 i) as [b|w| | |]; try exact Hs.
      destruct (ask from u i) as [u1 q]. cbn. now apply wide_land. }
  destruct E as [E P]. rewrite <- E. destruct (@iter64_resume c U T from r (u, s)) as [[u1 s1] q]. cbn [fst snd] in P.
  pose proof (IH u1 s1 P) as F. unfold Iter64 in *. now rewrite F.
Qed.
Lemma build_iterators (c d : Config) (U T : Type) (from : U -> N -> U * res (option T)) (sched : list dir) (u : U) :
  (forall (V : Type) (m : list (option V)), llen m <= @usize_max c -> llen m <= @usize_max d ->
    run_caught (@sparse_resume_step c U T from V) sched (u, enumerate_new m 0) =
    run_caught (@sparse_resume_step d U T from V) sched (u, enumerate_new m 0)) /\
  (forall (V : Type) (m : list V), llen m <= @usize_max c -> llen m <= @usize_max d ->
    run_caught (@enumerate_resume c U T from V) sched (u, enumerate_new m 0) =
    run_caught (@enumerate_resume d U T from V) sched (u, enumerate_new m 0)) /\
  (forall (V : Type) (m : list (option V)), llen m <= @usize_max c -> llen m <= @usize_max d ->
    run_caught (@iter_mut_resume_step c U T V from m) sched (u, TIterMut_new (slots (length m))) =
    run_caught (@iter_mut_resume_step d U T V from m) sched (u, TIterMut_new (slots (length m)))) /\
  (forall (V : Type) (m : list (option V)), llen m <= @usize_max c -> llen m <= @usize_max d ->
    run_caught (@drain_resume_step c U T from V) sched (u, Drain_new m (TIterMut_new (slots (length m)))) =
    run_caught (@drain_resume_step d U T from V) sched (u, Drain_new m (TIterMut_new (slots (length m))))) /\
  (forall (V : Type) (m : list (option V)), llen m <= @usize_max c -> llen m <= @usize_max d ->
    @drain_use c U T V from sched (u, Drain_new m (TIterMut_new (slots (length m)))) =
    @drain_use d U T V from sched (u, Drain_new m (TIterMut_new (slots (length m))))) /\
  (forall s, s <= u64_max ->
    run_caught (@iter64_resume c U T from) sched (u, s) = run_caught (@iter64_resume d U T from) sched (u, s)) /\
  (forall (O : Ordinal T) (words : list N) st,
    run_caught (set_resume_step from (@OrdinalSetRef_contains c T O words)) sched (u, st) =
    run_caught (set_resume_step from (@OrdinalSetRef_contains d T O words)) sched (u, st)).
Proof.
  repeat split.
  - intros. now apply build_iter.
  - intros. now apply build_titer.
  - intros. now apply build_iter_mut.
  - intros. now apply build_drain.
  - intros. now apply build_drain.
  - intros. now apply build_iter64.
  - intros. apply build_set_iter.
Qed.
