(** * CallsProofs9: functions with a closure as with a fixed impl; [contains]; atomics and the
    array impl; programs; what changing answers can do to sets and atomics. *)
From Verif Require Import Base Spec SpecMap SpecTotal SpecSet SpecAtomic SpecSafety SpecCalls ModelOrdinal ModelValues ModelArrayBuilder
  ModelIter ModelTotal ModelMap ModelSet ModelAtomic MapMachine TotalMachine SetMachine ModelCalls BaseProofs ArrayProofs IterLib BitProofs
  MapProofs5 SafetyProofs SafetyProofs2 CallsProofs1 CallsProofs2 CallsProofs3 CallsProofs4 CallsProofs5 CallsProofs6 CallsProofs7 CallsProofs8.
From Coq Require Import List Lia Permutation. Import ListNotations.
Set Implicit Arguments. Unset Strict Implicit.

(** ** Replaying with a fixed impl and a closure with a state *)
Section Fixed.
  Context {K C X : Type}.
  Local Notation R := (fun _ : C => X).

  Lemma replay_with (g : list (res X) -> C -> list (res X) * res X) (P : res X -> Prop) U A (w : world K C R U) (O : Ordinal K) (p : prog K C R A) u u' l r :
    (forall x st c, P x -> g (x :: st) c = (st, x)) -> run w u p = (u', l, r) -> agrees O l -> Forall P (returns l) ->
    forall rest, run (mixed O g) (returns l ++ rest) p = (rest, l, r).
  Proof.
    intros Hg. revert u l. induction p as [x|q c IH]; intros u l; cbn [run].
    - intros [= -> <- ->] _ _ rest. reflexivity.
    - destruct (w u q) as [u1 a]. destruct (run w u1 (c a)) as [[u2 l2] y] eqn:E. intros [= -> <- ->] H HP rest.
      inversion H as [|e l' He Hl]; subst.
      destruct q as [k|i|cl]; cbn [returns flat_map app mixed] in *.
      + fold (returns l2) in *. rewrite He, (IH a u1 l2 E Hl HP rest). reflexivity.
      + fold (returns l2) in *. rewrite He, (IH a u1 l2 E Hl HP rest). reflexivity.
      + fold (returns l2) in *. inversion HP as [|? ? P1 P2]; subst. rewrite Hg by exact P1. rewrite (IH a u1 l2 E Hl P2 rest). reflexivity.
  Qed.

  (** The closure: its state is the list of outcomes to come. *)
  Definition scripted : list (res X) -> C -> list (res X) * res X := replay_closure (C := C) (X := X).

  Lemma fixed_closure U A (w : world K C R U) (p : prog K C R A) size u u' l r st2 r2 :
    run w u p = (u', l, r) -> once (questions l) ->
    evals (impl_of_dialogue size l) scripted (returns l) p st2 r2 -> r = r2.
  Proof.
    intros E Ho (l' & E'). pose proof (replay E (once_agrees size Ho) []) as Rp. rewrite app_nil_r in Rp. unfold scripted in E'. rewrite Rp in E'. congruence.
  Qed.
End Fixed.

Section Closures.
  Context {cfg : Config} {K : Type}.

  Lemma try_new_fixed V E U (w : world K K (fun _ => result V E) U) n u :
    exists O St (f : St -> K -> St * res (result V E)) st,
      ORDINAL_SIZE O = Val n /\ (safe_world w -> any_impl O) /\
      snd (run w u (OrdinalTotalMap_try_new_p (Val n))) = snd (OrdinalTotalMap_try_new O f st).
  Proof.
    pose proof (@try_new_run K V E U w n u) as H. destruct (run w u (OrdinalTotalMap_try_new_p (Val n))) as [[u' l] r] eqn:Er.
    destruct H as (made & Hb & _). pose proof (built_once (i := 0) Hb) as Ho.
    exists (impl_of_dialogue (Val n) l), (list (res (result V E))), (scripted (C := K)), (returns l). split; [reflexivity|]. split.
    - intros S. apply impl_any; [exact I|]. eapply run_safe; eauto.
    - eapply fixed_closure; [exact Er|exact Ho|]. apply (@try_new_evals K (impl_of_dialogue (Val n) l)).
  Qed.
  Lemma array_try_new_fixed V E S U (w : world K K (fun _ => result V E) U) u :
    exists O St (f : St -> K -> St * res (result V E)) st,
      ORDINAL_SIZE O = Val (N.of_nat S) /\ (safe_world w -> any_impl O) /\
      snd (run w u (OrdinalTotalArrayMap_try_new_p (Val (N.of_nat S)) S)) = Val (snd (OrdinalTotalArrayMap_try_new O S f st)).
  Proof.
    destruct (@array_try_new_run K V E S U w u) as (u' & l & o & Er & made & Hb & _). pose proof (built_once (i := 0) Hb) as Ho.
    exists (impl_of_dialogue (Val (N.of_nat S)) l), (list (res (result V E))), (scripted (C := K)), (returns l). split; [reflexivity|]. split.
    - intros Sw. apply impl_any; [exact I|]. eapply run_safe; eauto.
    - rewrite Er. cbn [snd]. eapply fixed_closure; [exact Er|exact Ho|]. apply (@array_try_new_evals K (impl_of_dialogue (Val (N.of_nat S)) l)).
  Qed.
  Lemma total_map_map_fixed V W S U (w : world K (K * V) (fun _ => W) U) (m : OrdinalTotalArrayMap S V) u : N.of_nat S <= usize_max ->
    exists O St (f : St -> K -> V -> St * res W) st o,
      ORDINAL_SIZE O = Val (N.of_nat S) /\ (safe_world w -> any_impl O) /\
      snd (run w u (OrdinalTotalArrayMap_map_p m)) = Val o /\
      returned (snd (OrdinalTotalArrayMap_map O f m st)) = (a <- returned o ;; Val (into_ok a)) /\
      dropped (snd (OrdinalTotalArrayMap_map O f m st)) = dropped o.
  Proof.
    intros HS. destruct (@total_map_run cfg K V W S U w m u HS) as (u' & l & o & Er & made & Hb & _). pose proof (built_once (i := 0) Hb) as Ho.
    set (O := impl_of_dialogue (Val (N.of_nat S)) l).
    destruct (@map_evals cfg K O V W S (list (res W)) (fun st k v => scripted (C := K * V) st (k, v)) m (returns l)) as (o' & He & H1 & H2).
    exists O, (list (res W)), (fun st k v => scripted (C := K * V) st (k, v)), (returns l), o. split; [reflexivity|]. split.
    { intros Sw. apply impl_any; [exact I|]. eapply run_safe; eauto. }
    rewrite Er. cbn [snd]. split; [reflexivity|].
    assert (Eo : Val o = Val o').
    { eapply fixed_closure; [exact Er|exact Ho|]. exact He. }
    injection Eo as ->. auto.
  Qed.
End Closures.

Section RetainFixed.
  Context {cfg : Config} {K V : Type}.
  Local Notation R := (fun _ : K * V => (V * res bool)%type).

  Definition retain_script (st : list (res (V * res bool))) (k : K) (v : V) : list (res (V * res bool)) * V * res bool :=
    match st with Val (v', b) :: st' => (st', v', b) | _ => ([], v, Panic PUser) end.

  Lemma returns_val (l : list (exchange K (K * V) R)) : safe_results l -> Forall (fun x => exists y, x = Val y) (returns l).
  Proof.
    induction 1 as [|[q a] l He Hl IH]; [constructor|]. destruct q as [| |c]; cbn [returns flat_map app]; auto.
    constructor; [|exact IH]. destruct He as (v & b & -> & _). eauto.
  Qed.
  Lemma retain_fixed S U (w : world K (K * V) R U) (m : @OrdinalArrayMap V S) u : closure_returns w -> N.of_nat S <= usize_max ->
    exists O St (f : St -> K -> V -> St * V * res bool) st,
      ORDINAL_SIZE O = Val (N.of_nat S) /\ (safe_world w -> any_impl O) /\
      let '(_, m', r) := OrdinalArrayMap_retain O f m st in
      snd (run w u (OrdinalArrayMap_retain_p m)) = Val (m', r).
  Proof.
    intros Hw HS. destruct (@retain_run cfg K V S U w m u Hw HS) as (u' & l & m' & r & Er & Hr).
    pose proof (retained_once Hr) as Ho. set (O := impl_of_dialogue (Val (N.of_nat S)) l).
    exists O, (list (res (V * res bool))), retain_script, (returns l). split; [reflexivity|]. split.
    { intros Sw. apply impl_any; [exact I|]. eapply run_safe; eauto. }
    pose proof (retain_evals O retain_script (Datatypes.S (length (arr_list m))) (arr_list m) (OrdinalTotalArrayMap_iter_mut m) (returns l)) as Hv.
    unfold OrdinalArrayMap_retain. destruct (OrdinalArrayMap_retain_loop O retain_script _ _ _ (returns l)) as [[st' m2] r2].
    destruct Hv as (l' & Hv). rewrite Er. cbn [snd].
    assert (Rp : run (mixed O (retain_closure retain_script)) (returns l ++ []) (OrdinalArrayMap_retain_p m) = ([], l, Val (m', r))).
    { apply replay_with with (P := fun x => exists y, x = Val y) (w := w) (u := u) (u' := u').
      - intros x st [k v] ([v' b] & ->). reflexivity.
      - exact Er.
      - exact (once_agrees (Val (N.of_nat S)) Ho).
      - apply returns_val. exact (run_results Hw Er). }
    rewrite app_nil_r in Rp. unfold OrdinalArrayMap_retain_p in Rp. rewrite Hv in Rp. congruence.
  Qed.
  Lemma retain_safe S U (w : world K (K * V) R U) (m : @OrdinalArrayMap V S) u : safe_world w -> closure_returns w -> N.of_nat S <= usize_max ->
    exists m' r, snd (run w u (OrdinalArrayMap_retain_p m)) = Val (m', r) /\ length m' = S /\ no_ub r.
  Proof.
    intros Sw Hw HS. destruct (@retain_run cfg K V S U w m u Hw HS) as (u' & l & m' & r & Er & Hr). exists m', r. rewrite Er. split; [reflexivity|].
    split; [rewrite (retained_length Hr); apply arr_length|]. eapply retained_no_ub; [exact Hr| |exact (run_results Hw Er)]. eapply run_safe; eauto.
  Qed.
End RetainFixed.

Section Safe.
  Context {cfg : Config} {K : Type}.

  Lemma try_new_safe V E U (w : world K K (fun _ => result V E) U) n u : safe_world w -> no_ub (snd (run w u (OrdinalTotalMap_try_new_p (Val n)))).
  Proof.
    intros Sw. pose proof (@try_new_run K V E U w n u) as H. destruct (run w u (OrdinalTotalMap_try_new_p (Val n))) as [[u' l] r] eqn:Er.
    destruct H as (made & Hb & _). eapply (built_no_ub (i := 0) Hb). eapply run_safe; eauto.
  Qed.
  Lemma array_try_new_safe V E S U (w : world K K (fun _ => result V E) U) u : safe_world w ->
    exists o, snd (run w u (OrdinalTotalArrayMap_try_new_p (Val (N.of_nat S)) S)) = Val o /\ no_ub (returned o).
  Proof.
    intros Sw. destruct (@array_try_new_run K V E S U w u) as (u' & l & o & Er & made & Hb & _). exists o. rewrite Er. split; [reflexivity|].
    eapply (built_no_ub (i := 0) Hb). eapply run_safe; eauto.
  Qed.
  Lemma total_map_safe V W S U (w : world K (K * V) (fun _ => W) U) (m : OrdinalTotalArrayMap S V) u : safe_world w -> N.of_nat S <= usize_max ->
    exists o, snd (run w u (OrdinalTotalArrayMap_map_p m)) = Val o /\ no_ub (returned o).
  Proof.
    intros Sw HS. destruct (@total_map_run cfg K V W S U w m u HS) as (u' & l & o & Er & made & Hb & _). exists o. rewrite Er. split; [reflexivity|].
    eapply (built_no_ub (i := 0) Hb). eapply run_safe; eauto.
  Qed.

  Context {C : Type} {R : C -> Type}.

  (** ** Atomics *)
  Lemma call_safe U (w : world K C R U) u c cell : safe_world w ->
    exists r cell', snd (run w u (call_alone_p c cell)) = Val (r, cell') /\ no_ub r.
  Proof.
    intros S.
    assert (D : forall u0 v c0 (g : K -> out K), exists r cell', snd (run w u0 (decode_p v c0 g)) = Val (r, cell') /\ no_ub r).
    { intros u0 v c0 g. unfold decode_p. cbn [run]. pose proof (S u0 (QFrom v)) as H. destruct (w u0 (QFrom v)) as [u1 a]. cbn [snd] in *.
      do 2 eexists. split; [reflexivity|]. destruct a as [[?|]| | | |]; cbn in *; auto. }
    assert (E : forall u0 t c0 k, (forall v u1, exists r cell', snd (run w u1 (k v)) = Val (r, cell') /\ no_ub r) ->
      exists r cell', snd (run w u0 (encode_p t c0 k)) = Val (r, cell') /\ no_ub r).
    { intros u0 t c0 k Hk. unfold encode_p. cbn [run]. pose proof (S u0 (QOrdinal t)) as H. destruct (w u0 (QOrdinal t)) as [u1 a]. cbn [snd] in H.
      destruct a as [v| | | |]; cbn in H; try contradiction; cbn [run snd]; try (do 2 eexists; split; [reflexivity|]; exact I).
      destruct (Hk v u1) as (r & cell' & H1 & H2). destruct (run w u1 (k v)) as [[u2 l2] y]. cbn [snd] in *. eauto. }
    destruct c as [o|t o|old new s f|]; cbn [call_alone_p].
    - unfold load_p, sc_apply. destruct (illegal_request (RLoad o)); cbn [perform after]; [do 2 eexists; split; [reflexivity|]; exact I|apply D].
    - apply E. intros v u1. unfold sc_apply. destruct (illegal_request (RStore v o)); cbn [perform after]; do 2 eexists; (split; [reflexivity|]; exact I).
    - apply E. intros v u1. apply E. intros v2 u2. unfold sc_apply. destruct (illegal_request (RCas v v2 s f)); cbn [perform after]; [do 2 eexists; split; [reflexivity|]; exact I|].
      destruct (cell =? v); cbn [after]; apply D.
    - unfold load_p, sc_apply. cbn [illegal_request perform after]. apply D.
  Qed.

  (** ** The array impl *)
  Lemma array_ordinal_safe U (w : world K C R U) u size len (a : arr K len) : no_ub size -> safe_world w -> no_ub (snd (run w u (array_ordinal_p size a))).
  Proof.
    intros Hs S. eapply post_no_ub. apply (fun H : ppost (array_ordinal_p size a) (fun _ => True) => H U w u S).
    unfold array_ordinal_p. eapply ppost_bind; [apply ppost_done, no_ub_post, Hs|]. intros n _. generalize 0. destruct a as [l ok]. cbn [arr_list]. clear ok.
    induction l as [|t l IH]; intros r; cbn [array_ordinal_loop_p]; [now apply ppost_val|].
    eapply ppost_bind; [apply ppost_done; now apply (@post_unwrap _ _ (fun _ => True))|]. intros r1 _. eapply ppost_bind; [apply ppost_ordinal|]. intros i _.
    eapply ppost_bind; [apply ppost_done; now apply (@post_uadd cfg _ _ (fun _ => True))|]. intros r2 _. apply IH.
  Qed.
End Safe.

Section ArrayFrom.
  Context {cfg : Config} {K C X : Type}.
  Local Notation R := (fun _ : C => X).

  Lemma array_from_owned U (w : world K C R U) size len i u :
    exists u' l o, run w u (array_from_ordinal_p (Val size) len i) = (u', l, Val o) /\
      match returned o with
      | Val (Some a) => arr_list a = rev (decoded l) /\ dropped o = []
      | Val None | Panic _ => dropped o = decoded l
      | _ => True
      end /\ (safe_answers l -> no_ub (returned o)).
  Proof.
    unfold array_from_ordinal_p. rewrite builder_new_of.
    cut (forall turns made n u0, (length made + turns = len)%nat ->
      exists u' l o, run w u0 (array_from_loop_p (R := R) len size turns n (builder_of len made)) = (u', l, Val o) /\
      match returned o with
      | Val (Some a) => arr_list a = rev (made ++ decoded l) /\ dropped o = []
      | Val None | Panic _ => dropped o = made ++ decoded l
      | _ => True
      end /\ (safe_answers l -> no_ub (returned o))).
    { intros H. destruct (H len [] i u eq_refl) as (u' & l & o & E & Ho). exists u', l, o. split; [exact E|]. exact Ho. }
    induction turns as [|turns IH]; intros made n u0 Hl; cbn [array_from_loop_p].
    - cbn [run]. do 3 eexists. split; [reflexivity|]. cbn [decoded flat_map]. rewrite app_nil_r. destruct (negb (n =? 0)).
      + rewrite leave_ok. cbn. auto.
      + destruct (@finish_ok K len made) as (a & Ea & Ha); [lia|]. rewrite Ea. cbn [returned dropped bind].
        destruct (@try_arr_good _ len (rev (arr_list a))) as (a' & Ea'); [rewrite rev_length; apply arr_length|].
        rewrite Ea'. cbn [returned dropped]. split; [|intros; exact I]. split; [|reflexivity]. rewrite <- Ha.
        unfold try_arr in Ea'. destruct (Sumbool.sumbool_of_bool _); [|discriminate]. injection Ea' as <-. reflexivity.
    - destruct (checked_rem n size) as [d|] eqn:D; cbn [run].
      2:{ do 3 eexists. split; [reflexivity|]. rewrite leave_ok. cbn. rewrite app_nil_r. auto. }
      assert (Hz : size <> 0) by (unfold checked_rem in D; destruct (N.eqb_spec size 0); [discriminate|auto]).
      destruct (w u0 (QFrom d)) as [u1 a].
      destruct a as [[t|]| | | |]; cbn [bind unwrap run];
        try (do 3 eexists; split; [reflexivity|]; rewrite ?leave_ok; cbn [returned dropped app decoded flat_map]; rewrite ?app_nil_r;
             split; [auto|]; intros F; inversion F; subst; auto; exact I).
      rewrite push_ok by lia. assert (Eu : udiv n size = Val (n / size)) by (unfold udiv; destruct (N.eqb_spec size 0); [contradiction|reflexivity]).
      rewrite Eu. destruct (IH (made ++ [t]) (n / size) u1) as (u' & l & o & E & H1 & H2); [rewrite app_length; cbn; lia|].
      rewrite E. do 3 eexists. split; [reflexivity|]. rewrite <- app_assoc in H1. cbn [decoded flat_map app] in *. split; [exact H1|].
      intros F. inversion F; subst. auto.
  Qed.
  Lemma array_from_safe U (w : world K C R U) size len i u : safe_world w ->
    exists o, snd (run w u (array_from_ordinal_p (Val size) len i)) = Val o /\ no_ub (returned o).
  Proof.
    intros S. destruct (array_from_owned w size len i u) as (u' & l & o & E & _ & H). exists o. rewrite E. split; [reflexivity|]. apply H. eapply run_safe; eauto.
  Qed.
End ArrayFrom.

(** ** [contains] *)
Section Contains.
  Context {cfg : Config} {K C X : Type}.
  Local Notation R := (fun _ : C => X).

  Lemma contains_fixed U (w : world K C R U) u r t : exists o, (safe_world w -> no_ub o) /\
    forall O, ordinal O t = o -> snd (run w u (OrdinalSetRef_contains_p r t)) = OrdinalSetRef_contains O r t.
  Proof.
    unfold OrdinalSetRef_contains_p, ask_ordinal, ask. cbn [pbind run].
    assert (S1 : safe_world w -> no_ub (snd (w u (QOrdinal t)))) by auto. destruct (w u (QOrdinal t)) as [u1 a]. cbn [snd] in S1.
    destruct a as [i| | | |]; cbn [pbind run snd]; try (eexists; split; [exact S1|]; intros O E; unfold OrdinalSetRef_contains; rewrite E; reflexivity).
    change (udiv i 64) with (Val (i / 64)). cbn [pbind run]. destruct (slice_get r (i / 64)) as [word|] eqn:Es; cbn [run snd].
    - assert (S2 : safe_world w -> no_ub (snd (w u1 (QOrdinal t)))) by auto. destruct (w u1 (QOrdinal t)) as [u2 b]. cbn [snd] in S2.
      destruct b as [j| | | |]; cbn [pbind run snd]; try (eexists; split; [exact S2|]; intros O E; unfold OrdinalSetRef_contains; rewrite E; reflexivity).
      exists (Val (64 * (i / 64) + j mod 64)). split; [intros; exact I|]. intros O E. unfold OrdinalSetRef_contains. rewrite E. cbn [bind].
      assert (D : (64 * (i / 64) + j mod 64) / 64 = i / 64).
      { rewrite N.mul_comm, N.div_add_l by lia. rewrite (N.div_small (j mod 64)) by (apply N.mod_lt; lia). apply N.add_0_r. }
      assert (M : (64 * (i / 64) + j mod 64) mod 64 = j mod 64).
      { rewrite N.add_comm, N.mul_comm, N.mod_add by lia. apply N.mod_mod. lia. }
      change (udiv ?x 64) with (Val (x / 64)). cbn [bind]. rewrite D, Es. cbn [bind].
      change (urem ?x 64) with (Val (x mod 64)). cbn [bind pbind]. rewrite M.
      destruct (u64_shl 1 (j mod 64)); reflexivity.
    - exists (Val i). split; [intros; exact I|]. intros O E. unfold OrdinalSetRef_contains. rewrite E. cbn [bind].
      change (udiv i 64) with (Val (i / 64)). cbn [bind]. rewrite Es. reflexivity.
  Qed.
  Definition answers_with (size : res N) (o : res N) : Ordinal K :=
    {| ORDINAL_SIZE := size; ordinal := fun _ => o; from_ordinal := fun _ => Val None |}.
  Lemma answers_any size o : no_ub size -> no_ub o -> any_impl (answers_with size o).
  Proof. intros H1 H2. split; [exact H1|]. split; intros ?; [exact H2|exact I]. Qed.

  Lemma run_done_bind U A B (w : world K C R U) u (r : res A) (k : A -> prog K C R B) :
    snd (run w u (pbind (Done r) k)) = (a <- r ;; snd (run w u (k a))).
  Proof. destruct r; reflexivity. Qed.
  Lemma run_bind_done U A B (w : world K C R U) u (p : prog K C R A) (f : A -> res B) :
    snd (run w u (pbind p (fun a => Done (f a)))) = (a <- snd (run w u p) ;; f a).
  Proof.
    rewrite run_bind. destruct (run w u p) as [[u1 l] r]. destruct r as [a| | | |]; cbn [run]; reflexivity.
  Qed.

  Lemma guarded_contains U A (w : world K C R U) u (ref : res OrdinalSetRef) t (g : bool -> A) : exists o, (safe_world w -> no_ub o) /\
    forall O, ordinal O t = o ->
      snd (run w u (pbind (pbind (Done ref) (fun r => OrdinalSetRef_contains_p r t)) (fun b => Done (Val (g b))))) =
      (b <- (r <- ref ;; OrdinalSetRef_contains O r t) ;; Val (g b)).
  Proof.
    destruct ref as [r| | | |]; [|exists (Val 0); split; [intros; exact I|]; intros O _; reflexivity ..].
    destruct (contains_fixed w u r t) as (o & So & Ho). exists o. split; [exact So|]. intros O E. cbn [pbind bind]. rewrite <- (Ho O E). apply run_bind_done.
  Qed.

  Lemma set_contains_fixed U (w : world K C R U) u size t s :
    exists O, ORDINAL_SIZE O = size /\ (no_ub size -> safe_world w -> any_impl O) /\
      snd (run w u (set_step_p size (SContains t) s)) = set_step O (SContains t) s.
  Proof.
    destruct (guarded_contains w u (OrdinalSet_as_ref_p size s) t (fun b => (@SBool K b, s))) as (o & So & Ho).
    exists (answers_with size o). split; [reflexivity|]. split; [intros; apply answers_any; auto|].
    exact (Ho (answers_with size o) eq_refl).
  Qed.
  Lemma array_set_contains_fixed S U (w : world K C R U) u size t (s : OrdinalArraySet S) :
    exists O, ORDINAL_SIZE O = size /\ (no_ub size -> safe_world w -> any_impl O) /\
      snd (run w u (array_set_step_p size (SContains t) s)) = array_set_step O (SContains t) s.
  Proof.
    destruct (guarded_contains w u (OrdinalArraySet_as_ref_p size s) t (fun b => (@SBool K b, s))) as (o & So & Ho).
    exists (answers_with size o). split; [reflexivity|]. split; [intros; apply answers_any; auto|].
    exact (Ho (answers_with size o) eq_refl).
  Qed.
  Lemma set64_contains_fixed U (w : world K C R U) u size t s :
    exists O, ORDINAL_SIZE O = size /\ (no_ub size -> safe_world w -> any_impl O) /\
      snd (run w u (set64_step_p size (SContains t) s)) = set64_step O (SContains t) s.
  Proof.
    apply fixed_impl with (f := fun O => set64_step O (SContains t) s).
    - cbn [set64_step_p]. unfold OrdinalSet64_contains_p. destruct (Set64_ASSERT_p size) as [[]| | | |]; try (split; [cbn; lia|constructor]).
      unfold ask_ordinal, ask. cbn [pbind run]. destruct (w u (QOrdinal t)) as [u1 a].
      destruct a as [i| | | |]; cbn [pbind run fst snd questions map question]; try apply once_ordinal.
      destruct (u64_shl 1 i); cbn [pbind run fst snd questions map question]; apply once_ordinal.
    - intros O <-. apply is_set64_step.
  Qed.
End Contains.

(** ** Programs *)
Section Programs.
  Context {cfg : Config} {K C X V : Type}.
  Local Notation R := (fun _ : C => X).

  Lemma map_program_safe (n : N) (ops : list (map_op K V)) : n <= usize_max ->
    @ppost K C R _ (run_ops_p (heap_step_p (Val n)) ops []) (fun p => llen (snd p) = 0 \/ llen (snd p) = n).
  Proof.
    intros Hn. apply ppost_run_ops with (I := fun m => llen m = 0 \/ llen m = n); [|left; reflexivity].
    intros op m Hm U w u S. destruct (@map_fixed cfg K C X U V w u (Val n) op m) as (O & H1 & H2 & H3); [lia|].
    specialize (H2 I S).
    cut (post (heap_step O op m) (fun p => llen (snd p) = 0 \/ llen (snd p) = n)); [intros G; rewrite <- H3 in G; exact G|]. pose proof (heap_step_good H2 op m) as G.
    destruct (heap_step O op m) as [[o m']| | | |] eqn:E; cbn in G |- *; auto.
    destruct (allocates op) eqn:Ha.
    - right. exact (heap_step_alloc H1 Hm E Ha).
    - rewrite (llen_eq (heap_step_length Ha E)). exact Hm.
  Qed.
  Lemma array_map_program_safe S (ops : list (map_op K V)) (m : @OrdinalArrayMap V S) : N.of_nat S <= usize_max ->
    @ppost K C R _ (run_ops_p (fun op m => array_step_p op m) ops m) (fun _ => True).
  Proof.
    intros HS. eapply ppost_weaken; [apply (@ppost_run_ops K C R _ _ _ (fun op m => array_step_p op m) (fun _ => True))|]; auto.
    intros op m1 _ U w u Sw. destruct (@array_map_fixed cfg K C X U V w u (Val 0) S op m1 HS) as (O & H1 & H2 & H3).
    rewrite H3. exact (array_step_good (H2 I Sw) op m1).
  Qed.

  Lemma htotal_length (O : Ordinal K) (op : total_op K V) (m m' : @OrdinalTotalMap V) o : any_impl O -> htotal_step O op m = Val (o, m') -> length m' = length m.
  Proof.
    intros HO. destruct op; cbn [htotal_step]; intros E; try (apply bind_inv in E; destruct E as (? & E1 & E));
      try (injection E as _ <-; reflexivity).
    - apply bind_inv in E. destruct E as (? & _ & E). injection E as _ <-. apply store_length.
    - apply bind_inv in E. destruct E as (? & _ & E). injection E as _ <-. apply store_length.
    - destruct x as [old m1]. injection E as _ <-. unfold OrdinalTotalMap_insert in E1.
      apply bind_inv in E1. destruct E1 as (i & _ & E1). apply bind_inv in E1. destruct E1 as (? & _ & E1). injection E1 as _ <-. apply store_length.
    - destruct x as [got it]. injection E as _ <-. reflexivity.
    - destruct x as [got it]. apply bind_inv in E. destruct E as ([l m1] & E2 & E). injection E as _ <-.
      revert m m1 l E1 E2. intros m m1 l _ E2. revert m m1 l E2. induction got as [|[[k i]|] got IH]; intros m m1 l E2; cbn [twrite_entries] in E2.
      + injection E2 as _ <-. reflexivity.
      + apply bind_inv in E2. destruct E2 as (? & _ & E2). apply bind_inv in E2. destruct E2 as ([l1 m2] & E3 & E2). injection E2 as _ <-.
        rewrite (IH _ _ _ E3). apply store_length.
      + apply bind_inv in E2. destruct E2 as ([l1 m2] & E3 & E2). injection E2 as _ <-. exact (IH _ _ _ E3).
    - destruct x as [got it]. apply bind_inv in E. destruct E as ([l m1] & E2 & E). injection E as _ <-.
      revert m m1 l E1 E2. intros m m1 l _ E2. revert m m1 l E2. induction got as [|[i|] got IH]; intros m m1 l E2; cbn [twrite_values] in E2.
      + injection E2 as _ <-. reflexivity.
      + apply bind_inv in E2. destruct E2 as (? & _ & E2). apply bind_inv in E2. destruct E2 as ([l1 m2] & E3 & E2). injection E2 as _ <-.
        rewrite (IH _ _ _ E3). apply store_length.
      + apply bind_inv in E2. destruct E2 as ([l1 m2] & E3 & E2). injection E2 as _ <-. exact (IH _ _ _ E3).
    - apply bind_inv in E. destruct E as ([got it] & _ & E). injection E as _ <-. reflexivity.
    - destruct x as [got it]. injection E as _ <-. reflexivity.
    - injection E as _ <-. unfold OrdinalTotalMap_clone. apply map_length.
  Qed.
  Lemma total_program_safe (n : N) (ops : list (total_op K V)) (m : @OrdinalTotalMap V) : llen m <= usize_max ->
    @ppost K C R _ (run_ops_p (htotal_step_p (Val n)) ops m) (fun p => llen (snd p) = llen m).
  Proof.
    intros Hm. apply ppost_run_ops with (I := fun m' => llen m' = llen m); [|reflexivity].
    intros op m1 Hm1 U w u S. destruct (@total_fixed cfg K C X U V w u n op m1) as (O & H1 & H2 & H3); [lia|].
    cut (post (htotal_step O op m1) (fun p => llen (snd p) = llen m)); [intros G; rewrite <- H3 in G; exact G|].
    pose proof (htotal_step_good (H2 S) op m1) as G.
    destruct (htotal_step O op m1) as [[o m']| | | |] eqn:E; cbn in G |- *; auto.
    rewrite (llen_eq (htotal_length (H2 S) E)). exact Hm1.
  Qed.
  Lemma array_total_program_safe n S (ops : list (total_op K V)) (m : OrdinalTotalArrayMap S V) : N.of_nat S <= usize_max ->
    @ppost K C R _ (run_ops_p (fun op m => atotal_step_p (Val n) op m) ops m) (fun _ => True).
  Proof.
    intros HS. eapply ppost_weaken; [apply (@ppost_run_ops K C R _ _ _ (fun op m => atotal_step_p (Val n) op m) (fun _ => True))|]; auto.
    intros op m1 _ U w u Sw. destruct (@array_total_fixed cfg K C X U V w u n S op m1 HS) as (O & H1 & H2 & H3).
    rewrite H3. exact (atotal_step_good (H2 Sw) op m1).
  Qed.
End Programs.
