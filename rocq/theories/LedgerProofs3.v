(** * LedgerProofs3: total maps, whole programs, collecting and consuming. *)
From Verif Require Import Base BaseProofs Spec SpecMem SpecMap SpecTotal SpecCatch SpecResume SpecLedger ModelOrdinal ModelValues
  ModelArrayBuilder ModelIter ModelTotal ModelMap ModelResume ModelUnwind ModelCatch MapMachine TotalMachine
  ResumeProofs UnwindProofs2 CatchProofs5 LedgerProofs LedgerProofs2.
From Coq Require Import List Lia Permutation. Import ListNotations.
Set Implicit Arguments.
Unset Strict Implicit.

Section Totals.
  Context {cfg : Config} {K V : Type} (O : Ordinal K).

  Definition taccounted (op : total_op K V) (s : seen (total_out K V)) (h h' : list V) : Prop :=
    exists given taken dropped, total_account op s h given taken dropped /\ balanced h given taken dropped h'.
  Lemma tquiet op w h : taccounted op (Caught w) h h.
  Proof. destruct op; idle. Qed.

  Ltac dull E := repeat match type of E with
    | (match ?x with _ => _ end) = _ => destruct x; try discriminate E
    end; injection E as <- <-; idle.

  Lemma htotal_returns op (m m' : @OrdinalTotalMap V) o : htotal_act O op m = (m', Ended o) -> taccounted op (Seen o) m m'.
  Proof.
    intros E. apply (proj1 (proj2 (proj2 (@same_calls cfg K V O 0)))) in E. destruct op; cbn [htotal_step] in E; unfold bind in E; try (dull E).
    - destruct (OrdinalTotalMap_get_mut O m k) as [i|w| | |]; try discriminate E.
      destruct (deref m i) as [old|w| | |] eqn:G; try discriminate E. injection E as <- <-.
      exists [v], [old], []. split; [exists old; repeat split|]. exact (swap_at v (deref_nth G)).
    - destruct (OrdinalTotalMap_index_mut O m k) as [i|w| | |]; try discriminate E.
      destruct (deref m i) as [old|w| | |] eqn:G; try discriminate E. injection E as <- <-.
      exists [v], [old], []. split; [exists old; repeat split|]. exact (swap_at v (deref_nth G)).
    - unfold OrdinalTotalMap_insert, bind in E. destruct (ordinal O k) as [i|w| | |]; try discriminate E.
      destruct (index m i) as [old|w| | |] eqn:G; try discriminate E. injection E as <- <-.
      exists [v], [old], []. split; [exists old; repeat split|]. exact (swap_at v (index_nth G)).
    - destruct (drive _ _ _) as [[got it]|w| | |]; try discriminate E.
      destruct (twrite_entries f got m) as [[l m2]|w| | |] eqn:G; try discriminate E. injection E as <- <-.
      exists (map (fun kv => f (fst kv) (snd kv)) (somes l)), (map snd (somes l)), []. split; [exists l; repeat split|].
      exact (twrite_entries_balanced G).
    - destruct (drive _ _ _) as [[got it]|w| | |]; try discriminate E.
      destruct (twrite_values f got m) as [[l m2]|w| | |] eqn:G; try discriminate E. injection E as <- <-.
      exists (map f (somes l)), (somes l), []. split; [exists l; repeat split|].
      exact (twrite_values_balanced G).
    - injection E as <- <-. exists (map cl m), [], m. split; [repeat split|]. apply Permutation_refl.
  Qed.
  Lemma htotal_panics op (m m' : @OrdinalTotalMap V) w : htotal_act O op m = (m', Unwinds w) -> taccounted op (Caught w) m m'.
  Proof. intros E. rewrite (proj1 (proj2 (proj2 (@left_behind cfg K V O 0 w))) op m m' E). apply tquiet. Qed.

  Context (S : nat).
  Lemma total_back (o o' : total_out K V) l (m' : OrdinalTotalArrayMap S V) : tback S (o, l) = Val (o', m') -> o = o' /\ arr_list m' = l.
  Proof.
    unfold tback. cbn [fst snd]. destruct (try_arr S l) as [a|] eqn:E; [|discriminate]. intros [= <- <-].
    split; [reflexivity|exact (try_arr_list E)].
  Qed.
  Lemma atotal_returns op (m m' : OrdinalTotalArrayMap S V) o : atotal_act O op m = (m', Ended o) ->
    taccounted op (Seen o) (arr_list m) (arr_list m').
  Proof.
    intros E. apply (proj1 (proj2 (proj2 (proj2 (@same_calls cfg K V O S))))) in E. destruct op; cbn [atotal_step] in E; unfold bind in E; try (dull E).
    - destruct (OrdinalTotalArrayMap_get_mut O m k) as [i|w| | |]; try discriminate E.
      destruct (deref (arr_list m) i) as [old|w| | |] eqn:G; try discriminate E. injection E as <- <-.
      exists [v], [old], []. split; [exists old; repeat split|]. exact (swap_at v (deref_nth G)).
    - destruct (OrdinalTotalArrayMap_index_mut O m k) as [i|w| | |]; try discriminate E.
      destruct (deref (arr_list m) i) as [old|w| | |] eqn:G; try discriminate E. injection E as <- <-.
      exists [v], [old], []. split; [exists old; repeat split|]. exact (swap_at v (deref_nth G)).
    - unfold OrdinalTotalArrayMap_insert, bind in E. destruct (ordinal O k) as [i|w| | |]; try discriminate E.
      destruct (index (arr_list m) i) as [old|w| | |] eqn:G; try discriminate E. injection E as <- <-.
      exists [v], [old], []. split; [exists old; repeat split|]. exact (swap_at v (index_nth G)).
    - destruct (drive _ _ _) as [[got it]|w| | |]; try discriminate E.
      destruct (twrite_entries f got _) as [[l m2]|w| | |] eqn:G; try discriminate E. apply total_back in E. destruct E as [<- ->].
      exists (map (fun kv => f (fst kv) (snd kv)) (somes l)), (map snd (somes l)), []. split; [exists l; repeat split|].
      exact (twrite_entries_balanced G).
    - destruct (drive _ _ _) as [[got it]|w| | |]; try discriminate E.
      destruct (twrite_values f got _) as [[l m2]|w| | |] eqn:G; try discriminate E. apply total_back in E. destruct E as [<- ->].
      exists (map f (somes l)), (somes l), []. split; [exists l; repeat split|].
      exact (twrite_values_balanced G).
    - injection E as <- <-. exists (map cl (arr_list m)), [], (arr_list m). split; [repeat split|]. apply Permutation_refl.
  Qed.
  Lemma atotal_panics op (m m' : OrdinalTotalArrayMap S V) w : atotal_act O op m = (m', Unwinds w) ->
    taccounted op (Caught w) (arr_list m) (arr_list m').
  Proof. intros E. rewrite (proj1 (proj2 (proj2 (proj2 (@left_behind cfg K V O S w)))) op m m' E). apply tquiet. Qed.
End Totals.

(** ** Programs *)
Section Programs.
  Context {Op Out M V : Type} (account : Op -> seen Out -> list V -> list V -> list V -> list V -> list V -> Prop)
    (held : M -> list V) (step : Op -> act M Out).
  Context (Hret : forall op m m' o, step op m = (m', Ended o) ->
    exists g t d, account op (Seen o) (held m) g t d (held m') /\ balanced (held m) g t d (held m')).
  Context (Hpan : forall op m m' w, step op m = (m', Unwinds w) ->
    exists g t d, account op (Caught w) (held m) g t d (held m') /\ balanced (held m) g t d (held m')).

  Lemma program_books ops : forall m outs m', catch_run step ops m = Some (outs, m') ->
    exists gs ts ds, books account ops outs (held m) gs ts ds (held m').
  Proof.
    induction ops as [|op ops IH]; intros m outs m'; cbn [catch_run].
    - intros [= <- <-]. exists [], [], []. constructor.
    - destruct (step op m) as [m1 [o|w| |]] eqn:E; try discriminate.
      + destruct (catch_run step ops m1) as [[l m2]|] eqn:E2; [|discriminate]. intros [= <- <-].
        destruct (IH _ _ _ E2) as (gs & ts & ds & H). destruct (Hret E) as (g & t & d & A & B).
        exists (g ++ gs), (t ++ ts), (d ++ ds). eapply books_call; eassumption.
      + destruct (catch_run step ops m1) as [[l m2]|] eqn:E2; [|discriminate]. intros [= <- <-].
        destruct (IH _ _ _ E2) as (gs & ts & ds & H). destruct (Hpan E) as (g & t & d & A & B).
        exists (g ++ gs), (t ++ ts), (d ++ ds). eapply books_call; eassumption.
  Qed.
  Lemma books_balanced ops outs h gs ts ds h' : books account ops outs h gs ts ds h' -> balanced h gs ts ds h'.
  Proof.
    unfold balanced. induction 1 as [h|op ops s outs h g t d h1 gs ts ds h2 A B H IH].
    - rewrite app_nil_r. apply Permutation_refl.
    - unfold balanced in B. rewrite app_assoc. eapply Permutation_trans; [apply Permutation_app_tail, B|].
      rewrite <- !app_assoc. apply Permutation_app_head.
      eapply Permutation_trans; [apply Permutation_app_head, IH|].
      rewrite !app_assoc. apply Permutation_app_tail, Permutation_app_tail. apply Permutation_app_comm.
  Qed.
  Lemma program_law ops m outs m' : catch_run step ops m = Some (outs, m') ->
    exists gs ts ds, books account ops outs (held m) gs ts ds (held m') /\ balanced (held m) gs ts ds (held m').
  Proof.
    intros E. destruct (program_books E) as (gs & ts & ds & H). exists gs, ts, ds. split; [exact H|exact (books_balanced H)].
  Qed.
End Programs.

Section Instances.
  Context (cfg : Config) (K V : Type).
  Lemma heap_books (ops : list (Ordinal K * map_op K V)) (m : @OrdinalMap V) outs m' :
    catch_run (fun p => heap_act (fst p) (snd p)) ops m = Some (outs, m') ->
    exists gs ts ds, books (fun p => map_account (snd p)) ops outs (stored m) gs ts ds (stored m') /\
      balanced (stored m) gs ts ds (stored m').
  Proof.
    apply (@program_law _ _ _ _ (fun p => map_account (snd p)) (@stored V)).
    - intros [O op] m1 m2 o E. exact (heap_returns E).
    - intros [O op] m1 m2 w E. exact (heap_panics E).
  Qed.
  Lemma array_books (S : nat) (ops : list (Ordinal K * map_op K V)) (m : @OrdinalArrayMap V S) outs m' :
    catch_run (fun p => array_act (fst p) (S := S) (snd p)) ops m = Some (outs, m') ->
    exists gs ts ds, books (fun p => map_account (snd p)) ops outs (stored (arr_list m)) gs ts ds (stored (arr_list m')) /\
      balanced (stored (arr_list m)) gs ts ds (stored (arr_list m')).
  Proof.
    apply (@program_law _ _ _ _ (fun p => map_account (snd p)) (fun m : @OrdinalArrayMap V S => stored (arr_list m))).
    - intros [O op] m1 m2 o E. exact (array_returns E).
    - intros [O op] m1 m2 w E. exact (array_panics E).
  Qed.
  Lemma htotal_books (ops : list (Ordinal K * total_op K V)) (m : @OrdinalTotalMap V) outs m' :
    catch_run (fun p => htotal_act (fst p) (snd p)) ops m = Some (outs, m') ->
    exists gs ts ds, books (fun p s h g t d _ => total_account (snd p) s h g t d) ops outs m gs ts ds m' /\
      balanced m gs ts ds m'.
  Proof.
    apply (@program_law _ _ _ _ (fun (p : Ordinal K * total_op K V) s h g t d _ => total_account (snd p) s h g t d) (fun m : @OrdinalTotalMap V => m)).
    - intros [O op] m1 m2 o E. exact (htotal_returns E).
    - intros [O op] m1 m2 w E. exact (htotal_panics E).
  Qed.
  Lemma atotal_books (S : nat) (ops : list (Ordinal K * total_op K V)) (m : OrdinalTotalArrayMap S V) outs m' :
    catch_run (fun p => atotal_act (fst p) (S := S) (snd p)) ops m = Some (outs, m') ->
    exists gs ts ds, books (fun p s h g t d _ => total_account (snd p) s h g t d) ops outs (arr_list m) gs ts ds (arr_list m') /\
      balanced (arr_list m) gs ts ds (arr_list m').
  Proof.
    apply (@program_law _ _ _ _ (fun (p : Ordinal K * total_op K V) s h g t d _ => total_account (snd p) s h g t d) (fun m : OrdinalTotalArrayMap S V => arr_list m)).
    - intros [O op] m1 m2 o E. exact (atotal_returns E).
    - intros [O op] m1 m2 w E. exact (atotal_panics E).
  Qed.
End Instances.

(** ** A new array map is empty, whatever the implementation. *)
Section NewArray.
  Context {T : Type} (P : T -> Prop) (S : nat).
  Definition cells_ok (l : list (option T)) : Prop := forall v, In (Some v) l -> P v.
  Lemma cells_set l : forall i v, cells_ok l -> P v -> cells_ok (list_set l i (Some v)).
  Proof.
    induction l as [|x l IH]; intros [|i] v H Hv; cbn [list_set]; try exact H.
    - intros y [[= <-]|Hy]; [exact Hv|]. apply H. now right.
    - intros y [Hx|Hy]; [apply H; now left|]. apply (IH i v); [|exact Hv|exact Hy]. intros z Hz. apply H. now right.
  Qed.
  Lemma cells_all l : forall r, cells_ok l -> all_init l = Some r -> forall v, In v r -> P v.
  Proof.
    induction l as [|[x|] l IH]; intros r H; cbn [all_init]; try discriminate.
    - intros [= <-] v [].
    - destruct (all_init l) as [t|]; [|discriminate]. intros [= <-] v [<-|Hv]; [apply H; now left|].
      apply (IH t); [|reflexivity|exact Hv]. intros z Hz. apply H. now right.
  Qed.
  Lemma fill_all {It A E St} (next : It -> res (option A * It)) (init : St -> A -> St * res (result T E)) :
    (forall st a v, snd (init st a) = Val (ResOk v) -> P v) ->
    forall fuel b it st a, cells_ok (b_cells b) -> returned (snd (fill S next init fuel b it st)) = Val (ResOk a) ->
      forall v, In v (arr_list a) -> P v.
  Proof.
    intros Hi. induction fuel as [|fuel IH]; intros b it st a Hb; cbn [fill]; [discriminate|].
    assert (L : forall w (r : res (result (arr T S) E)) also, r = Panic w \/ (exists e, r = Val (ResErr e)) \/ r = NoCompile ->
      returned (leave r b also) = Val (ResOk a) -> False).
    { intros w r also Hr. unfold leave. destruct (builder_drop b); cbn; try discriminate.
      destruct Hr as [-> | [[e ->] | ->]]; discriminate. }
    destruct (next it) as [[[x|] it']|w| | |]; cbn [snd returned]; try discriminate.
    - destruct (init st x) as [st' r] eqn:Ei. specialize (Hi st x). rewrite Ei in Hi. cbn [snd] in Hi.
      destruct r as [[v|e]|w| | |]; cbn [snd returned]; try discriminate.
      + unfold builder_push. destruct (Nat.ltb (b_filled b) S); cbn [assert_rt bind].
        * destruct (Nat.ltb (b_filled b) (length (b_cells b))); [|discriminate].
          apply IH. cbn [b_cells]. apply cells_set; auto.
        * cbn [snd]. intros H. destruct (L PAssert _ _ (or_introl eq_refl) H).
      + intros H. destruct (L PAssert _ _ (or_intror (or_introl (ex_intro _ e eq_refl))) H).
      + intros H. destruct (L w _ _ (or_introl eq_refl) H).
    - unfold builder_finish, builder_try_finish. destruct (negb (Nat.eqb (b_filled b) S)).
      + destruct (Nat.leb (b_filled b) S); [|discriminate]. destruct (builder_drop b); discriminate.
      + destruct (all_init (b_cells b)) as [l|] eqn:El; [|discriminate]. destruct (try_arr S l) as [a'|] eqn:Ea; [|discriminate].
        cbn. intros [= <-]. rewrite (try_arr_list Ea). exact (cells_all Hb El).
    - intros H. destruct (L w _ _ (or_introl eq_refl) H).
  Qed.
End NewArray.
Lemma new_array_empty {K V} (O : Ordinal K) S (a : @OrdinalArrayMap V S) : OrdinalArrayMap_new O S = Val a -> stored (arr_list a) = [].
Proof.
  unfold OrdinalArrayMap_new, OrdinalTotalArrayMap_new, OrdinalTotalArrayMap_try_new.
  destruct (ASSERT O S); cbn [snd returned]; try discriminate. destruct (values_new O) as [it|w| | |]; try discriminate.
  destruct (fill _ _ _ _ _ _ _) as [st' r] eqn:E. cbn [snd returned]. unfold OrdinalTotalArrayMap in *.
  destruct (returned r) as [[m|e]|w| | |] eqn:Er; try destruct e; cbn; try discriminate.
  intros [= <-].
  assert (H : forall v, In v (arr_list m) -> v = None).
  { eapply (@fill_all (option V) (fun v => v = None) S); [| |rewrite E; exact Er].
    - intros st k v. cbn. congruence.
    - cbn. intros v Hv. apply repeat_spec in Hv. discriminate. }
  destruct m as [l Hl]. cbn in *. clear - H. induction l as [|x l IH]; [reflexivity|].
  rewrite (H x (or_introl eq_refl)). apply IH. intros v Hv. apply H. now right.
Qed.

(** ** Collecting and consuming *)
Section Ends.
  Context (cfg : Config) (K V : Type) (O : Ordinal K).

  Lemma collect_kept {M} (held : M -> list V) (insert : M -> K -> V -> res (option V * M)) (loop : list (K * V) -> M -> res M)
    (Hins : forall m k v old m', insert m k v = Val (old, m') -> Permutation (held m ++ [v]) (opt_list old ++ held m'))
    (Hnil : forall m, loop [] m = Val m)
    (Hcons : forall k v l m, loop ((k, v) :: l) m = ('(_, m) <- insert m k v ;; loop l m)) :
    forall l m m', loop l m = Val m' -> exists dropped, Permutation (held m ++ map snd l) (dropped ++ held m').
  Proof.
    induction l as [|[k v] l IH]; intros m m' E.
    - rewrite Hnil in E. injection E as <-. exists []. cbn. now rewrite app_nil_r.
    - rewrite Hcons in E. destruct (insert m k v) as [[old m1]|w| | |] eqn:E1; try discriminate E. cbn [bind] in E.
      destruct (IH _ _ E) as (dropped & P). exists (opt_list old ++ dropped).
      exact (chain (g1 := [v]) (Hins _ _ _ _ _ E1) P).
  Qed.
  Lemma heap_insert_swap (m : @OrdinalMap V) k v old m' : OrdinalMap_insert O m k v = Val (old, m') ->
    Permutation (stored m ++ [v]) (opt_list old ++ stored m').
  Proof.
    intros E. destruct (@heap_returns cfg K V O (OpInsert k v) m m' (OutValue old)) as (g & t & d & A & B).
    - apply (proj1 (@same_calls cfg K V O 0)). cbn [heap_step]. rewrite E. reflexivity.
    - cbn [map_account] in A. destruct A as (old' & [= <-] & -> & -> & ->). exact B.
  Qed.
  Lemma array_insert_swap S (m : @OrdinalArrayMap V S) k v old m' : OrdinalArrayMap_insert O m k v = Val (old, m') ->
    Permutation (stored (arr_list m) ++ [v]) (opt_list old ++ stored (arr_list m')).
  Proof.
    intros E. destruct (@array_returns cfg K V O S (OpInsert k v) m m' (OutValue old)) as (g & t & d & A & B).
    - apply (proj1 (proj2 (@same_calls cfg K V O S))). cbn [array_step]. rewrite E. reflexivity.
    - cbn [map_account] in A. destruct A as (old' & [= <-] & -> & -> & ->). exact B.
  Qed.
  Lemma heap_collected (l : list (K * V)) (m : @OrdinalMap V) : OrdinalMap_from_iter O l = Val m ->
    exists dropped, Permutation (map snd l) (dropped ++ stored m).
  Proof. exact (@collect_kept _ (@stored V) _ _ heap_insert_swap (fun _ => eq_refl) (fun _ _ _ _ => eq_refl) l [] m). Qed.

  Lemma array_collected S (l : list (K * V)) (a : @OrdinalArrayMap V S) : OrdinalArrayMap_from_iter O S l = Val a ->
    exists dropped, Permutation (map snd l) (dropped ++ stored (arr_list a)).
  Proof.
    unfold OrdinalArrayMap_from_iter. destruct (OrdinalArrayMap_new O S) as [a0|w| | |] eqn:E0; try discriminate. cbn [bind]. intros E.
    destruct (@collect_kept _ (fun m : @OrdinalArrayMap V S => stored (arr_list m)) _ _ (@array_insert_swap S)
      (fun _ => eq_refl) (fun _ _ _ _ => eq_refl) l a0 a E) as (d & P). exists d. rewrite (new_array_empty E0) in P. exact P.
  Qed.

  Lemma pop_back_app A (l : list A) x r : pop_back l = Some (x, r) -> l = r ++ [x].
  Proof.
    revert x r. induction l as [|y l IH]; intros x r; cbn [pop_back]; [discriminate|].
    destruct (pop_back l) as [[z t]|] eqn:E.
    - intros [= <- <-]. cbn. now rewrite <- (IH _ _ eq_refl).
    - intros [= <- <-]. destruct l as [|z l]; [reflexivity|]. cbn [pop_back] in E. destruct (pop_back l) as [[? ?]|]; discriminate E.
  Qed.
  Lemma enum_items A d (s s' : enumerate A) (o : option (K * A)) : enumerate_step O d s = Val (o, s') ->
    match o with
    | None => s' = s
    | Some (_, a) => e_items s = match d with Front => a :: e_items s' | Back => e_items s' ++ [a] end
    end.
  Proof.
    destruct d; cbn [enumerate_step]; unfold enumerate_next, enumerate_next_back.
    - destruct (e_items s) as [|x l] eqn:El; cbn [pop_front]; [intros [= <- <-]; reflexivity|].
      destruct (from_ordinal O (e_next s)) as [[k|]|w| | |]; try discriminate. cbn [bind unwrap].
      destruct (uadd (e_next s) 1) as [n|w| | |]; try discriminate. cbn [bind]. intros [= <- <-]. reflexivity.
    - destruct (pop_back (e_items s)) as [[x r]|] eqn:E; [|intros [= <- <-]; reflexivity].
      destruct (uadd (e_next s) (llen r)) as [n|w| | |]; try discriminate. cbn [bind].
      destruct (from_ordinal O n) as [[k|]|w| | |]; try discriminate. cbn [bind unwrap]. intros [= <- <-].
      exact (pop_back_app E).
  Qed.
  Lemma sparse_items d fuel : forall (s s' : enumerate (option V)) (o : option (K * V)),
    sparse_loop (enumerate_step O d) (fun o => Val o) fuel s = Val (o, s') ->
    Permutation (stored (e_items s)) (map snd (opt_list o) ++ stored (e_items s')).
  Proof.
    induction fuel as [|fuel IH]; intros s s' o; cbn [sparse_loop]; [discriminate|].
    destruct (enumerate_step O d s) as [[o1 s1]|w| | |] eqn:E1; try discriminate. cbn [bind]. apply enum_items in E1.
    destruct o1 as [[k [v|]]|]; cbn [bind].
    - intros [= <- <-]. rewrite E1. cbn. destruct d; [apply Permutation_refl|]. rewrite stored_app. cbn.
      apply Permutation_sym, Permutation_cons_append.
    - intros E. rewrite E1. replace (stored _) with (stored (e_items s1)); [exact (IH _ _ _ E)|].
      destruct d; [reflexivity|]. rewrite stored_app. cbn. now rewrite app_nil_r.
    - subst s1. intros [= <- <-]. apply Permutation_refl.
  Qed.
  Lemma consumed {It} (left : It -> list V) (step : dir -> It -> res (option (K * V) * It))
    (Hstep : forall d s s' o, step d s = Val (o, s') -> Permutation (left s) (map snd (opt_list o) ++ left s')) :
    forall sched s got s', drive step sched s = Val (got, s') -> Permutation (left s) (map snd (somes got) ++ left s').
  Proof.
    induction sched as [|d ds IH]; intros s got s'; cbn [drive]; [intros [= <- <-]; apply Permutation_refl|].
    destruct (step d s) as [[o s1]|w| | |] eqn:E1; try discriminate. cbn [bind].
    destruct (drive step ds s1) as [[os s2]|w| | |] eqn:E2; try discriminate. cbn [bind]. intros [= <- <-].
    change (somes (o :: os)) with (opt_list o ++ somes os). rewrite map_app, <- app_assoc.
    eapply Permutation_trans; [exact (Hstep _ _ _ _ E1)|]. apply Permutation_app_head. exact (IH _ _ _ E2).
  Qed.
  Lemma total_items d (s s' : enumerate V) (o : option (K * V)) : enumerate_step O d s = Val (o, s') ->
    Permutation (e_items s) (map snd (opt_list o) ++ e_items s').
  Proof.
    intros E. apply enum_items in E. destruct o as [[k v]|]; [|subst s'; apply Permutation_refl]. rewrite E. cbn.
    destruct d; [apply Permutation_refl|]. apply Permutation_sym, Permutation_cons_append.
  Qed.
  Lemma all_consumed (S : nat) (sched : list dir) (got : list (option (K * V))) :
    (forall (m : @OrdinalMap V) it, drive (IntoIter_step O) sched (OrdinalMap_into_iter m) = Val (got, it) ->
       Permutation (stored m) (map snd (somes got) ++ stored (e_items it))) /\
    (forall (m : @OrdinalArrayMap V S) it, drive (IntoIterArray_step O) sched (OrdinalArrayMap_into_iter m) = Val (got, it) ->
       Permutation (stored (arr_list m)) (map snd (somes got) ++ stored (e_items it))) /\
    (forall (m : @OrdinalTotalMap V) it, drive (TIntoIter_step O) sched (OrdinalTotalMap_into_iter m) = Val (got, it) ->
       Permutation m (map snd (somes got) ++ e_items it)) /\
    (forall (m : OrdinalTotalArrayMap S V) it, drive (TIntoIterArray_step O) sched (OrdinalTotalArrayMap_into_iter m) = Val (got, it) ->
       Permutation (arr_list m) (map snd (somes got) ++ e_items it)).
  Proof.
    repeat split; intros m it E.
    - exact (@consumed _ (fun s : enumerate (option V) => stored (e_items s)) _ (fun d s s' o => @sparse_items d _ s s' o) _ _ _ _ E).
    - exact (@consumed _ (fun s : enumerate (option V) => stored (e_items s)) _ (fun d s s' o => @sparse_items d _ s s' o) _ _ _ _ E).
    - exact (@consumed _ (fun s : enumerate V => e_items s) _ total_items _ _ _ _ E).
    - exact (@consumed _ (fun s : enumerate V => e_items s) _ total_items _ _ _ _ E).
  Qed.
End Ends.
