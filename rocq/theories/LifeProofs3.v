(** * LifeProofs3: programs; the beginning and the end of a map. *)
From Verif Require Import Base BaseProofs Spec SpecMem SpecMap SpecTotal SpecCatch SpecResume SpecLedger SpecLife ModelOrdinal ModelValues
  ModelArrayBuilder ModelIter ModelTotal ModelMap ModelDrop ModelResume ModelUnwind ModelCatch MapMachine TotalMachine ModelLife
  ArrayProofs ResumeProofs UnwindProofs2 CatchProofs5 LedgerProofs LedgerProofs2 LedgerProofs3 LifeProofs LifeProofs2.
From Coq Require Import List Lia Permutation. Import ListNotations.
Set Implicit Arguments.
Unset Strict Implicit.

(** ** Programs *)
Section Programs.
  Context {Op M Out V : Type} (step : Op -> act (list V * M) Out) (held : M -> list V)
    (account : Op -> seen Out -> list V -> list V -> list V -> list V -> list V -> Prop).
  Context (Hret : forall op log m log' m' o, step op (log, m) = ((log', m'), Ended o) ->
    exists g t ds, log' = log ++ ds /\ account op (Seen o) (held m) g t ds (held m') /\ balanced (held m) g t ds (held m')).
  Context (Hpan : forall op log m log' m' w, step op (log, m) = ((log', m'), Unwinds w) ->
    exists g t ds, log' = log ++ ds /\ account op (Caught w) (held m) g t ds (held m') /\ balanced (held m) g t ds (held m')).

  Lemma life_program ops : forall log m outs log' m', catch_run step ops (log, m) = Some (outs, (log', m')) ->
    exists gs ts ds, log' = log ++ ds /\ books account ops outs (held m) gs ts ds (held m').
  Proof.
    induction ops as [|op ops IH]; intros log m outs log' m'; cbn [catch_run].
    - intros [= <- <- <-]. exists [], [], []. rewrite app_nil_r. split; [reflexivity|constructor].
    - destruct (step op (log, m)) as [[log1 m1] [o|w| |]] eqn:E; try discriminate.
      1: destruct (Hret E) as (g & t & d & -> & A & B).
      2: destruct (Hpan E) as (g & t & d & -> & A & B).
      all: destruct (catch_run step ops (log ++ d, m1)) as [[l [log2 m2]]|] eqn:E2; [|discriminate]; intros [= <- <- <-];
        destruct (IH _ _ _ _ _ E2) as (gs & ts & ds & -> & H); exists (g ++ gs), (t ++ ts), (d ++ ds);
        (split; [now rewrite app_assoc|eapply books_call; eassumption]).
  Qed.
  Lemma life_program_law ops log m outs log' m' : catch_run step ops (log, m) = Some (outs, (log', m')) ->
    exists gs ts ds, log' = log ++ ds /\ books account ops outs (held m) gs ts ds (held m') /\ balanced (held m) gs ts ds (held m').
  Proof.
    intros E. destruct (life_program E) as (gs & ts & ds & H & B). exists gs, ts, ds. split; [exact H|]. split; [exact B|exact (books_balanced B)].
  Qed.
End Programs.

Section Instances.
  Context {V : Type} (boom : list V -> V -> option panic) {cfg : Config} {K : Type}.
  Lemma heap_life_books (ops : list (Ordinal K * map_op K V)) log (m : @OrdinalMap V) outs log' m' :
    catch_run (fun p => heap_life boom (fst p) (snd p)) ops (log, m) = Some (outs, (log', m')) ->
    exists gs ts ds, log' = log ++ ds /\ books (fun p => life_account (snd p)) ops outs (stored m) gs ts ds (stored m') /\
      balanced (stored m) gs ts ds (stored m').
  Proof.
    apply (@life_program_law _ _ _ _ _ (@stored V) (fun p => life_account (snd p))).
    - intros [O op] l1 m1 l2 m2 o E. exact (heap_life_law E).
    - intros [O op] l1 m1 l2 m2 w E. exact (heap_life_law E).
  Qed.
  Lemma array_life_books S (ops : list (Ordinal K * map_op K V)) log (m : @OrdinalArrayMap V S) outs log' m' :
    catch_run (fun p => array_life boom (fst p) (S := S) (snd p)) ops (log, m) = Some (outs, (log', m')) ->
    exists gs ts ds, log' = log ++ ds /\
      books (fun p => life_account (snd p)) ops outs (stored (arr_list m)) gs ts ds (stored (arr_list m')) /\
      balanced (stored (arr_list m)) gs ts ds (stored (arr_list m')).
  Proof.
    apply (@life_program_law _ _ _ _ _ (fun m : @OrdinalArrayMap V S => stored (arr_list m)) (fun p => life_account (snd p))).
    - intros [O op] l1 m1 l2 m2 o E. exact (array_life_law E).
    - intros [O op] l1 m1 l2 m2 w E. exact (array_life_law E).
  Qed.
  Lemma htotal_life_books (ops : list (Ordinal K * total_op K V)) log (m : @OrdinalTotalMap V) outs log' m' :
    catch_run (fun p => htotal_life boom (fst p) (snd p)) ops (log, m) = Some (outs, (log', m')) ->
    exists gs ts ds, log' = log ++ ds /\ books (fun p => total_life_account (snd p)) ops outs m gs ts ds m' /\ balanced m gs ts ds m'.
  Proof.
    apply (@life_program_law _ _ _ _ _ (fun m : @OrdinalTotalMap V => m) (fun p => total_life_account (snd p))).
    - intros [O op] l1 m1 l2 m2 o E. exact (htotal_life_law E).
    - intros [O op] l1 m1 l2 m2 w E. exact (htotal_life_law E).
  Qed.
  Lemma atotal_life_books S (ops : list (Ordinal K * total_op K V)) log (m : OrdinalTotalArrayMap S V) outs log' m' :
    catch_run (fun p => atotal_life boom (fst p) (S := S) (snd p)) ops (log, m) = Some (outs, (log', m')) ->
    exists gs ts ds, log' = log ++ ds /\ books (fun p => total_life_account (snd p)) ops outs (arr_list m) gs ts ds (arr_list m') /\
      balanced (arr_list m) gs ts ds (arr_list m').
  Proof.
    apply (@life_program_law _ _ _ _ _ (fun m : OrdinalTotalArrayMap S V => arr_list m) (fun p => total_life_account (snd p))).
    - intros [O op] l1 m1 l2 m2 o E. exact (atotal_life_law E).
    - intros [O op] l1 m1 l2 m2 w E. exact (atotal_life_law E).
  Qed.
End Instances.

(** ** Collecting *)
Section Collect.
  Context {V : Type} (boom : list V -> V -> option panic) {cfg : Config} {K : Type} (O : Ordinal K).

  Section Loop.
    Context {M : Type} (held : M -> list V) (insert : K -> V -> act M (option V)).
    Context (Hins : forall k v m m' o, insert k v m = (m', Ended o) -> Permutation (held m ++ [v]) (opt_list o ++ held m')).
    Context (Hpan : forall k v m m' w, insert k v m = (m', Unwinds w) -> Permutation (held m) (held m')).
    Context (Hup : forall k v, holds_up (insert k v)).

    Lemma body_law k v (l : list (K * V)) log m log' m' e :
      owning boom (map snd l) (old <! owning boom [v] (calm (insert k v)) ;; match old with Some o => destroy boom o | None => ret tt end) (log, m)
        = ((log', m'), e) ->
      match e with
      | Ended _ => exists ds, log' = log ++ ds /\ Permutation (held m ++ [v]) (ds ++ held m')
      | Unwinds _ => exists ds, log' = log ++ ds /\ Permutation (held m ++ v :: map snd l) (ds ++ held m')
      | Aborts => exists ds rest, log' = log ++ ds /\ Permutation (held m ++ v :: map snd l) (ds ++ rest)
      | Stuck => True
      end.
    Proof.
      intros E. apply owning_law in E. destruct E as (log1 & m1 & e1 & E & H).
      (* what the statement itself does *)
      assert (X : match e1 with
        | Ended _ | Unwinds _ => exists ds, log1 = log ++ ds /\ Permutation (held m ++ [v]) (ds ++ held m1)
        | Aborts => exists ds rest, log1 = log ++ ds /\ Permutation (held m ++ [v]) (ds ++ rest)
        | Stuck => True
        end).
      { revert E. unfold abind. destruct (owning boom [v] (calm (insert k v)) (log, m)) as [[log2 m2] e2] eqn:E2.
        apply owning_law in E2. destruct E2 as (log3 & m3 & e3 & E3 & H3). apply calm_law in E3. destruct E3 as (m4 & E4 & [= -> ->]).
        destruct e3 as [o|w| |].
        - destruct H3 as [-> [= -> ->]]. pose proof (Hins E4) as P. destruct o as [o|].
          + destruct (destroy boom o (log, m4)) as [s5 e5] eqn:E5. apply destroy_law in E5. destruct E5 as [-> [-> | (w & -> & _)]];
              intros [= <- <- <-]; exists [o]; split; [reflexivity|exact P|reflexivity|exact P].
          + intros [= <- <- <-]. exists []. rewrite app_nil_r. split; [reflexivity|exact P].
        - pose proof (Hpan E4) as P. destruct H3 as [[-> [= -> ->]] | (-> & a & b & Q & [= -> ->])]; intros [= <- <- <-].
          + exists [v]. split; [reflexivity|]. cbn [app]. eapply Permutation_trans; [apply Permutation_app_comm|]. cbn [app]. now apply perm_skip.
          + exists a, (b ++ held m4). split; [reflexivity|]. rewrite app_assoc, <- Q. cbn [app].
            eapply Permutation_trans; [apply Permutation_app_comm|]. cbn [app]. now apply perm_skip.
        - destruct (@Hup k v m). now rewrite E4.
        - destruct H3 as [-> [= -> ->]]. intros [= <- <- <-]. exact I. }
      destruct e1 as [u|w| |].
      - destruct H as [-> [= -> ->]]. exact X.
      - destruct X as (ds & -> & P).
        assert (P2 : Permutation (held m ++ v :: map snd l) (ds ++ map snd l ++ held m1)).
        { change (v :: map snd l) with ([v] ++ map snd l). rewrite app_assoc. eapply Permutation_trans; [apply Permutation_app_tail, P|].
          rewrite <- app_assoc. apply Permutation_app_head, Permutation_app_comm. }
        destruct H as [[-> [= -> ->]] | (-> & a & b & Q & [= -> ->])].
        + exists (ds ++ map snd l). rewrite <- !app_assoc. split; [reflexivity|exact P2].
        + exists (ds ++ a), (b ++ held m1). rewrite <- !app_assoc. split; [reflexivity|]. rewrite Q in P2 at 2. now rewrite <- app_assoc in P2.
      - destruct H as [-> [= -> ->]]. destruct X as (ds & rest & -> & P). exists ds, (rest ++ map snd l). split; [reflexivity|].
        change (v :: map snd l) with ([v] ++ map snd l). rewrite !app_assoc. apply Permutation_app_tail. exact P.
      - destruct H as [-> _]. exact I.
    Qed.
    Lemma loop_law l : forall log m log' m' e, from_iter_loop_life boom insert l (log, m) = ((log', m'), e) ->
      match e with
      | Ended _ | Unwinds _ => exists ds, log' = log ++ ds /\ Permutation (held m ++ map snd l) (ds ++ held m')
      | Aborts => exists ds rest, log' = log ++ ds /\ Permutation (held m ++ map snd l) (ds ++ rest)
      | Stuck => True
      end.
    Proof.
      induction l as [|[k v] l IH]; intros log m log' m' e; cbn [from_iter_loop_life map snd].
      - intros [= <- <- <-]. exists []. rewrite !app_nil_r. split; [reflexivity|apply Permutation_refl].
      - unfold abind at 1. destruct (owning boom (map snd l) _ (log, m)) as [[log1 m1] e1] eqn:E1. apply body_law in E1.
        destruct e1 as [u|w| |]; try (intros [= <- <- <-]; exact E1).
        destruct E1 as (ds & -> & P). intros E. apply IH in E.
        assert (P1 : forall ds2 rest, Permutation (held m1 ++ map snd l) (ds2 ++ rest) ->
          Permutation (held m ++ v :: map snd l) ((ds ++ ds2) ++ rest)).
        { intros ds2 rest P2. change (v :: map snd l) with ([v] ++ map snd l). rewrite app_assoc.
          eapply Permutation_trans; [apply Permutation_app_tail, P|]. rewrite <- !app_assoc. apply Permutation_app_head. exact P2. }
        destruct e as [u2|w| |]; try exact I.
        + destruct E as (ds2 & -> & P2). exists (ds ++ ds2). split; [now rewrite app_assoc|]. exact (P1 _ _ P2).
        + destruct E as (ds2 & -> & P2). exists (ds ++ ds2). split; [now rewrite app_assoc|]. exact (P1 _ _ P2).
        + destruct E as (ds2 & rest & -> & P2). exists (ds ++ ds2), rest. split; [now rewrite app_assoc|]. exact (P1 _ _ P2).
    Qed.
    Definition begun (given log : list V) (e : ending M) (log' : list V) : Prop :=
      match e with
      | Ended m => exists ds, log' = log ++ ds /\ Permutation given (ds ++ held m)
      | Unwinds _ => exists ds, log' = log ++ ds /\ Permutation given ds
      | Aborts => exists ds rest, log' = log ++ ds /\ Permutation given (ds ++ rest)
      | Stuck => True
      end.
    Lemma from_iter_law m0 l log u s' e : held m0 = [] -> from_iter_life boom held insert m0 l (log, u) = (s', e) ->
      begun (map snd l) log e (fst s').
    Proof.
      intros H0. unfold from_iter_life. destruct (from_iter_loop_life boom insert l (log, m0)) as [[log1 m1] e1] eqn:E1. apply loop_law in E1.
      rewrite H0 in E1. cbn [app] in E1. destruct e1 as [[]|w| |].
      - intros [= <- <-]. exact E1.
      - destruct E1 as (ds & -> & P). intros E. destruct (unwinding_glue_law E) as [[-> ->] | (-> & a & b & Q & ->)]; cbn [fst begun].
        + exists (ds ++ held m1). split; [now rewrite app_assoc|exact P].
        + exists (ds ++ a), b. split; [now rewrite app_assoc|]. rewrite <- app_assoc, <- Q. exact P.
      - intros [= <- <-]. exact E1.
      - intros [= <- <-]. exact I.
    Qed.
  End Loop.

  Lemma insert_up k (v : V) : holds_up (OrdinalMap_insert_act O k v).
  Proof. unfold OrdinalMap_insert_act, OrdinalMap_init_full_map_act. up. Qed.
  Lemma array_insert_up S k (v : V) : holds_up (OrdinalArrayMap_insert_act O (S := S) k v).
  Proof. unfold OrdinalArrayMap_insert_act. up. Qed.
  Lemma heap_begun l log u s' e : heap_from_iter_life boom O l (log, u) = (s', e) -> begun (@stored V) (map snd l) log e (fst s').
  Proof.
    apply from_iter_law; [| |exact insert_up|reflexivity].
    - intros k v m m' o E. destruct (@heap_returns cfg K V O (OpInsert k v) m m' (OutValue o)) as (g & t & d & A & B).
      + cbn [heap_act]. unfold abind. rewrite E. reflexivity.
      + destruct A as (o' & [= <-] & -> & -> & ->). exact B.
    - intros k v m m' w E. destruct (@heap_panics cfg K V O (OpInsert k v) m m' w) as (g & t & d & A & B).
      + cbn [heap_act]. unfold abind. rewrite E. reflexivity.
      + destruct A as (-> & -> & ->). unfold balanced in B. now rewrite app_nil_r in B.
  Qed.
  Lemma array_begun S l log u s' e : array_from_iter_life boom O S l (log, u) = (s', e) ->
    begun (fun m : @OrdinalArrayMap V S => stored (arr_list m)) (map snd l) log e (fst s').
  Proof.
    unfold array_from_iter_life, abind. destruct (owning boom (map snd l) _ (log, u)) as [[log1 u1] e1] eqn:E1. apply owning_law in E1.
    destruct E1 as (log2 & u2 & e2 & E2 & H). unfold look in E2. injection E2 as <- <- <-.
    destruct (OrdinalArrayMap_new O S) as [m0|w| | |] eqn:E0; cbn [ending_of] in H.
    2: { destruct H as [[-> [= -> ->]] | (-> & a & b & Q & [= -> ->])]; intros [= <- <-]; cbn [fst begun].
         - exists (map snd l). split; [reflexivity|apply Permutation_refl].
         - exists a, b. split; [reflexivity|]. rewrite Q. apply Permutation_refl. }
    2-4: destruct H as [-> _]; intros [= <- <-]; exact I.
    destruct H as [-> [= -> ->]].
    apply from_iter_law; [| |exact (@array_insert_up S)|exact (new_array_empty E0)].
    - intros k v m m' o E. destruct (@array_returns cfg K V O S (OpInsert k v) m m' (OutValue o)) as (g & t & d & A & B).
      + cbn [array_act]. unfold abind. rewrite E. reflexivity.
      + destruct A as (o' & [= <-] & -> & -> & ->). exact B.
    - intros k v m m' w E. destruct (@array_panics cfg K V O S (OpInsert k v) m m' w) as (g & t & d & A & B).
      + cbn [array_act]. unfold abind. rewrite E. reflexivity.
      + destruct A as (-> & -> & ->). unfold balanced in B. now rewrite app_nil_r in B.
  Qed.
End Collect.
