(** * BuildProofs2: programs on maps are the same on every target and in every build. *)
From Verif Require Import Base BaseProofs Spec SpecMap SpecTotal SpecCatch ModelOrdinal ModelValues
  ModelArrayBuilder ModelIter ModelTotal ModelMap ModelResume ModelUnwind ModelCatch MapMachine TotalMachine MapLib
  ArrayProofs BuildProofs.
From Coq Require Import List Lia. Import ListNotations.
Set Implicit Arguments.
Unset Strict Implicit.

(** ** Lengths *)
Definition keeps {M A} (I : M -> Prop) (a : act M A) : Prop := forall m, I m -> I (fst (a m)).
Lemma keeps_ret M A (I : M -> Prop) (a : A) : keeps I (ret a).
Proof. intros m H. exact H. Qed.
Lemma keeps_look M A (I : M -> Prop) (f : M -> res A) : keeps I (look f).
Proof. intros m H. exact H. Qed.
Lemma keeps_bind M A B (I : M -> Prop) (x : act M A) (f : A -> act M B) : keeps I x -> (forall a, keeps I (f a)) -> keeps I (abind x f).
Proof.
  intros H G m Hm. unfold abind. specialize (H m Hm). destruct (x m) as [m' [a|w| |]]; cbn in H |- *; try exact H. exact (G a m' H).
Qed.
Lemma keeps_replaces M A (I : M -> Prop) (f : M -> res (A * M)) :
  (forall m a m', I m -> f m = Val (a, m') -> I m') -> keeps I (replaces f).
Proof.
  intros H m Hm. unfold replaces, abind, look. destruct (f m) as [[a m']|w| | |] eqn:E; cbn; try exact Hm. exact (H _ _ _ Hm E).
Qed.
(** Reading the object and writing it back, changed. *)
Lemma keeps_update M A (I : M -> Prop) (f : M -> M) (a : A) : (forall m, I m -> I (f m)) ->
  keeps I (m <! look (fun m => Val m) ;; put (f m) ;;! ret a).
Proof. intros H m Hm. cbn. now apply H. Qed.

Definition len_is {A} (n : nat) (l : list A) : Prop := length l = n.
Lemma len_store A n (l : list A) i a : len_is n l -> len_is n (store_at l i a).
Proof. unfold len_is. now rewrite store_at_length. Qed.
Lemma len_write A n (l l' : list (option A)) i v : len_is n l -> write_some l i v = Val l' -> len_is n l'.
Proof.
  intros H. unfold write_some. destruct (deref l i) as [[x|]|w| | |]; cbn; try discriminate.
  intros [= <-]. now apply len_store.
Qed.
Lemma len_write_entries K V n (f : K -> V -> V) got : forall storage l st, len_is n storage ->
  write_entries f got storage = Val (l, st) -> len_is n st.
Proof.
  induction got as [|[[k i]|] got IH]; cbn; intros storage l st H E.
  - now injection E as _ <-.
  - destruct (deref storage i) as [[x|]|w| | |]; cbn in E; try discriminate.
    destruct (write_some storage i (f k x)) as [s1|w| | |] eqn:E1; cbn in E; try discriminate.
    destruct (write_entries f got s1) as [[l2 s2]|w| | |] eqn:E2; cbn in E; try discriminate.
    injection E as _ <-. exact (IH _ _ _ (len_write H E1) E2).
  - destruct (write_entries f got storage) as [[l2 s2]|w| | |] eqn:E2; cbn in E; try discriminate.
    injection E as _ <-. exact (IH _ _ _ H E2).
Qed.
Lemma len_write_values V n (f : V -> V) got : forall storage l st, len_is n storage ->
  write_values f got storage = Val (l, st) -> len_is n st.
Proof.
  induction got as [|[i|] got IH]; cbn; intros storage l st H E.
  - now injection E as _ <-.
  - destruct (deref storage i) as [[x|]|w| | |]; cbn in E; try discriminate.
    destruct (write_some storage i (f x)) as [s1|w| | |] eqn:E1; cbn in E; try discriminate.
    destruct (write_values f got s1) as [[l2 s2]|w| | |] eqn:E2; cbn in E; try discriminate.
    injection E as _ <-. exact (IH _ _ _ (len_write H E1) E2).
  - destruct (write_values f got storage) as [[l2 s2]|w| | |] eqn:E2; cbn in E; try discriminate.
    injection E as _ <-. exact (IH _ _ _ H E2).
Qed.
Lemma len_twrite_entries K V n (f : K -> V -> V) got : forall storage l st, len_is n storage ->
  twrite_entries f got storage = Val (l, st) -> len_is n st.
Proof.
  induction got as [|[[k i]|] got IH]; cbn; intros storage l st H E.
  - now injection E as _ <-.
  - destruct (deref storage i) as [x|w| | |]; cbn in E; try discriminate.
    destruct (twrite_entries f got (store_at storage i (f k x))) as [[l2 s2]|w| | |] eqn:E2; cbn in E; try discriminate.
    injection E as _ <-. exact (IH _ _ _ (len_store _ _ H) E2).
  - destruct (twrite_entries f got storage) as [[l2 s2]|w| | |] eqn:E2; cbn in E; try discriminate.
    injection E as _ <-. exact (IH _ _ _ H E2).
Qed.
Lemma len_twrite_values V n (f : V -> V) got : forall storage l st, len_is n storage ->
  twrite_values f got storage = Val (l, st) -> len_is n st.
Proof.
  induction got as [|[i|] got IH]; cbn; intros storage l st H E.
  - now injection E as _ <-.
  - destruct (deref storage i) as [x|w| | |]; cbn in E; try discriminate.
    destruct (twrite_values f got (store_at storage i (f x))) as [[l2 s2]|w| | |] eqn:E2; cbn in E; try discriminate.
    injection E as _ <-. exact (IH _ _ _ (len_store _ _ H) E2).
  - destruct (twrite_values f got storage) as [[l2 s2]|w| | |] eqn:E2; cbn in E; try discriminate.
    injection E as _ <-. exact (IH _ _ _ H E2).
Qed.

Section Drains.
  Context {cfg : Config} {U K V : Type} (from : U -> N -> U * res (option K)) (n : nat).

  Lemma len_resume d fuel : forall u (s : @Drain V), len_is n (fst s) -> len_is n (fst (snd (fst (drain_resume from d fuel (u, s))))).
  Proof.
    induction fuel as [|fuel IH]; intros u [st it] H; cbn [drain_resume]; [exact H|]. unfold Drain, TIterMut in *.
    destruct (enumerate_resume from d (u, it)) as [[u1 s1] q]. destruct q as [[[k i]|]|w| | |]; try exact H.
    destruct (deref st i) as [[v|]|w| | |]; try exact H.
    - cbn. apply len_store. exact H.
    - apply IH. cbn. apply len_store. exact H.
  Qed.
  Lemma len_calls sched : forall u (s : @Drain V), len_is n (fst s) -> len_is n (fst (snd (snd (fst (drain_calls from sched (u, s)))))).
  Proof.
    induction sched as [|r rs IH]; intros u s H; cbn [drain_calls]; [exact H|].
    pose proof (len_resume r (S (length (e_items (snd (snd (u, s)))))) u H) as L. unfold drain_resume_step.
    destruct (drain_resume from r (S (length (e_items (snd (snd (u, s)))))) (u, s)) as [[u1 s1] q]. cbn [fst snd] in L.
    destruct q as [o|w| | |]; try exact L. specialize (IH u1 s1 L).
    destruct (drain_calls from rs (u1, s1)) as [[l st] q]. exact IH.
  Qed.
  Lemma len_drop fuel : forall u (s : @Drain V), len_is n (fst s) -> len_is n (fst (snd (snd (fst (drain_drop_loop from fuel (u, s)))))).
  Proof.
    induction fuel as [|fuel IH]; intros u s H; cbn [drain_drop_loop]; [exact H|].
    pose proof (len_resume Front (S (length (e_items (snd (snd (u, s)))))) u H) as L. unfold drain_resume_step.
    destruct (drain_resume from Front (S (length (e_items (snd (snd (u, s)))))) (u, s)) as [[u1 s1] q]. cbn [fst snd] in L.
    destruct q as [[e|]|w| | |]; try exact L. specialize (IH u1 s1 L).
    destruct (drain_drop_loop from fuel (u1, s1)) as [[l st] q]. exact IH.
  Qed.
  Lemma len_use sched u (s : @Drain V) : len_is n (fst s) -> len_is n (snd (fst (drain_use from sched (u, s)))).
  Proof.
    intros H. unfold drain_use. pose proof (len_calls sched u H) as L.
    destruct (drain_calls from sched (u, s)) as [[l [u1 s1]] q]. cbn [fst snd] in L. unfold drain_drop_resume.
    pose proof (len_drop (S (length (e_items (snd (snd (u1, s1)))))) u1 L) as L1.
    destruct (drain_drop_loop from (S (length (e_items (snd (snd (u1, s1)))))) (u1, s1)) as [[l2 [u2 [st2 it2]]] q2]. exact L1.
  Qed.
End Drains.

Section Keep.
  Context {cfg : Config} {K V : Type} (O : Ordinal K).

  Lemma len_drain_act n sched leak : keeps (len_is n) (@drain_act cfg K V O sched leak).
  Proof.
    intros m H. unfold drain_act.
    pose proof (len_calls (pure_from O) sched tt (s := Drain_new m (TIterMut_new (slots (length m)))) H) as L.
    pose proof (len_use (pure_from O) sched tt (s := Drain_new m (TIterMut_new (slots (length m)))) H) as L1.
    destruct (drain_calls (pure_from O) sched (tt, Drain_new m (TIterMut_new (slots (length m))))) as [[got st1] r].
    destruct (drain_use (pure_from O) sched (tt, Drain_new m (TIterMut_new (slots (length m))))) as [[[got' dr] st'] f].
    cbn [fst snd] in *. destruct r as [[]|w| | |]; [destruct leak|..]; assumption.
  Qed.
  Lemma len_clear_act n : keeps (len_is n) (@clear_act cfg K V O).
  Proof.
    intros m H. unfold clear_act, clear_map, drain_map.
    pose proof (len_use (pure_from O) [] tt (s := Drain_new m (TIterMut_new (slots (length m)))) H) as L1.
    destruct (drain_use (pure_from O) [] (tt, Drain_new m (TIterMut_new (slots (length m))))) as [[[got' dr] st'] f]. exact L1.
  Qed.

  Context (M : N) (HM : forall n, ORDINAL_SIZE O = Val n -> n <= M).

  Lemma short_len (m : list (option V)) : short M m <-> exists n, N.of_nat n <= M /\ len_is n m.
  Proof using.
    clear. unfold short, llen, len_is. split; [intros H; exists (length m); now split|]. intros (n & H & <-). exact H.
  Qed.
  Lemma short_keeps A (a : act (list (option V)) A) : (forall n, keeps (len_is n) a) -> keeps (short M) a.
  Proof using. intros H m Hm. apply short_len in Hm. destruct Hm as (n & L & Hm). apply short_len. exists n. split; [exact L|]. now apply H. Qed.
  Lemma short_init : keeps (short M) (@OrdinalMap_init_full_map_act K V O).
  Proof using HM.
    intros m H. cbv [OrdinalMap_init_full_map_act abind look put ret]. destruct (ORDINAL_SIZE O) as [n|w| | |] eqn:E; cbn; try exact H.
    destruct (llen m =? 0); cbn; [|exact H]. unfold short, llen. rewrite repeat_length, N2Nat.id. now apply HM.
  Qed.
  Lemma short_store (m : list (option V)) i v : short M m -> short M (store_at m i v).
  Proof using. unfold short, llen. now rewrite store_at_length. Qed.
  Lemma short_entry k : keeps (short M) (@OrdinalMap_entry_act K V O k).
  Proof using HM.
    unfold OrdinalMap_entry_act. apply keeps_bind; [exact short_init|]. intros _. repeat (apply keeps_bind; [apply keeps_look|intros]).
    apply keeps_look.
  Qed.
  Lemma short_match e v w (o : map_out K V) m m' : short M m -> entry_match m e v w = Val (o, m') -> short M m'.
  Proof using.
    clear. intros H. destruct e as [e|e]; cbn [entry_match].
    - destruct (OccupiedEntry_get m e) as [x|u| | |]; cbn; try discriminate.
      destruct (OccupiedEntry_get_mut m e) as [i|u| | |]; cbn; try discriminate.
      destruct (write_some m i w) as [s1|u| | |] eqn:E; cbn; try discriminate. intros [= _ <-].
      unfold short, llen. rewrite (len_write (n := length m) eq_refl E). exact H.
    - unfold VacantEntry_insert. destruct (deref m (v_entry e)) as [x|u| | |]; cbn; try discriminate. intros [= _ <-]. now apply short_store.
  Qed.
  Lemma short_or_insert e v w (o : map_out K V) m m' : short M m -> entry_or_insert m e v w = Val (o, m') -> short M m'.
  Proof using.
    clear. intros H. unfold entry_or_insert. destruct (Entry_or_insert m e v) as [[i s]|u| | |] eqn:E; cbn; try discriminate.
    assert (Hs : short M s).
    { destruct e as [e|e]; cbn in E.
      - destruct (deref m (o_entry e)) as [[x|]|u| | |]; cbn in E; try discriminate. now injection E as _ <-.
      - destruct (deref m (v_entry e)) as [x|u| | |]; cbn in E; try discriminate. injection E as _ <-. now apply short_store. }
    destruct (deref s i) as [x|u| | |]; cbn; try discriminate.
    destruct (write_some s i w) as [s1|u| | |] eqn:E1; cbn; try discriminate. intros [= _ <-].
    unfold short, llen. rewrite (len_write (n := length s) eq_refl E1). exact Hs.
  Qed.
  Lemma short_heap_act op : keeps (short M) (@heap_act cfg K V O op).
  Proof using HM.
    destruct op; cbn [heap_act].
    - apply keeps_bind; [|intros; apply keeps_ret]. unfold OrdinalMap_insert_act. apply keeps_bind; [exact short_init|intros _].
      do 2 (apply keeps_bind; [apply keeps_look|intros]). apply keeps_update. intros m. apply short_store.
    - apply keeps_replaces. intros m a m' H. cbn [heap_step]. destruct (OrdinalMap_get O m k) as [x|w| | |]; cbn; try discriminate. now intros [= _ <-].
    - apply keeps_replaces. intros m a m' H. cbn [heap_step]. destruct (OrdinalMap_get_mut O m k) as [[i|]|w| | |]; cbn; try discriminate.
      + destruct (deref m i) as [x|w| | |]; cbn; try discriminate. destruct (write_some m i v) as [s1|w| | |] eqn:E; cbn; try discriminate.
        intros [= _ <-]. unfold short, llen. rewrite (len_write (n := length m) eq_refl E). exact H.
      + now intros [= _ <-].
    - apply keeps_replaces. intros m a m' H. cbn [heap_step]. destruct (OrdinalMap_contains_key O m k) as [x|w| | |]; cbn; try discriminate. now intros [= _ <-].
    - apply keeps_bind; [|intros; apply keeps_ret]. unfold OrdinalMap_remove_act. do 2 (apply keeps_bind; [apply keeps_look|intros]).
      destruct a0 as [o|]; [|apply keeps_ret]. apply keeps_update. intros m. apply short_store.
    - apply keeps_replaces. intros m a m' H. cbn [heap_step]. destruct (OrdinalMap_len O m) as [x|w| | |]; cbn; try discriminate. now intros [= _ <-].
    - apply keeps_replaces. intros m a m' H. cbn [heap_step]. destruct (OrdinalMap_is_empty O m) as [x|w| | |]; cbn; try discriminate. now intros [= _ <-].
    - apply short_keeps. intros n. apply len_clear_act.
    - apply short_keeps. intros n. apply len_drain_act.
    - apply keeps_replaces. intros m a m' H. cbn [heap_step]. destruct (drive (Iter_step O) sched (OrdinalMap_iter m)) as [[x s]|w| | |]; cbn; try discriminate. now intros [= _ <-].
    - apply keeps_replaces. intros m a m' H. cbn [heap_step]. destruct (drive (Keys_step O) sched (OrdinalMap_keys m)) as [[x s]|w| | |]; cbn; try discriminate. now intros [= _ <-].
    - apply keeps_replaces. intros m a m' H. cbn [heap_step]. destruct (drive (Values_step O) sched (OrdinalMap_values m)) as [[x s]|w| | |]; cbn; try discriminate. now intros [= _ <-].
    - apply keeps_replaces. intros m a m' H. cbn [heap_step]. destruct (drive (IterMut_step O m) sched (OrdinalMap_iter_mut m)) as [[x s]|w| | |]; cbn; try discriminate.
      destruct (write_entries f x m) as [[l s1]|w| | |] eqn:E; cbn; try discriminate. intros [= _ <-].
      unfold short, llen. rewrite (len_write_entries (n := length m) eq_refl E). exact H.
    - apply keeps_replaces. intros m a m' H. cbn [heap_step]. destruct (drive (ValuesMut_step O m) sched (OrdinalMap_values_mut m)) as [[x s]|w| | |]; cbn; try discriminate.
      destruct (write_values f x m) as [[l s1]|w| | |] eqn:E; cbn; try discriminate. intros [= _ <-].
      unfold short, llen. rewrite (len_write_values (n := length m) eq_refl E). exact H.
    - apply keeps_bind; [exact (@short_entry k)|intros; apply keeps_ret].
    - apply keeps_bind; [exact (@short_entry k)|]. intros e. apply keeps_replaces. intros m a m'. apply short_match.
    - apply keeps_bind; [exact (@short_entry k)|]. intros e. apply keeps_replaces. intros m a m'. apply short_or_insert.
    - apply keeps_replaces. intros m a m' H. discriminate.
    - apply keeps_replaces. intros m a m' H [= _ <-]. unfold short, llen, OrdinalMap_clone. now rewrite map_length.
    - apply keeps_replaces. intros m a m' H. cbn [heap_step]. destruct (OrdinalMap_debug O m) as [x|w| | |]; cbn; try discriminate. now intros [= _ <-].
  Qed.

  Lemma short_htotal_act op : keeps (short M) (@htotal_act cfg K V O op).
  Proof using.
    clear HM. assert (St : forall (m : list V) i v, short M m -> short M (store_at m i v)).
    { intros m i v. unfold short, llen. now rewrite store_at_length. }
    destruct op; cbn [htotal_act]; try (apply keeps_replaces; intros m a m' H; cbn [htotal_step]).
    - destruct (OrdinalTotalMap_get O m k) as [x|w| | |]; cbn; try discriminate. now intros [= _ <-].
    - destruct (OrdinalTotalMap_index O m k) as [x|w| | |]; cbn; try discriminate. now intros [= _ <-].
    - destruct (OrdinalTotalMap_get_mut O m k) as [x|w| | |]; cbn; try discriminate.
      destruct (deref m x) as [y|w| | |]; cbn; try discriminate. intros [= _ <-]. now apply St.
    - destruct (OrdinalTotalMap_index_mut O m k) as [x|w| | |]; cbn; try discriminate.
      destruct (deref m x) as [y|w| | |]; cbn; try discriminate. intros [= _ <-]. now apply St.
    - apply keeps_bind; [|intros; apply keeps_ret]. unfold OrdinalTotalMap_insert_act.
      do 2 (apply keeps_bind; [apply keeps_look|intros]). apply keeps_update. intros m. apply St.
    - destruct (OrdinalTotalMap_len O m) as [x|w| | |]; cbn; try discriminate. now intros [= _ <-].
    - destruct (OrdinalTotalMap_is_empty O m) as [x|w| | |]; cbn; try discriminate. now intros [= _ <-].
    - destruct (drive (TIter_step O) sched (OrdinalTotalMap_iter m)) as [[x s]|w| | |]; cbn; try discriminate. now intros [= _ <-].
    - destruct (drive (TIterMut_step O) sched (OrdinalTotalMap_iter_mut m)) as [[x s]|w| | |]; cbn; try discriminate.
      destruct (twrite_entries f x m) as [[l s1]|w| | |] eqn:E; cbn; try discriminate. intros [= _ <-].
      unfold short, llen. rewrite (len_twrite_entries (n := length m) eq_refl E). exact H.
    - destruct (drive slice_step sched (OrdinalTotalMap_values_mut m)) as [[x s]|w| | |]; cbn; try discriminate.
      destruct (twrite_values f x m) as [[l s1]|w| | |] eqn:E; cbn; try discriminate. intros [= _ <-].
      unfold short, llen. rewrite (len_twrite_values (n := length m) eq_refl E). exact H.
    - destruct (OrdinalTotalMap_keys O m) as [it|w| | |]; cbn; try discriminate.
      destruct (drive (values_step O) sched it) as [[x s]|w| | |]; cbn; try discriminate. now intros [= _ <-].
    - destruct (drive slice_step sched (OrdinalTotalMap_values m)) as [[x s]|w| | |]; cbn; try discriminate. now intros [= _ <-].
    - intros [= _ <-]. unfold short, llen, OrdinalTotalMap_clone. now rewrite map_length.
    - destruct (OrdinalTotalMap_debug O m) as [x|w| | |]; cbn; try discriminate. now intros [= _ <-].
  Qed.
End Keep.

(** ** Programs *)
Lemma same_run Op M Out (I : M -> Prop) (P : Op -> Prop) (f g : Op -> act M Out) :
  (forall op m, P op -> I m -> f op m = g op m) -> (forall op, P op -> keeps I (f op)) ->
  forall ops m, Forall P ops -> I m -> catch_run f ops m = catch_run g ops m.
Proof.
  intros H G. induction ops as [|op ops IH]; intros m Ho Hm; cbn; [reflexivity|]. inversion Ho as [|? ? H1 H2]; subst.
  rewrite <- (H op m H1 Hm). pose proof (G op H1 m Hm) as L. destruct (f op m) as [m' e]. cbn in L. now rewrite (IH m' H2 L).
Qed.
