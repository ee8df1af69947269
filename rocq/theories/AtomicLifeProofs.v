(** * AtomicLifeProofs: lemmas for C116. *)
From Verif Require Import Base Spec SpecAtomic SpecAtomicAny SpecCatch SpecLifeRun SpecLifeEnds SpecAtomicLife ModelAtomic ModelCatch ModelLife ModelAtomicLife
  LifeProofs5 LifeProofs6.
From Coq Require Import List. Import ListNotations.
Set Implicit Arguments. Unset Strict Implicit.

Section Scopes.
  Context {T M : Type} (boom : list T -> T -> option panic).
  Notation at_ m p := ((fst p, m), ends_as (snd p)).

  Lemma then_then A B C (x : act (list T * M) A) (f : A -> act (list T * M) B) (k : B -> act (list T * M) C) s :
    abind (abind x f) k s = abind x (fun a => abind (f a) k) s.
  Proof. unfold abind. destruct (x s) as [s' []]; reflexivity. Qed.
  Lemma ends_bind A B w (log : list T) (m : M) ts (k : A -> act (list T * M) B) :
    match at_ m (@lost T boom A w log ts) with (s, Ended a) => k a s | (s, Unwinds u) => (s, Unwinds u) | (s, Aborts) => (s, Aborts) | (s, Stuck) => (s, Stuck) end
    = at_ m (@lost T boom B w log ts).
  Proof. rewrite !lost_log, !lost_end. destruct (snd _); reflexivity. Qed.
  Lemma returning_is A (a : A) rs ts : forall log (m : M),
    (owning boom rs (glue boom ts) ;;! ret a) (log, m) = at_ m (returning boom log ts rs a).
  Proof.
    induction ts as [|t ts IH]; intros log m; [reflexivity|]. cbn [returning]. destruct (boom log t) as [w|] eqn:B.
    - unfold abind at 1. rewrite (@owning_twice T M boom unit ts rs w (glue boom (t :: ts)) log m (log ++ [t]) m).
      + apply (ends_bind (A := unit) w (log ++ [t]) m (ts ++ rs) (fun _ => ret a)).
      + cbn [glue]. unfold destroy at 1, destructor. rewrite B. cbn [ending_of]. apply lost_is.
    - rewrite <- IH. unfold abind, owning. cbn [glue]. unfold destroy at 1, destructor. rewrite B. reflexivity.
  Qed.
  Lemma destroy_returning A (a : A) t log (m : M) : (destroy boom t ;;! ret a) (log, m) = at_ m (returning boom log [t] [] a).
  Proof.
    rewrite <- returning_is. unfold abind, owning. cbn [glue]. unfold destroy, destructor. destruct (boom log t); reflexivity.
  Qed.
  (** A method that owns [ts]. *)
  Lemma scope A B ts (body : act (list T * M) A) (k : A -> act (list T * M) B) log m m' (x : A + panic) :
    body (log, m) = ((log, m'), match x with inl a => Ended a | inr w => Unwinds w end) ->
    abind (owning boom ts body) k (log, m) = match x with inl a => k a (log, m') | inr w => at_ m' (@lost T boom B w log ts) end.
  Proof.
    intros E. unfold abind at 1. destruct x as [a|w].
    - now rewrite (owning_ended boom ts E).
    - rewrite (@owning_lost T M boom A ts w body log m log m' E). apply ends_bind.
  Qed.
End Scopes.

Section Proofs.
  Context {T : Type} (boom : list T -> T -> option panic) (d : bool) (shows : T -> option panic) (O : Ordinal T).
  Notation at_ m p := ((fst p, m), ends_as (snd p)).

  Lemma new_is {M} (t : T) (log : list T) (m : M) : answers O ->
    new_owned boom O t (log, m) = at_ m (match ordinal O t with Panic w => lost boom w log [t] | Val i => returning boom log [t] [] i | _ => (log, None) end).
  Proof.
    intros [Ho _]. specialize (Ho t). unfold new_owned, AtomicOrdinal_new.
    destruct (ordinal O t) as [i|w| | |]; try contradiction.
    - erewrite (@scope _ _ boom _ _ _ _ _ _ _ _ (inl i)); [apply destroy_returning|reflexivity].
    - erewrite (@scope _ _ boom _ _ _ _ _ _ _ _ (inr w)); reflexivity.
  Qed.
  Lemma call_is (c : call T) (log : list T) (i : N) : answers O ->
    call_owned boom d shows O c (log, i) = let '(s', x) := atomic_step boom d shows O c (log, i) in (s', ends_as x).
  Proof.
    intros A. pose proof A as [Ho Hf]. destruct c as [o|t o|old new s f|].
    - specialize (Hf i). unfold call_owned, load_owned, atomic_step, before, effect, handed, asks, calm, sc_apply, abind, look, ret, decode.
      destruct o; cbn; destruct (from_ordinal O i) as [[t|]|w| | |]; try contradiction; reflexivity.
    - specialize (Ho t). unfold call_owned, store_owned, atomic_step, before, effect, no_number, arguments.
      assert (N0 : (if d then results (@OUnit T) else []) = @nil T) by (destruct d; reflexivity).
      assert (Sc : forall body m' x, body (log, i) = ((log, m'), match x with inl a => Ended a | inr w => Unwinds w end) ->
        ((owning boom [t] body ;;! destroy boom t) ;;! ret (@OUnit T)) (log, i) =
        at_ m' (match (x : unit + panic) with inl _ => returning boom log [t] [] (@OUnit T) | inr w => lost boom w log [t] end)).
      { intros body m' x E. rewrite then_then. erewrite scope by exact E. destruct x; [apply destroy_returning|reflexivity]. }
      destruct (ordinal O t) as [j|w| | |] eqn:E; try contradiction; cbn [first_of].
      + destruct (legal (CStore t o)) eqn:L.
        * rewrite N0. apply (Sc _ j (inl tt)). destruct o; try discriminate; reflexivity.
        * apply (Sc _ i (inr POrdering)). destruct o; try discriminate; reflexivity.
      + apply (Sc _ i (inr w)). reflexivity.
    - pose proof (Ho old) as H1. pose proof (Ho new) as H2.
      unfold call_owned, compare_exchange_owned, atomic_step, before, effect, no_number, arguments.
      set (wr := fun r : T + T => match r with inl t => OOk t | inr t => OErr t end).
      assert (Sc : forall body m' x, body (log, i) = ((log, m'), match x with inl a => Ended a | inr w => Unwinds w end) ->
        (abind (res <! owning boom [new; old] body ;;
          owning boom (if d then [match res with inl t | inr t => t end] else []) (glue boom [new; old]) ;;! ret res) (fun r => ret (wr r))) (log, i) =
        at_ m' (match (x : (T + T) + panic) with
                | inl r => returning boom log [new; old] (if d then results (wr r) else []) (wr r) | inr w => lost boom w log [new; old] end)).
      { intros body m' x E. rewrite then_then. erewrite scope by exact E. destruct x as [r|w]; [|reflexivity]. rewrite then_then.
        rewrite <- returning_is. destruct r; reflexivity. }
      destruct (ordinal O old) as [a|w| | |] eqn:E1; try contradiction; cbn [first_of]; [|apply (Sc _ i (inr w)); reflexivity].
      destruct (ordinal O new) as [b|w| | |] eqn:E2; try contradiction; cbn [first_of]; [|apply (Sc _ i (inr w)); reflexivity].
      destruct (legal (CCas old new s f)) eqn:L; [|apply (Sc _ i (inr POrdering)); destruct f; try discriminate; reflexivity].
      assert (R : sc_apply (RCas a b s f) i = (Val (if i =? a then SOk i else SErr i), if i =? a then b else i)).
      { unfold sc_apply, perform. destruct f; try discriminate; cbn; destruct (i =? a); reflexivity. }
      specialize (Hf i).
      unfold handed. destruct (i =? a) eqn:Q; destruct (from_ordinal O i) as [[t|]|w| | |] eqn:F; try contradiction;
        [apply (Sc _ b (inl (inl t)))|apply (Sc _ b (inr PUnwrap))|apply (Sc _ b (inr w))
        |apply (Sc _ i (inl (inr t)))|apply (Sc _ i (inr PUnwrap))|apply (Sc _ i (inr w))];
        unfold asks, calm, look, abind; cbn [ending_of]; rewrite R; unfold decode; cbn [ending_of]; rewrite F; reflexivity.
    - specialize (Hf i). unfold call_owned, fmt_owned, atomic_step, before, effect, handed. cbn [legal].
      assert (L : load_owned O Relaxed (log, i) = ((log, i), ending_of (decode O i))) by reflexivity.
      rewrite then_then. unfold abind at 1. rewrite L. unfold decode.
      destruct (from_ordinal O i) as [[t|]|w| | |] eqn:F; try contradiction; try reflexivity. cbn [bind unwrap ending_of].
      rewrite then_then. destruct (shows t) as [w|] eqn:Sh.
      + erewrite (@scope _ _ boom _ _ _ _ _ _ _ _ (inr w)); [reflexivity|]. unfold look. reflexivity.
      + erewrite (@scope _ _ boom _ _ _ _ _ _ _ _ (inl tt)); [|reflexivity]. rewrite then_then. apply destroy_returning.
  Qed.

  Lemma turns_are (ts : list (option N * call T)) : answers O -> forall s,
    catch_run (turn_owned boom d shows O) ts s = life_run (atomic_turn boom d shows O) ts s.
  Proof.
    intros A. induction ts as [|[j c] ts IH]; intros [log i]; cbn [catch_run life_run]; [reflexivity|].
    assert (E : turn_owned boom d shows O (j, c) (log, i) = let '(s', x) := atomic_turn boom d shows O (j, c) (log, i) in (s', ends_as x)).
    { unfold turn_owned, atomic_turn. cbn [fst snd]. destruct j; [exact (call_is c log n A)|exact (call_is c log i A)]. }
    rewrite E. destruct (atomic_turn boom d shows O (j, c) (log, i)) as [s' [[o|w]|]]; cbn [ends_as]; [| |reflexivity];
      rewrite IH; destruct (life_run (atomic_turn boom d shows O) ts s') as [[l m]|]; reflexivity.
  Qed.

  (** What the specification says of the log. *)
  Lemma lost_all A w ts : forall log log' x, @lost T boom A w log ts = (log', x) -> x <> None -> log' = log ++ ts /\ x = Some (Caught w).
  Proof.
    unfold lost. induction ts as [|t ts IH]; intros log log' x; cbn [destroyed_all].
    - intros [= <- <-] _. rewrite app_nil_r. auto.
    - destruct (boom log t); [intros [= <- <-]; cbn; congruence|]. intros H N. destruct (IH _ _ _ H N) as [-> ->].
      now rewrite <- app_assoc.
  Qed.
  Lemma returning_all A (a : A) rs ts : forall log log' x, returning boom log ts rs a = (log', x) -> x <> None ->
    (log' = log ++ ts /\ x = Some (Seen a)) \/ (exists w, log' = log ++ ts ++ rs /\ x = Some (Caught w)).
  Proof.
    induction ts as [|t ts IH]; intros log log' x; cbn [returning].
    - intros [= <- <-] _. rewrite app_nil_r. auto.
    - destruct (boom log t) as [w|].
      + intros H N. apply lost_all in H; [|exact N]. destruct H as [-> ->]. right. exists w. rewrite <- app_assoc. auto.
      + intros H N. destruct (IH _ _ _ H N) as [[-> ->]|(w & -> & ->)]; rewrite <- app_assoc; [left|right; exists w]; auto.
  Qed.
End Proofs.

Section Account.
  Context {T : Type} (boom : list T -> T -> option panic) (shows : T -> option panic) (O : Ordinal T).

  Lemma account (c : call T) (log log' : list T) (i i' : N) (e : ending (out T)) : answers O ->
    call_owned boom true shows O c (log, i) = ((log', i'), e) -> e <> Aborts ->
    log' ++ match e with Ended o => gets c o | _ => [] end = log ++ arguments c ++ makes O c i.
  Proof.
    intros A. rewrite (call_is boom true shows c log i A). unfold atomic_step, makes.
    destruct (before O c) as [w|].
    - destruct (lost boom w log (arguments c)) as [l x] eqn:L. cbn [fst snd]. intros [= <- <- <-] N.
      destruct (lost_all L) as [-> ->]; [intros ->; now apply N|]. cbn. now rewrite !app_nil_r.
    - destruct (effect O c i) as [[o|w] wr] eqn:E; cbn [fst].
      + destruct c as [q|t q|old new s f|].
        4: { unfold effect in E. injection E as E _. unfold handed in E.
             destruct (from_ordinal O i) as [[t|]| | | |]; try discriminate. injection E as <-.
             cbn [arguments gets results app]. destruct (shows t) as [w|].
             - destruct (lost boom w log [t]) as [l x] eqn:L. cbn [fst snd]. intros [= <- <- <-] N.
               destruct (lost_all L) as [-> ->]; [intros ->; now apply N|]. cbn. now rewrite app_nil_r.
             - destruct (returning boom log [t] [] (OVal t)) as [l x] eqn:L. cbn [fst snd]. intros [= <- <- <-] N.
               destruct (returning_all L) as [[-> ->]|(w & -> & ->)]; [intros ->; now apply N| |]; cbn; now rewrite app_nil_r. }
        all: match goal with |- context [returning ?b ?lg ?ts ?rs ?a] => destruct (returning b lg ts rs a) as [l x] eqn:L end;
          cbn [fst snd]; intros [= <- <- <-] N;
          (destruct (returning_all L) as [[-> ->]|(w & -> & ->)]; [intros ->; now apply N| |]);
          cbn [ends_as gets]; rewrite ?app_nil_r, <- ?app_assoc; reflexivity.
      + destruct (lost boom w log (arguments c)) as [l x] eqn:L. cbn [fst snd]. intros [= <- <- <-] N.
        destruct (lost_all L) as [-> ->]; [intros ->; now apply N|]. cbn. now rewrite !app_nil_r.
  Qed.
  Lemma number_is d (c : call T) (log : list T) (i : N) : answers O ->
    snd (fst (call_owned boom d shows O c (log, i))) = match before O c, snd (effect O c i) with None, Some j => j | _, _ => i end.
  Proof.
    intros A. rewrite call_is by exact A. unfold atomic_step. destruct (before O c) as [w|]; [reflexivity|].
    destruct (effect O c i) as [x wr]. reflexivity.
  Qed.
  Lemma call_exact d (c : call T) (log : list T) (i : N) : answers O ->
    let '(s', x) := atomic_step boom d shows O c (log, i) in
    call_owned boom d shows O c (log, i) = (s', match x with Some (Seen o) => Ended o | Some (Caught w) => Unwinds w | None => Aborts end).
  Proof. intros A. rewrite call_is by exact A. destruct (atomic_step _ _ _ _ _ _) as [s' x]. reflexivity. Qed.
  Lemma new_exact (t : T) (log : list T) : answers O ->
    let '(log', x) := match ordinal O t with Val i => returning boom log [t] [] i | Panic w => lost boom w log [t] | _ => (log, None) end in
    new_owned boom O t (log, tt) = ((log', tt), match x with Some (Seen i) => Ended i | Some (Caught w) => Unwinds w | None => Aborts end).
  Proof. intros A. rewrite new_is by exact A. destruct (match ordinal O t with Val _ => _ | _ => _ end) as [l x]. reflexivity. Qed.
End Account.
