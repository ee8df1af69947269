(** * FmtProofs: the strings written by the Debug implementations (ModelFmt.v). *)
From Coq Require Import Ascii String List.
From Verif Require Import Base Spec SpecAtomic SpecFmt ModelOrdinal ModelValues ModelArrayBuilder ModelAtomic ModelIter
  ModelTotal ModelMap ModelSet ModelFmt.
Import ListNotations.
Set Implicit Arguments. Unset Strict Implicit.
Open Scope string_scope.

(** ** Programs that do the same *)
Inductive same : writing -> writing -> Prop :=
| same_return r : same (Return r) (Return r)
| same_write s k k' : (forall ok, same (k ok) (k' ok)) -> same (WriteStr s k) (WriteStr s k').
#[local] Hint Constructors same : core.

Lemma same_refl : forall p, same p p.
Proof. induction p; auto. Qed.
#[local] Hint Resolve same_refl : core.
Lemma same_trans : forall p q, same p q -> forall r, same q r -> same p r.
Proof. induction 1; intros q Q; inversion Q; subst; auto. Qed.
Lemma same_sym : forall p q, same p q -> same q p.
Proof. induction 1; auto. Qed.
Lemma same_heard : forall p q, same p q -> heard p = heard q.
Proof. induction 1; cbn; auto. rewrite H0. reflexivity. Qed.
Lemma same_polite : forall p q, same p q -> polite p -> polite q.
Proof.
  induction 1; cbn; auto. intros [A B]. split; auto.
  specialize (H false). rewrite A in H. inversion H; auto.
Qed.

Lemma then_with_same : forall p q k k', same p q -> (forall ok, same (k ok) (k' ok)) ->
  same (then_with p k) (then_with q k').
Proof. induction 1; cbn; intros H1; auto. destruct r; auto. Qed.
Lemma then_with_assoc : forall p f k, same (then_with (then_with p f) k) (then_with p (fun ok => then_with (f ok) k)).
Proof. induction p; cbn; intros; auto. destruct r; auto. Qed.

Lemma pad_chunks_same : forall cs st k k', (forall ok st, same (k ok st) (k' ok st)) ->
  same (pad_chunks cs st k) (pad_chunks cs st k').
Proof.
  induction cs; cbn; intros; auto.
  destruct st; repeat (constructor; intros []; auto).
Qed.
Lemma padded_same : forall p q, same p q -> forall st k k', (forall ok st, same (k ok st) (k' ok st)) ->
  same (padded p st k) (padded q st k').
Proof.
  induction 1; cbn; intros; auto. - destruct r; auto.
  - apply pad_chunks_same; auto.
Qed.
Lemma padded_then : forall p f st k,
  same (padded (then_with p f) st k) (padded p st (fun ok st => padded (f ok) st k)).
Proof.
  induction p; cbn; intros.
  - destruct r; auto.
  - apply pad_chunks_same; auto.
Qed.

(** ** Text *)
Lemma app_assoc_s : forall a b c : string, (a ++ b) ++ c = a ++ (b ++ c).
Proof. induction a; cbn; intros; congruence. Qed.
Lemma app_nil_s : forall a : string, a ++ "" = a.
Proof. induction a; cbn; congruence. Qed.

Fixpoint line (st : bool) (s : string) : bool :=
  match s with EmptyString => st | String c s' => line (Ascii.eqb c newline) s' end.

Lemma indented_app : forall a st b, indented st (a ++ b) = indented st a ++ indented (line st a) b.
Proof. induction a; cbn; intros; auto. rewrite IHa. destruct st; reflexivity. Qed.

Lemma heard_then : forall p k, heard (then_with p k) =
  match heard p with
  | (t, Val ok) => let '(t', r) := heard (k ok) in (t ++ t', r)
  | x => x
  end.
Proof.
  induction p; cbn; intros.
  - destruct r as [b| | | |]; cbn; auto. destruct (heard (k b)); auto.
  - rewrite H. destruct (heard (k true)) as [t [b| | | |]]; auto.
    destruct (heard (k0 b)); cbn. now rewrite app_assoc_s.
Qed.

Lemma split_nonempty : forall s c, In c (split_inclusive s) -> c <> "".
Proof.
  induction s; cbn; intros c H. { contradiction. }
  destruct (Ascii.eqb a newline).
  - destruct H; [subst; discriminate|auto].
  - destruct (split_inclusive s) as [|h t].
    + destruct H; [subst; discriminate|contradiction].
    + destruct H; [subst; discriminate|]. apply IHs. now right.
Qed.
Lemma split_nil : forall s, split_inclusive s = [] -> s = "".
Proof.
  destruct s; cbn; auto. destruct (Ascii.eqb a newline); [discriminate|].
  destruct (split_inclusive s); discriminate.
Qed.

Lemma heard_chunks : forall s st k, heard (pad_chunks (split_inclusive s) st k) =
  let '(t, r) := heard (k true (line st s)) in (indented st s ++ t, r).
Proof.
  induction s; intros st k.
  - cbn. destruct (heard (k true st)); auto.
  - cbn [split_inclusive]. destruct (Ascii.eqb a newline) eqn:E.
    + cbn [pad_chunks line indented]. specialize (IHs true k).
      cbn [ends_with_newline]. rewrite E.
      destruct st; cbn [heard]; rewrite IHs; destruct (heard (k true (line true s))); reflexivity.
    + specialize (IHs false k). cbn [line indented]. rewrite E.
      destruct (split_inclusive s) as [|h t] eqn:S.
      * apply split_nil in S. subst s. cbn [pad_chunks ends_with_newline line indented] in *. rewrite E.
        destruct st; cbn [heard]; destruct (heard (k true false)); reflexivity.
      * assert (Hh : h <> "") by (apply split_nonempty with (s := s); rewrite S; now left).
        assert (Ee : ends_with_newline (String a h) = ends_with_newline h) by (destruct h; [congruence|reflexivity]).
        cbn [pad_chunks] in *. rewrite Ee. cbn [heard] in IHs |- *.
        destruct (heard (k true (line false s))) as [t' r'].
        destruct st; cbn [heard]; destruct (heard (pad_chunks t (ends_with_newline h) k)) as [t2 r2];
          inversion IHs; subst; cbn; congruence.
Qed.

Lemma heard_padded : forall p st k, heard (padded p st k) =
  match heard p with
  | (t, Val ok) => let '(t', r) := heard (k ok (line st t)) in (indented st t ++ t', r)
  | (t, r) => (indented st t, r)
  end.
Proof.
  induction p; intros st k0.
  - destruct r as [b| | | |]; cbn; auto. destruct (heard (k0 b st)); auto.
  - cbn [padded]. rewrite heard_chunks, H. cbn [heard].
    destruct (heard (k true)) as [t [b| | | |]]; try (rewrite indented_app; reflexivity).
    rewrite indented_app.
    assert (L : line (line st s) t = line st (s ++ t)) by (clear; revert st; induction s; cbn; auto).
    rewrite L. destruct (heard (k0 b (line st (s ++ t)))). now rewrite app_assoc_s.
Qed.

Lemma heard_and_write : forall p s, heard (and_then p (write s)) =
  match heard p with (t, Val true) => (t ++ s, Val true) | x => x end.
Proof.
  intros. unfold and_then. rewrite heard_then. destruct (heard p) as [t [[]| | | |]]; auto.
  - cbn. now rewrite app_nil_s.
  - cbn. now rewrite app_nil_s.
Qed.
Lemma heard_and : forall p q, heard (and_then p q) =
  match heard p with (t, Val true) => let '(t', r) := heard q in (t ++ t', r) | x => x end.
Proof.
  intros. unfold and_then. rewrite heard_then. destruct (heard p) as [t [[]| | | |]]; auto.
  cbn. now rewrite app_nil_s.
Qed.

(** ** Politeness *)
Lemma polite_then : forall p k, polite p -> k false = Return (Val false) -> polite (k true) -> polite (then_with p k).
Proof.
  induction p; cbn; intros k1 P F T.
  - destruct r as [[]| | | |]; cbn; auto. rewrite F. exact I.
  - destruct P as [P1 P2]. split; auto. rewrite P1. exact F.
Qed.
Lemma polite_and : forall p q, polite p -> polite q -> polite (and_then p q).
Proof. intros. apply polite_then; auto. Qed.
Lemma polite_write : forall s, polite (write s).
Proof. cbn; auto. Qed.
Lemma polite_chunks : forall cs st k, (forall st, k false st = Return (Val false)) -> (forall st, polite (k true st)) ->
  polite (pad_chunks cs st k).
Proof. induction cs; cbn; intros; auto. destruct st; cbn; auto. Qed.
Lemma polite_padded : forall p st k, polite p -> (forall st, k false st = Return (Val false)) ->
  (forall st, polite (k true st)) -> polite (padded p st k).
Proof.
  induction p; cbn; intros st k1 P F T.
  - destruct r as [[]| | | |]; cbn; auto. rewrite F. exact I.
  - destruct P as [P1 P2]. apply polite_chunks; intros; auto. rewrite P1. cbn. auto.
Qed.

(** ** The builders over a list *)
Section Builders.
  Variables (alt : bool) (close : string).

  Fixpoint items (ps : list writing) (ok has : bool) : writing :=
    match ps with
    | [] => if ok then write close else Return (Val false)
    | p :: ps' => if ok then inner_entry alt has p (fun ok => items ps' ok true) else items ps' false true
    end.

  Lemma items_false : forall ps has, items ps false has = Return (Val false).
  Proof. induction ps; cbn; auto. Qed.

  Lemma inner_entry_same : forall has p q k k', same p q -> (forall ok, same (k ok) (k' ok)) ->
    same (inner_entry alt has p k) (inner_entry alt has q k').
  Proof.
    intros. unfold inner_entry, and_then. destruct alt.
    - apply then_with_same; auto. intros []; auto.
      apply padded_same; auto. apply then_with_same; auto.
    - apply then_with_same; auto. apply then_with_same; auto. intros []; auto.
  Qed.

  Lemma inner_entries_items : forall It A (next : It -> res (option A * It)) show fuel s l s' ok has,
    collect next fuel s = Val (l, s') ->
    same (inner_entries alt next show close fuel s ok has) (items (map show l) ok has).
  Proof.
    intros It A next show. induction fuel; intros s l s' ok has H; cbn in H; [discriminate|].
    cbn [inner_entries]. destruct (next s) as [[[a|] s1]| | | |]; cbn in H; try discriminate; cbn [after].
    - destruct (collect next fuel s1) as [[l1 s2]| | | |] eqn:E; cbn in H; try discriminate.
      inversion H; subst. cbn [map items]. destruct ok; [|eapply IHfuel; eauto].
      apply inner_entry_same; auto. intros ok. eapply IHfuel; eauto.
    - inversion H; subst. cbn. auto.
  Qed.

  Definition lead (has : bool) : string := if alt then (if has then "" else nl) else (if has then ", " else "").
  Definition body (t : string) : string := if alt then indented true (t ++ "," ++ nl) else t.
  Definition part (t : string) : string := if alt then indented true t else t.

  Lemma heard_entry : forall has p t k, says p t ->
    heard (inner_entry alt has p k) = let '(t', r) := heard (k true) in (lead has ++ body t ++ t', r).
  Proof.
    intros has p t k P. unfold inner_entry, lead, body. destruct alt.
    - rewrite heard_then.
      replace (heard (if has then Return (Val true) else write nl)) with ((if has then "" else nl), Val true)
        by (destruct has; reflexivity).
      rewrite heard_padded, heard_and_write. unfold says in P. rewrite P.
      destruct (heard (k true)). reflexivity.
    - rewrite heard_then, heard_and.
      replace (heard (if has then write ", " else Return (Val true))) with ((if has then ", " else ""), Val true)
        by (destruct has; reflexivity).
      unfold says in P. rewrite P. destruct (heard (k true)). now rewrite app_assoc_s.
  Qed.
  Lemma heard_entry_broken : forall has p t r k, heard p = (t, r) -> r <> Val true ->
    k false = Return (Val false) -> heard (inner_entry alt has p k) = (lead has ++ part t, r).
  Proof.
    intros has p t r k P R F. unfold inner_entry, lead, part. destruct alt.
    - rewrite heard_then.
      replace (heard (if has then Return (Val true) else write nl)) with ((if has then "" else nl), Val true)
        by (destruct has; reflexivity).
      rewrite heard_padded, heard_and_write, P.
      destruct r as [[]| | | |]; try reflexivity; [congruence|]. rewrite F. cbn. now rewrite app_nil_s.
    - rewrite heard_then, heard_and.
      replace (heard (if has then write ", " else Return (Val true))) with ((if has then ", " else ""), Val true)
        by (destruct has; reflexivity).
      rewrite P. destruct r as [[]| | | |]; try reflexivity; [congruence|]. rewrite F. cbn. now rewrite app_nil_s.
  Qed.

  Fixpoint front (has : bool) (ts : list string) : string :=
    match ts with [] => "" | t :: ts' => lead has ++ body t ++ front true ts' end.

  Lemma heard_items_app : forall ps ts qs has, Forall2 says ps ts ->
    heard (items (ps ++ qs) true has) =
    let '(t', r) := heard (items qs true (match ps with [] => has | _ => true end)) in (front has ts ++ t', r).
  Proof.
    induction ps as [|p ps IH]; intros ts qs has H; inversion H; subst; cbn [app front].
    - destruct (heard (items qs true has)). reflexivity.
    - cbn [items]. rewrite (heard_entry _ _ H2), (IH _ _ _ H4).
      replace (match ps with [] => true | _ => true end) with true by (destruct ps; reflexivity).
      destruct (heard (items qs true true)). now rewrite !app_assoc_s.
  Qed.
  Lemma heard_items : forall ps ts has, Forall2 says ps ts ->
    heard (items ps true has) = (front has ts ++ close, Val true).
  Proof.
    intros. rewrite <- (app_nil_r ps). rewrite (heard_items_app _ _ H). cbn. now rewrite app_nil_s.
  Qed.
  Lemma heard_items_broken : forall ps ts p t r qs has, Forall2 says ps ts -> heard p = (t, r) -> r <> Val true ->
    heard (items (ps ++ p :: qs) true has) =
    (front has ts ++ lead (match ps with [] => has | _ => true end) ++ part t, r).
  Proof.
    intros. rewrite (heard_items_app _ _ H). cbn [items].
    rewrite (heard_entry_broken _ H0 H1). - reflexivity. - apply items_false.
  Qed.

  Lemma polite_entry : forall has p k, polite p -> k false = Return (Val false) -> polite (k true) ->
    polite (inner_entry alt has p k).
  Proof.
    intros. unfold inner_entry. destruct alt.
    - apply polite_then; auto. { destruct has; cbn; auto. }
      apply polite_padded; auto. apply polite_and; auto. apply polite_write.
    - apply polite_then; auto. apply polite_and; auto. destruct has; cbn; auto.
  Qed.
  Lemma polite_items : forall ps has, Forall polite ps -> polite (items ps true has).
  Proof.
    induction ps; intros has H; cbn [items]. - apply polite_write.
    - inversion H; subst. apply polite_entry; auto. apply items_false.
  Qed.
End Builders.

Lemma concat_cons : forall l, String.concat "" l = match l with [] => "" | a :: l' => a ++ String.concat "" l' end.
Proof. intros [|a [|b l]]; cbn; auto. now rewrite app_nil_s. Qed.
Lemma front_pretty : forall ts has, front true has ts =
  match ts with [] => "" | _ => if has then "" else nl end ++
  String.concat "" (map (fun t => indented true (t ++ "," ++ nl)) ts).
Proof.
  induction ts; intros has. - reflexivity.
  - cbn [front map]. rewrite IHts, (concat_cons (_ :: _)). unfold lead, body. destruct ts; reflexivity.
Qed.
Lemma front_plain : forall ts t, front false false (t :: ts) = String.concat ", " (t :: ts).
Proof.
  assert (G : forall ts t, body false t ++ front false true ts = String.concat ", " (t :: ts)).
  { induction ts; intros t. - cbn. apply app_nil_s.
    - cbn [front]. rewrite IHts. reflexivity. }
  intros. cbn [front]. rewrite G. reflexivity.
Qed.
Lemma front_plain_broken : forall ts p,
  front false false ts ++ lead false (match ts with [] => false | _ => true end) ++ p =
  String.concat "" (map (fun t => t ++ ", ") ts) ++ p.
Proof.
  assert (G : forall ts t p, body false t ++ front false true ts ++ ", " ++ p =
     String.concat "" (map (fun t => t ++ ", ") (t :: ts)) ++ p).
  { induction ts; intros t p.
    - cbn. now rewrite app_assoc_s.
    - cbn [front]. rewrite !app_assoc_s, IHts. cbn [map]. rewrite (concat_cons (_ :: _ :: _)), !app_assoc_s. reflexivity. }
  intros [|t ts] p; [reflexivity|]. cbn [front]. rewrite !app_assoc_s. cbn [lead]. rewrite <- G. reflexivity.
Qed.

(** [f.debug_x().entries(iter).finish()] over a list. *)
Definition builder (alt : bool) (open close : string) (ps : list writing) : writing :=
  WriteStr open (fun ok => items alt close ps ok false).

Lemma builder_says : forall alt open close ps ts, Forall2 says ps ts ->
  says (builder alt open close ps) (bracketed alt open close ts).
Proof.
  intros. unfold says, builder. cbn [heard]. rewrite (heard_items alt close _ H).
  unfold bracketed. destruct alt.
  - rewrite front_pretty. destruct ts; rewrite ?app_assoc_s; reflexivity.
  - destruct ts; [reflexivity|]. rewrite front_plain. reflexivity.
Qed.
Lemma builder_broken : forall alt open close ps ts p t r qs, Forall2 says ps ts -> heard p = (t, r) -> r <> Val true ->
  heard (builder alt open close (ps ++ p :: qs)) = (broken_off alt open ts t, r).
Proof.
  intros. unfold builder. cbn [heard]. rewrite (heard_items_broken alt close qs false H H0 H1).
  unfold broken_off.
  replace (match ps with [] => false | _ => true end) with (match ts with [] => false | _ => true end)
    by (inversion H; reflexivity).
  destruct alt.
  - rewrite front_pretty. unfold lead, part. destruct ts; rewrite ?app_assoc_s; reflexivity.
  - rewrite front_plain_broken. reflexivity.
Qed.
Lemma builder_polite : forall alt open close ps, Forall polite ps -> polite (builder alt open close ps).
Proof. intros. cbn. split. - apply items_false. - apply polite_items; auto. Qed.

(** ** Pairs and entries *)
Definition entry_prog (k v : writing) : writing := and_then k (and_then (write ": ") v).

Lemma map_entry_same : forall alt has key value k k', (forall ok, same (k ok) (k' ok)) ->
  same (map_entry alt has key value k) (inner_entry alt has (entry_prog key value) k').
Proof.
  intros. unfold map_entry, inner_entry, entry_prog, and_then. destruct alt.
  - apply then_with_same; auto. intros []; auto.
    eapply same_trans; [apply padded_then|].
    apply same_sym. eapply same_trans; [apply padded_then|].
    eapply same_trans; [apply padded_then|]. apply same_sym.
    apply padded_same; auto. intros [] st.
    + cbn [then_with padded write]. apply pad_chunks_same. intros [] st'; cbn [then_with padded].
      * eapply same_trans; [apply padded_then|].
        apply padded_same; auto. intros [] st2; cbn [padded write]; auto.
        apply pad_chunks_same. intros [] ?; cbn [padded]; auto.
      * apply H.
    + apply H.
  - eapply same_trans; [apply then_with_assoc|].
    apply same_sym. eapply same_trans; [apply then_with_assoc|]. apply same_sym.
    apply then_with_same; auto. intros [].
    + eapply same_trans; [apply then_with_assoc|].
      apply same_sym. eapply same_trans; [apply then_with_assoc|]. apply same_sym.
      apply then_with_same; auto. intros [].
      * cbn. constructor. intros []; cbn; auto. apply then_with_same; auto.
      * cbn. auto.
    + cbn. auto.
Qed.

Lemma map_entries_items : forall alt It A B (next : It -> res (option (A * B) * It)) showA showB fuel s l s' ok has,
  collect next fuel s = Val (l, s') ->
  same (map_entries alt next showA showB fuel s ok has)
       (items alt "}" (map (fun p => entry_prog (showA (fst p)) (showB (snd p))) l) ok has).
Proof.
  intros alt It A B next showA showB. induction fuel; intros s l s' ok has H; cbn in H; [discriminate|].
  cbn [map_entries]. destruct (next s) as [[[[a b]|] s1]| | | |]; cbn in H; try discriminate; cbn [after].
  - destruct (collect next fuel s1) as [[l1 s2]| | | |] eqn:E; cbn in H; try discriminate.
    inversion H; subst. cbn [map items]. destruct ok; [|eapply IHfuel; eauto].
    apply map_entry_same. intros ok. eapply IHfuel; eauto.
  - inversion H; subst. cbn. auto.
Qed.

Lemma entry_says : forall k v a b, says k a -> says v b -> says (entry_prog k v) (entry_text a b).
Proof.
  unfold says, entry_prog, entry_text. intros. rewrite heard_and, H, heard_and, H0. reflexivity.
Qed.
Lemma entry_polite : forall k v, polite k -> polite v -> polite (entry_prog k v).
Proof. intros. repeat apply polite_and; auto. apply polite_write. Qed.

Section Pair.
  Variables (A B : Type) (alt : bool) (showA : A -> writing) (showB : B -> writing).
  Lemma pair_says : forall p a b, says (showA (fst p)) a -> says (showB (snd p)) b ->
    says (show_pair alt showA showB p) (pair_text alt a b).
  Proof.
    unfold says, show_pair, pair_text, bracketed. intros p a b HA HB. rewrite heard_and.
    change (heard (write "")) with ("", Val true). destruct alt; cbn beta iota.
    - rewrite heard_and. change (heard (write ("(" ++ nl))) with ("(" ++ nl, Val true). cbn beta iota.
      rewrite heard_padded, heard_and_write, HA, heard_padded, heard_and_write, HB.
      change (heard (write ")")) with (")", Val true). cbn beta iota.
      cbn [map String.concat app]. rewrite !app_assoc_s. reflexivity.
    - rewrite !heard_and, HA, HB.
      change (heard (write "(")) with ("(", Val true). change (heard (write ", ")) with (", ", Val true).
      change (heard (write ")")) with (")", Val true). cbn beta iota. cbn [String.concat].
      rewrite !app_assoc_s. reflexivity.
  Qed.
  Lemma pair_polite : forall p, polite (showA (fst p)) -> polite (showB (snd p)) -> polite (show_pair alt showA showB p).
  Proof.
    intros p HA HB. unfold show_pair. apply polite_and; [apply polite_write|]. destruct alt.
    - apply polite_and; [apply polite_write|]. apply polite_padded; auto.
      + apply polite_and; auto; apply polite_write.
      + intros _. apply polite_padded; auto. apply polite_and; auto; apply polite_write.
        intros _. apply polite_write.
    - repeat apply polite_and; auto; apply polite_write.
  Qed.
End Pair.

(** ** Sinks *)
Lemma polite_sink : forall (St : Type) (sink : St -> string -> bool * St) p t, polite p -> says p t ->
  forall st, exists l, (forall x, In x l -> snd x = true) /\
    ((attempts sink st p = (l, Val true) /\ String.concat "" (map fst l) = t) \/
     (exists s more, attempts sink st p = ((l ++ [(s, false)])%list, Val false) /\
        String.concat "" (map fst l) ++ s ++ more = t)).
Proof.
  intros St sink. induction p; intros t P S st.
  - cbn in S. inversion S; subst. exists []. split; [contradiction|]. left. auto.
  - cbn in P. destruct P as [P1 P2]. unfold says in S. cbn in S.
    destruct (heard (k true)) as [t1 r1] eqn:E. inversion S; subst.
    cbn [attempts]. destruct (sink st s) as [[] st'].
    + destruct (H true t1 P2 E st') as (l & Hl & [[D1 D2]|(s1 & more & D1 & D2)]).
      * exists ((s, true) :: l). split. { intros x [<-|]; auto. }
        left. rewrite D1. split; auto. cbn [map]. rewrite concat_cons. cbn. congruence.
      * exists ((s, true) :: l). split. { intros x [<-|]; auto. }
        right. exists s1, more. rewrite D1. split; auto. cbn [map]. rewrite concat_cons, app_assoc_s. cbn. congruence.
    + exists []. split; [contradiction|]. right. exists s, t1. rewrite P1. cbn. auto.
Qed.
