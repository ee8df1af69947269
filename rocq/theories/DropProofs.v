(** * DropProofs: panicking destructors and iterators. *)
From Verif Require Import Base Spec SpecMap SpecTotal SpecIter SpecApi SpecMem SpecDrop ModelOrdinal ModelValues ModelArrayBuilder ModelIter
  ModelTotal ModelMap ModelSet ModelDrop MapMachine BaseProofs IterLib ValuesProofs IterProofs MapLib MapIterProofs MapMutProofs
  MapProofs ArrayProofs TotalProofs MapProofs2 MapProofs3 MapProofs4 MapProofs5 SetProofs MemProofs.
From Coq Require Import List. Import ListNotations.
Set Implicit Arguments.
Unset Strict Implicit.

Lemma failed_panic {A} w : failed (Panic w : res A).
Proof. intros a. discriminate. Qed.
Lemma res_cases (r : res unit) : r = Val tt \/ failed r.
Proof. destruct r as [[]| | | |]; [now left|right..]; intros a; discriminate. Qed.

(** ** Double-ended iteration, one step at a time *)
Section Steps.
  Context {It A : Type} (step : dir -> It -> res (option A * It)).

  Lemma de_now s l P : double_ended step s l P -> P s l.
  Proof. intros H. destruct (H []) as (s' & E & HP). cbn in E. injection E as <-. exact HP. Qed.

  Lemma de_step s l P d : double_ended step s l P ->
    exists s', step d s = Val (fst (deque_step d l), s') /\ double_ended step s' (snd (deque_step d l)) P.
  Proof.
    intros H. destruct (H [d]) as (s' & E & HP). rewrite deque_run_cons in *. cbn [deque_run fst snd drive] in *.
    destruct (step d s) as [[o s1]| | | |] eqn:E1; cbn [bind] in E; try discriminate E. injection E as -> ->.
    exists s'. split; [reflexivity|]. intros sched. destruct (H (d :: sched)) as (s2 & E2 & HP2).
    rewrite deque_run_cons in *. cbn [fst snd drive] in *. rewrite E1 in E2. cbn [bind] in E2.
    destruct (drive step sched s') as [[os s3]| | | |]; cbn [bind] in E2; try discriminate E2.
    injection E2 as -> ->. exists s2. split; [reflexivity|exact HP2].
  Qed.

  Lemma de_drive sched : forall s l P, double_ended step s l P ->
    exists s', drive step sched s = Val (fst (deque_run sched l), s') /\
      double_ended step s' (snd (deque_run sched l)) P.
  Proof.
    induction sched as [|d sched IH]; intros s l P H.
    - exists s. split; [reflexivity|exact H].
    - destruct (de_step d H) as (s1 & E1 & H1). destruct (IH _ _ _ H1) as (s2 & E2 & H2).
      exists s2. rewrite deque_run_cons. cbn [fst snd drive]. rewrite E1. cbn [bind]. rewrite E2. auto.
  Qed.
End Steps.

Lemma collect_length {It A} (step : It -> res (option A * It)) fuel : forall s l s',
  collect step fuel s = Val (l, s') -> (length l < fuel)%nat.
Proof.
  induction fuel as [|fuel IH]; intros s l s' E; cbn [collect] in E; [discriminate E|].
  apply bind_inv in E. destruct E as ([[x|] s1] & E1 & E).
  - apply bind_inv in E. destruct E as ([l2 s2] & E2 & E). injection E as <- <-. cbn. apply IH in E2. lia.
  - injection E as <- <-. cbn. lia.
Qed.

(** ** Drain *)
Section DrainDrop.
  Context {cfg : Config} {K V St : Type} (O : Ordinal K) (drop : St -> K * V -> St * res unit).

  Lemma drain_drop_loop_ok fuel : forall (d : @Drain V) rest P st, double_ended (Drain_step O) d rest P ->
    (length rest < fuel)%nat ->
    exists st' d' left r, Drain_drop_loop O drop fuel d st = (st', d', r) /\ drops drop st rest st' left r /\ P d' left /\
      (exists gone, rest = gone ++ left).
  Proof.
    induction fuel as [|fuel IH]; intros d rest P st H Hf; [lia|].
    destruct (de_step Front H) as (d1 & E1 & H1). cbn [Drain_drop_loop]. rewrite E1.
    destruct rest as [|x rest]; cbn [deque_step fst snd] in *.
    - exists st, d1, [], (Val tt). repeat split; [constructor|exact (de_now H1)|]. now exists [].
    - destruct (drop st x) as [st1 r] eqn:Ed. destruct (res_cases r) as [->|Hr].
      + destruct (IH d1 rest P st1 H1) as (st' & d' & left & r & E & D & HP & gone & ->); [cbn in Hf; lia|].
        exists st', d', left, r. split; [exact E|]. split; [eapply drops_next; eassumption|]. split; [exact HP|].
        now exists (x :: gone).
      + exists st1, d1, rest, r.
        split; [destruct r as [u| | | |]; [now elim (Hr u)|reflexivity..]|].
        split; [now apply drops_fail|]. split; [exact (de_now H1)|]. now exists [x].
  Qed.
End DrainDrop.

Section Sub.
  Context {K V : Type} (O : Ordinal K) (eqd : forall a b : K, {a = b} + {a <> b}).

  Lemma sorted_infix {A} (R : A -> A -> Prop) (a b c : list A) : StronglySorted R (a ++ b ++ c) -> StronglySorted R b.
  Proof.
    induction a as [|x a IH]; cbn [app].
    - induction b as [|y b IHb]; cbn [app]; intros H; [constructor|]. inversion H as [|? ? H1 H2]; subst.
      constructor; [now apply IHb|]. rewrite Forall_app in H2. tauto.
    - intros H. inversion H. auto.
  Qed.

  (** Restricting a map to a contiguous part of its entries. *)
  Lemma entries_infix (get get' : K -> res (option V)) a b c : lists_entries O get (a ++ b ++ c) ->
    (forall k, get' k = if in_dec eqd k (map fst b) then get k else Val None) -> lists_entries O get' b.
  Proof.
    intros [H1 H2] Hg. split.
    - intros k v. rewrite Hg. destruct (in_dec eqd k (map fst b)) as [Hin|Hin].
      + split.
        * intros H. apply H1. rewrite !in_app_iff. auto.
        * intros H. apply in_map_iff in Hin. destruct Hin as ([k0 v0] & Ek & Hin). cbn in Ek. subst k0.
          assert (G : get k = Val (Some v0)) by (apply H1; rewrite !in_app_iff; auto).
          rewrite H in G. injection G as ->. exact Hin.
      + split; [|discriminate]. intros H. exfalso. apply Hin. apply in_map_iff. now exists (k, v).
    - rewrite !map_app in H2. exact (sorted_infix H2).
  Qed.
End Sub.

Section DrainLaw.
  Context {cfg : Config} {K V : Type} (O : Ordinal K) (n : N) (HO : ordinal_bijection O n).

  Lemma drain_drop_of eqd (get : list (option V) -> K -> res (option V)) storage d0 l : lists_entries O (get storage) l ->
    double_ended (Drain_step O) d0 l (drain_ok O eqd get storage) ->
    double_ended (Drain_step O) d0 l (drain_drops O get).
  Proof.
    intros Hl H sched. destruct (de_drive sched H) as (d & E & Hd). exists d. split; [exact E|].
    intros St drop st. set (rest := snd (deque_run sched l)) in *.
    destruct (deque_run_infix sched l) as (a & b & El). fold rest in El.
    destruct (proj1 (de_now Hd)) as (s0 & E0 & _). unfold Drain_drop in E0.
    apply bind_inv in E0. destruct E0 as ([l0 s1] & E0 & E1). injection E1 as _ ->.
    apply collect_length in E0.
    destruct (drain_drop_loop_ok drop (P := drain_ok O eqd get storage) st Hd E0)
      as (st' & d' & left & r & EL & D & (_ & Hget) & gone & Er).
    exists st', (fst d'), left, r. unfold Drain_drop_with. rewrite EL. split; [reflexivity|]. split; [exact D|].
    apply (entries_infix (eqd := eqd) (get := get storage) (a := a ++ gone) (c := b)); [|exact Hget].
    rewrite El, Er in Hl. rewrite <- !app_assoc in Hl. rewrite <- !app_assoc. exact Hl.
  Qed.

  Lemma heap_drain_drop (st : @OrdinalMap V) : heap_reachable O st -> forall l, lists_entries O (OrdinalMap_get O st) l ->
    double_ended (Drain_step O) (OrdinalMap_drain st) l (drain_drops O (OrdinalMap_get O)).
  Proof.
    intros H l Hl. apply (@drain_drop_of (key_eq_dec HO) (OrdinalMap_get O) st _ l Hl).
    exact (proj1 (heap_drain_law HO (key_eq_dec HO) H Hl)).
  Qed.

  Lemma array_storage_get_self S (a : @OrdinalArrayMap V S) : array_reachable O a -> forall k,
    array_storage_get O S (arr_list a) k = OrdinalArrayMap_get O a k.
  Proof.
    intros H k. destruct (array_entry_law HO (key_eq_dec HO) H k) as (e & _ & G & _). apply G.
  Qed.

  Lemma lists_entries_ext (get get' : K -> res (option V)) l : (forall k, get k = get' k) ->
    lists_entries O get l -> lists_entries O get' l.
  Proof. intros E [H1 H2]. split; [|exact H2]. intros k v. now rewrite <- E. Qed.

  Lemma array_drain_drop S (a : @OrdinalArrayMap V S) : array_reachable O a ->
    forall l, lists_entries O (OrdinalArrayMap_get O a) l ->
    double_ended (Drain_step O) (OrdinalArrayMap_drain a) l (drain_drops O (array_storage_get O S)).
  Proof.
    intros H l Hl. apply (@drain_drop_of (key_eq_dec HO) (array_storage_get O S) (arr_list a)).
    - eapply lists_entries_ext; [|exact Hl]. intros k. symmetry. now apply array_storage_get_self.
    - exact (proj1 (array_drain_law HO (key_eq_dec HO) H Hl)).
  Qed.

  Lemma heap_clear_with (st : @OrdinalMap V) : heap_reachable O st -> forall l, lists_entries O (OrdinalMap_get O st) l ->
    forall (St : Type) (drop : St -> K * V -> St * res unit) (s : St),
    exists s' st' left r, OrdinalMap_clear_with O drop st s = (s', st', r) /\
      drops drop s l s' left r /\ lists_entries O (OrdinalMap_get O st') left.
  Proof. intros H l Hl. exact (de_now (heap_drain_drop H Hl)). Qed.

  Lemma array_clear_with S (a : @OrdinalArrayMap V S) : array_reachable O a ->
    forall l, lists_entries O (OrdinalArrayMap_get O a) l ->
    forall (St : Type) (drop : St -> K * V -> St * res unit) (s : St),
    exists s' storage left r, OrdinalArrayMap_clear_with O drop a s = (s', storage, r) /\
      drops drop s l s' left r /\ lists_entries O (array_storage_get O S storage) left.
  Proof. intros H l Hl. exact (de_now (array_drain_drop H Hl)). Qed.
End DrainLaw.

(** ** retain *)
Section RetainLoop.
  Context {cfg : Config} {K V St : Type} (O : Ordinal K) (n : N) (HO : ordinal_bijection O n).
  Context (eqd : forall a b : K, {a = b} + {a <> b}).
  Context (ks : list K) (He : enumeration O ks).
  Context (f : St -> K -> V -> St * V * res bool) (Hf : forall st k v, safe (snd (f st k v))).
  Context (drop : St -> K * V -> St * res unit).
  Implicit Types m : pmap K V.

  Let Hks : key_slots O n ks := ks_slots HO He.

  Lemma retain_with_loop kmid : forall kpre m it st fuel,
    ks = kpre ++ kmid -> pending O n it (kslots (length kpre) kmid) -> (length kmid < fuel)%nat ->
    exists st' m' out r, OrdinalArrayMap_retain_loop_with O drop f fuel (map m ks) it st = (st', map m' ks, r) /\
      retains f drop st (pm_entries kmid m) st' out r /\ pm_entries kmid m' = out /\
      (forall k, In k kpre -> m' k = m k).
  Proof.
    assert (Hnd : NoDup ks) by (destruct Hks as [Hn _]; exact (numbered_NoDup Hn)).
    induction kmid as [|k kmid IH]; intros kpre m it st fuel E H Hfu;
      (destruct fuel as [|fuel]; [cbn in Hfu; lia|]); cbn [OrdinalArrayMap_retain_loop_with]; unfold TIterMut_step;
      destruct (enumerate_refines HO Front H) as (it' & E1 & H'); rewrite E1.
    - cbn [kslots slots_from length seq map combine deque_step fst snd pm_entries].
      exists st, m, [], (Val tt). repeat split. constructor.
    - rewrite kslots_cons in *. cbn [deque_step fst snd] in *.
      assert (Hk : ordinal O k = Val (N.of_nat (length kpre))).
      { destruct Hks as [Hn _]. assert (Ek : nth_error ks (length kpre) = Some k) by (rewrite E; apply nth_error_app_at).
        rewrite (numbered_nth Hn Ek). f_equal. }
      assert (Hlt : N.of_nat (length kpre) < llen ks).
      { unfold llen. rewrite E, app_length. cbn [length]. lia. }
      rewrite (at_deref HO Hks m Hk Hlt).
      assert (E' : ks = (kpre ++ [k]) ++ kmid) by (rewrite E, <- app_assoc; reflexivity).
      assert (H2 : pending O n it' (kslots (length (kpre ++ [k])) kmid)).
      { rewrite app_length. cbn [length]. rewrite Nat.add_1_r. exact H'. }
      assert (Hk' : forall x, In x kmid -> k <> x).
      { intros x Hx ->. rewrite E in Hnd. apply nodup_app_r in Hnd. inversion Hnd; contradiction. }
      assert (Hp' : forall x, In x kpre -> k <> x).
      { intros x Hx ->. rewrite E in Hnd. apply NoDup_remove_2 in Hnd. apply Hnd. rewrite in_app_iff. now left. }
      assert (Hent : forall o, pm_entries kmid (pm_set eqd m k o) = pm_entries kmid m).
      { intros o. apply pm_entries_ext. intros x Hx. apply pm_set_other. now apply Hk'. }
      assert (Hself : forall o, pm_set eqd m k o k = o).
      { intros o. unfold pm_set. destruct (eqd k k); congruence. }
      assert (Hfu' : (length kmid < fuel)%nat) by (cbn in Hfu; lia).
      assert (Hin : In k (kpre ++ [k])) by (rewrite in_app_iff; right; now left).
      assert (Hpre : forall x, In x kpre -> In x (kpre ++ [k])) by (intros; rewrite in_app_iff; now left).
      cbn [pm_entries]. destruct (m k) as [v|] eqn:Em.
      + pose proof (Hf st k v) as Hs. destruct (f st k v) as [[st1 v'] r] eqn:Ef. cbn [snd] in Hs.
        rewrite (at_store HO eqd Hks m Hk Hlt). destruct r as [[|]|w| | |]; try contradiction Hs.
        * destruct (IH (kpre ++ [k]) (pm_set eqd m k (Some v')) it' st1 fuel E' H2 Hfu')
            as (st' & m' & out & r & G1 & G2 & G3 & G4). rewrite Hent in *.
          exists st', m', ((k, v') :: out), r. split; [exact G1|]. split; [eapply retains_keep; eassumption|].
          split; [rewrite (G4 _ Hin), Hself; f_equal; exact G3|].
          intros x Hx. rewrite (G4 _ (Hpre _ Hx)). apply pm_set_other. now apply Hp'.
        * rewrite (at_store HO eqd Hks _ Hk Hlt).
          assert (Eq : map (pm_set eqd (pm_set eqd m k (Some v')) k None) ks = map (pm_set eqd m k None) ks).
          { apply map_ext. intros x. unfold pm_set. destruct (eqd k x); reflexivity. }
          rewrite Eq. destruct (drop st1 (k, v')) as [st2 r] eqn:Ed. destruct (res_cases r) as [->|Hr].
          -- destruct (IH (kpre ++ [k]) (pm_set eqd m k None) it' st2 fuel E' H2 Hfu')
               as (st' & m' & out & r & G1 & G2 & G3 & G4). rewrite Hent in *.
             exists st', m', out, r. split; [exact G1|]. split; [eapply retains_drop; eassumption|].
             split; [rewrite (G4 _ Hin), Hself; exact G3|].
             intros x Hx. rewrite (G4 _ (Hpre _ Hx)). apply pm_set_other. now apply Hp'.
          -- exists st2, (pm_set eqd m k None), (pm_entries kmid m), r.
             split; [destruct r as [u| | | |]; [now elim (Hr u)|reflexivity..]|].
             split; [eapply retains_drop_fails; eassumption|]. rewrite Hself. split; [apply Hent|].
             intros x Hx. apply pm_set_other. now apply Hp'.
        * exists st1, (pm_set eqd m k (Some v')), ((k, v') :: pm_entries kmid m), (Panic w).
          split; [reflexivity|]. split; [now apply retains_f_panics|]. rewrite Hself, Hent. split; [reflexivity|].
          intros x Hx. apply pm_set_other. now apply Hp'.
      + destruct (IH (kpre ++ [k]) m it' st fuel E' H2 Hfu') as (st' & m' & out & r & G1 & G2 & G3 & G4).
        exists st', m', out, r. split; [exact G1|]. split; [exact G2|].
        split; [rewrite (G4 _ Hin), Em; exact G3|]. intros x Hx. now apply G4, Hpre.
  Qed.
End RetainLoop.

Section RetainLaw.
  Context {cfg : Config} {K V : Type} (O : Ordinal K) (n : N) (HO : ordinal_bijection O n).

  Lemma array_retain_with S (a : @OrdinalArrayMap V S) : array_reachable O a ->
    forall l, lists_entries O (OrdinalArrayMap_get O a) l ->
    forall (St : Type) (f : St -> K -> V -> St * V * res bool) (drop : St -> K * V -> St * res unit) (s : St),
    (forall st k v, safe (snd (f st k v))) ->
    exists s' (a' : @OrdinalArrayMap V S) out r, OrdinalArrayMap_retain_with O drop f a s = (s', arr_list a', r) /\
      retains f drop s l s' out r /\ lists_entries O (OrdinalArrayMap_get O a') out.
  Proof.
    intros H l Hl St f drop s Hf. destruct (array_lists_eq HO H Hl) as (ks & m & He & Ha & ->).
    unfold OrdinalArrayMap_retain_with, OrdinalTotalArrayMap_iter_mut. pose proof Ha as Ea. unfold array_rep in Ea.
    rewrite Ea, map_length.
    destruct (@retain_with_loop _ _ _ St O n HO (key_eq_dec HO) ks He f Hf drop ks [] m _ s (Datatypes.S (length ks)) eq_refl
      (pending_slots (ks_slots HO He))) as (s' & m' & out & r & G1 & G2 & G3 & _); [lia|].
    unfold TIterMut_new, enumerate_new. rewrite G1.
    destruct (@try_arr_ok (option V) S (map m' ks)) as (a' & Et & El).
    { rewrite map_length. rewrite <- (map_length m ks). rewrite <- Ea. apply arr_length. }
    exists s', a', out, r. rewrite El. split; [reflexivity|]. split; [exact G2|]. rewrite <- G3.
    apply (array_lists HO He). exact El.
  Qed.
End RetainLaw.

(** ** ArrayBuilder *)
Section BuilderDrop.
  Context {T St : Type} (drop : St -> T -> St * res unit).

  Lemma builder_drop_with_loop vs : forall pre post st,
    exists st' left r, builder_drop_loop_with drop (pre ++ map Some vs ++ post) (length vs) (length pre) st =
        (st', pre ++ repeat None (length vs - length left) ++ map Some left ++ post, r) /\
      drops drop st vs st' left r /\ exists gone, vs = gone ++ left.
  Proof.
    induction vs as [|v vs IH]; intros pre post st; cbn [length builder_drop_loop_with map app].
    - exists st, [], (Val tt). repeat split; [constructor|]. now exists [].
    - rewrite nth_error_app2, Nat.sub_diag by lia. cbn [nth_error]. destruct (drop st v) as [st1 r] eqn:Ed.
      assert (Es : list_set (pre ++ Some v :: map Some vs ++ post) (length pre) None =
                   (pre ++ [None]) ++ map Some vs ++ post).
      { clear. induction pre as [|x pre IHp]; cbn [app length list_set]; [reflexivity|]. now rewrite IHp. }
      rewrite Es. destruct (res_cases r) as [->|Hr].
      + destruct (IH (pre ++ [None]) post st1) as (st' & left & r & G1 & G2 & gone & ->).
        replace (length (pre ++ [@None T])) with (S (length pre)) in G1 by (rewrite app_length; cbn; lia).
        exists st', left, r. rewrite G1. split; [|split; [eapply drops_next; eassumption|now exists (v :: gone)]].
        rewrite app_length. replace (S (length gone + length left) - length left)%nat with (S (length gone)) by lia.
        replace (length gone + length left - length left)%nat with (length gone) by lia.
        cbn [repeat app]. rewrite <- app_assoc. reflexivity.
      + exists st1, vs, r. split; [|split; [now apply drops_fail|now exists [v]]].
        replace (S (length vs) - length vs)%nat with 1%nat by lia. cbn [repeat app]. rewrite <- app_assoc. cbn [app].
        destruct r as [u| | | |]; [now elim (Hr u)|reflexivity..].
  Qed.

  Lemma builder_drop_law S vs b st : pushes S vs (builder_new S) = Val b ->
    exists st' cells left r, builder_drop_with drop b st = (st', cells, r) /\ drops drop st vs st' left r /\
      somes cells = left.
  Proof.
    intros E. assert (Eb : b = builder_of S vs).
    { pose proof (builder_law S vs) as H. destruct (Nat.leb_spec (length vs) S) as [Hl|Hl].
      - clear H. assert (G : forall (l done : list T), (length done + length l <= S)%nat ->
          pushes S l (builder_of S done) = Val (builder_of S (done ++ l))).
        { induction l as [|v l IH]; intros done Hd; cbn [pushes]; [now rewrite app_nil_r|].
          cbn [length] in Hd. rewrite push_ok by lia. cbn [bind]. rewrite IH by (rewrite app_length; cbn; lia).
          now rewrite <- app_assoc. }
        rewrite builder_new_of, G in E by (cbn; lia). now injection E as <-.
      - rewrite H in E. discriminate E. }
    subst b. unfold builder_drop_with, builder_of. cbn [b_cells b_filled].
    destruct (builder_drop_with_loop vs [] (repeat None (S - length vs)) st) as (st' & left & r & G1 & G2 & _).
    cbn [app length] in G1. exists st'. eexists. exists left, r. split; [exact G1|]. split; [exact G2|].
    assert (R : forall c l, somes (repeat None c ++ l) = somes (A := T) l).
    { induction c as [|c IHc]; intros l; [reflexivity|]. cbn [repeat app somes]. apply IHc. }
    rewrite R. clear. induction left as [|x left IH]; cbn [map app somes].
    - rewrite <- (app_nil_r (repeat None _)). induction (S - length vs)%nat as [|c IHc]; [reflexivity|exact IHc].
    - change (x :: somes (map Some left ++ repeat None (S - length vs)) = x :: left). now rewrite IH.
  Qed.
End BuilderDrop.

(** ** FromIterator *)
Section ForLoop.
  Context {St C M A D : Type} (next : St -> St * res (option A)) (put : M -> A -> M)
    (old : M -> A -> option D) (drop : St -> D -> St * res unit).
  Context (body : St -> C -> A -> St * C * res unit) (R : C -> M -> Prop).
  Hypothesis next_safe : forall st, safe (snd (next st)).
  Hypothesis drop_safe : forall st d, safe (snd (drop st d)).
  Hypothesis body_ok : forall st c m x, R c m -> exists c', R c' (put m x) /\
    body st c x = match old m x with
                  | None => (st, c', Val tt)
                  | Some d => (fst (drop st d), c', snd (drop st d))
                  end.

  Lemma for_loop_complete m st m' st' r : builds next put old drop m st m' st' r ->
    exists turns, forall fuel c, (turns <= fuel)%nat -> R c m ->
      exists c', for_loop next body fuel c st = (st', c', r) /\ R c' m'.
  Proof.
    induction 1 as [m st st' E|m st st' w E|m st st1 x m' st' r E Eo HB [t IH]
                   |m st st1 st2 x d m' st' r E Eo Ed HB [t IH]|m st st1 x d st' w E Eo Ed].
    - exists 1%nat. intros [|fuel] c Hf HR; [lia|]. cbn [for_loop]. rewrite E. eauto.
    - exists 1%nat. intros [|fuel] c Hf HR; [lia|]. cbn [for_loop]. rewrite E. eauto.
    - exists (S t). intros [|fuel] c Hf HR; [lia|]. cbn [for_loop]. rewrite E.
      destruct (body_ok st1 x HR) as (c1 & HR1 & ->). rewrite Eo. apply IH; [lia|exact HR1].
    - exists (S t). intros [|fuel] c Hf HR; [lia|]. cbn [for_loop]. rewrite E.
      destruct (body_ok st1 x HR) as (c1 & HR1 & ->). rewrite Eo, Ed. cbn [fst snd]. apply IH; [lia|exact HR1].
    - exists 1%nat. intros [|fuel] c Hf HR; [lia|]. cbn [for_loop]. rewrite E.
      destruct (body_ok st1 x HR) as (c1 & HR1 & ->). rewrite Eo, Ed. cbn [fst snd]. eauto.
  Qed.

  Lemma for_loop_sound fuel : forall c m st, R c m -> exists st' c' r, for_loop next body fuel c st = (st', c', r) /\
    (r = OutOfFuel \/ exists m', builds next put old drop m st m' st' r /\ R c' m').
  Proof.
    induction fuel as [|fuel IH]; intros c m st HR; cbn [for_loop].
    - do 3 eexists. split; [reflexivity|now left].
    - pose proof (next_safe st) as Hn. destruct (next st) as [st1 o] eqn:E. cbn [snd] in Hn.
      destruct o as [[x|]|w| | |]; try contradiction Hn.
      + destruct (body_ok st1 x HR) as (c1 & HR1 & ->). destruct (old m x) as [d|] eqn:Eo.
        * pose proof (drop_safe st1 d) as Hd. destruct (drop st1 d) as [st2 r] eqn:Ed. cbn [fst snd] in *.
          destruct r as [[]|w| | |]; try contradiction Hd.
          -- destruct (IH c1 _ st2 HR1) as (st' & c' & r & G & [->|(m' & HB & HR')]).
             ++ do 3 eexists. split; [exact G|now left].
             ++ do 3 eexists. split; [exact G|]. right. exists m'. split; [eapply builds_replace; eassumption|exact HR'].
          -- do 3 eexists. split; [reflexivity|]. right. exists (put m x). split; [eapply builds_drop_panics; eassumption|exact HR1].
        * destruct (IH c1 _ st1 HR1) as (st' & c' & r & G & [->|(m' & HB & HR')]).
          -- do 3 eexists. split; [exact G|now left].
          -- do 3 eexists. split; [exact G|]. right. exists m'. split; [eapply builds_new; eassumption|exact HR'].
      + do 3 eexists. split; [reflexivity|]. right. exists m. split; [now apply builds_end|exact HR].
      + do 3 eexists. split; [reflexivity|]. right. exists m. split; [now apply builds_panic|exact HR].
  Qed.

  Lemma for_loop_computes (run : nat -> res (St * C * res unit)) c0 m0 st (shows : C -> M -> Prop) : R c0 m0 ->
    (forall fuel, run fuel = Val (for_loop next body fuel c0 st)) -> (forall c m, R c m -> shows c m) ->
    computes run shows (fun m st' r => builds next put old drop m0 st m st' r).
  Proof.
    intros HR Hrun Hs. split.
    - intros m st' r HB. destruct (for_loop_complete HB) as (t & G). exists t. intros fuel Hf.
      destruct (G fuel c0 Hf HR) as (c & E & HR'). exists c. rewrite Hrun, E. auto.
    - intros fuel. destruct (for_loop_sound fuel st HR) as (st' & c' & r & E & [->|(m & HB & HR')]);
        do 3 eexists; (split; [rewrite Hrun, E; reflexivity|]); [now left|right; eauto].
  Qed.
End ForLoop.

Section FromIterLaw.
  Context {cfg : Config} {K V St : Type} (O : Ordinal K) (n : N) (HO : ordinal_bijection O n).
  Context (eqd : forall a b : K, {a = b} + {a <> b}).

  Section Maps.
    Context (next : St -> St * res (option (K * V))) (drop : St -> K * V -> St * res unit) (st : St).
    Hypothesis next_safe : forall st, safe (snd (next st)).
    Hypothesis drop_safe : forall st d, safe (snd (drop st d)).

    Lemma heap_from_iter_with : computes (fun fuel => OrdinalMap_from_iter_with O drop next fuel st)
      (fun c m => forall k, OrdinalMap_get O c k = Val (m k)) (builds_map eqd next drop st).
    Proof.
      destruct (keys_exist HO) as (ks & He).
      unfold builds_map.
      eapply (@for_loop_computes _ _ _ _ _ next _ _ drop _ (heap_rep O n ks) next_safe drop_safe).
      2: exact (heap_new_rep O n ks). 2: reflexivity. 2: intros c m H k; exact (rep_get HO He H k).
      intros s c m [k v] H. destruct (heap_step_ok HO eqd He (op := @OpInsert K V k v) eq_refl eq_refl H) as (c' & E & H1).
      cbn [heap_step spec_step fst snd] in *. exists c'. split; [exact H1|]. unfold insert_stmt. cbn [fst snd].
      destruct (OrdinalMap_insert O c k v) as [[o c1]| | | |]; cbn [bind] in E; try discriminate E.
      injection E as -> ->. destruct (m k); [|reflexivity]. now destruct (drop s (k, v0)).
    Qed.

    Lemma array_from_iter_with S : N.of_nat S = n -> computes (fun fuel => OrdinalArrayMap_from_iter_with O drop S next fuel st)
      (fun c m => forall k, OrdinalArrayMap_get O c k = Val (m k)) (builds_map eqd next drop st).
    Proof.
      intros Hn. destruct (keys_exist HO) as (ks & He). destruct (array_new_rep HO He (V := V) Hn) as (a0 & E0 & H0).
      unfold builds_map.
      eapply (@for_loop_computes _ _ _ _ _ next _ _ drop _ (@array_rep _ _ ks S) next_safe drop_safe).
      2: exact H0. 2: intros fuel; unfold OrdinalArrayMap_from_iter_with; rewrite E0; reflexivity.
      2: intros c m H k; exact (array_get_ok HO He k H).
      intros s c m [k v] H. destruct (array_step_ok HO eqd He (@OpInsert K V k v) H) as (c' & E & H1).
      cbn [array_step spec_step fst snd] in *. exists c'. split; [exact H1|]. unfold insert_stmt. cbn [fst snd].
      destruct (OrdinalArrayMap_insert O c k v) as [[o c1]| | | |]; cbn [bind] in E; try discriminate E.
      injection E as -> ->. destruct (m k); [|reflexivity]. now destruct (drop s (k, v0)).
    Qed.
  End Maps.

  Section Sets.
    Context (next : St -> St * res (option K)) (st : St).
    Hypothesis next_safe : forall st, safe (snd (next st)).

    Lemma set_from_iter_with : n <= usize_max - 64 -> computes (fun fuel => OrdinalSet_from_iter_with O next fuel st)
      (fun c m => forall k, OrdinalSet_contains O c k = Val (m k)) (builds_set eqd next st).
    Proof.
      intros Hn. destruct (set_new_law HO) as (s0 & E0 & H0). unfold builds_set.
      eapply (@for_loop_computes _ _ _ _ _ next _ _ _ _ (@set_inv _ O n) next_safe).
      3: exact H0. 3: intros fuel; unfold OrdinalSet_from_iter_with; rewrite E0; reflexivity.
      3: intros c m H k; exact (set_contains_law HO k H).
      { intros s d. exact I. }
      intros s c m k H. destruct (set_insert_law HO eqd k (or_introl Hn) H) as (c' & E & H1).
      exists c'. split; [exact H1|]. unfold set_stmt. rewrite E. reflexivity.
    Qed.

    Lemma array_set_from_iter_with S : ordinal_array_set_s O = Val (N.of_nat S) ->
      computes (fun fuel => OrdinalArraySet_from_iter_with O S next fuel st)
      (fun c m => forall k, OrdinalArraySet_contains O c k = Val (m k)) (builds_set eqd next st).
    Proof.
      intros HS. rewrite (array_set_s_eq HO) in HS. assert (Hn : N.of_nat S = wcount n) by congruence.
      destruct (array_new_law HO Hn) as (s0 & E0 & H0). unfold builds_set.
      eapply (@for_loop_computes _ _ _ _ _ next _ _ _ _ (@array_set_inv _ O n S) next_safe).
      3: exact H0. 3: intros fuel; unfold OrdinalArraySet_from_iter_with; rewrite E0; reflexivity.
      3: intros c m H k; exact (array_contains_law HO k H).
      { intros s d. exact I. }
      intros s c m k H. destruct (array_insert_law HO eqd k H) as (c' & E & H1).
      exists c'. split; [exact H1|]. unfold set_stmt. rewrite E. reflexivity.
    Qed.

    Lemma set64_from_iter_with : n <= 64 -> computes (fun fuel => OrdinalSet64_from_iter_with O next fuel st)
      (fun c m => forall k, OrdinalSet64_contains O c k = Val (m k)) (builds_set eqd next st).
    Proof.
      intros Hn. destruct (set64_new_law HO Hn) as (E0 & H0). unfold builds_set.
      eapply (@for_loop_computes _ _ _ _ _ next _ _ _ _ (@set64_inv _ O n) next_safe).
      3: exact H0. 3: intros fuel; unfold OrdinalSet64_from_iter_with; rewrite E0; reflexivity.
      3: intros c m H k; exact (set64_contains_law HO k H).
      { intros s d. exact I. }
      intros s c m k H. destruct (set64_or_all_law HO eqd [k] H) as (c' & E & H1).
      exists c'. split; [exact H1|]. unfold set_stmt. cbn [OrdinalSet64_or_all] in E.
      destruct (ordinal O k) as [i| | | |]; cbn [bind] in *; try discriminate E.
      destruct (u64_shl 1 i); cbn [bind] in *; try discriminate E. now injection E as ->.
    Qed.
  End Sets.
End FromIterLaw.
