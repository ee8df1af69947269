(** * SpecStd: what the provided iterator methods return, on lists. *)
From Verif Require Import Base Spec SpecIter ModelValues ModelStd.

(** A short-circuiting search through [l]: the elements before the match are related to
    [before], the match is [x], and the iterator is left with [rest]. *)
Definition search_ok {A B} (rel : A -> B -> Prop) (p : A -> bool) (l : list B)
    (found : option (nat * A)) (rest : list B) : Prop :=
  match found with
  | Some (i, x) => exists got before y, l = before ++ y :: rest /\ length before = i /\
      Forall2 rel got before /\ forallb (fun a => negb (p a)) got = true /\ rel x y /\ p x = true
  | None => rest = [] /\ exists got, Forall2 rel got l /\ forallb (fun a => negb (p a)) got = true
  end.

(** Every provided method of the iterator [s] acts on the remaining elements [l]; methods that
    leave the iterator usable leave it at the right place, with [P] still holding. *)
Record provided_methods {cfg : Config} {St A B : Type} (rel : A -> B -> Prop)
    (step : dir -> St -> res (option A * St)) (s : St) (l : list B) (P : St -> list B -> Prop) : Prop := {
  pm_nth : forall n, exists o s', it_nth (step Front) n s = Val (o, s') /\
    opt_rel rel o (nth_error l n) /\ double_ended_rel rel step s' (skipn (S n) l) P;
  pm_nth_back : forall n, exists o s', it_nth (step Back) n s = Val (o, s') /\
    opt_rel rel o (nth_error (rev l) n) /\ double_ended_rel rel step s' (rev (skipn (S n) (rev l))) P;
  pm_fold : forall C (f : C -> A -> C) c fuel, (length l < fuel)%nat ->
    exists got, Forall2 rel got l /\ it_fold (step Front) f fuel c s = Val (fold_left f got c);
  pm_rfold : forall C (f : C -> A -> C) c fuel, (length l < fuel)%nat ->
    exists got, Forall2 rel got (rev l) /\ it_fold (step Back) f fuel c s = Val (fold_left f got c);
  pm_last : forall fuel, (length l < fuel)%nat ->
    exists o, it_last (step Front) fuel s = Val o /\ opt_rel rel o (nth_error (rev l) 0);
  pm_count : forall fuel, (length l < fuel)%nat -> llen l <= usize_max ->
    it_count (step Front) fuel s = Val (llen l);
  pm_find : forall p fuel, (length l < fuel)%nat -> exists found s' rest,
    it_find (step Front) p fuel s = Val (opt_map snd found, s') /\
    it_position (step Front) p fuel s = Val (opt_map fst found, s') /\
    it_any (step Front) p fuel s = Val (match found with Some _ => true | None => false end, s') /\
    it_all (step Front) (fun a => negb (p a)) fuel s = Val (match found with Some _ => false | None => true end, s') /\
    search_ok rel p l found rest /\ double_ended_rel rel step s' rest P;
  pm_rfind : forall p fuel, (length l < fuel)%nat -> exists found s' rest,
    it_find (step Back) p fuel s = Val (opt_map snd found, s') /\
    search_ok rel p (rev l) found rest /\ double_ended_rel rel step s' (rev rest) P;
  pm_rev : double_ended_rel rel (rev_step step) s (rev l) (fun s r => P s (rev r));
  pm_collect : exists fuel got s', collect (step Front) fuel s = Val (got, s') /\ Forall2 rel got l;
  pm_collect_rev : exists fuel got s', collect (rev_step step Front) fuel s = Val (got, s') /\ Forall2 rel got (rev l)
}.
