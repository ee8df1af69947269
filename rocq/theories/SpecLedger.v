(** * SpecLedger: an account of the values.

    Values are things that are moved around: what a client gives to a map comes back to it, is
    dropped, or stays in the map. For each operation and each result the account says which
    values go in ([given]), which come out ([taken]: returned, or replaced by an assignment
    through a reference) and which are destroyed ([dropped]); [h] and [h'] are the values in the
    map before and after. *)
From Verif Require Import Base Spec SpecMap SpecTotal SpecCatch SpecResume.
From Coq Require Import List Permutation. Import ListNotations.

Definition opt_list {A} (o : option A) : list A := match o with Some a => [a] | None => [] end.

(** Nothing is lost and nothing is there twice. *)
Definition balanced {V : Type} (h given taken dropped h' : list V) : Prop :=
  Permutation (h ++ given) (taken ++ dropped ++ h').

Section Maps.
  Context {K V : Type}.

  (** What the closure of [retain] leaves behind for the entries [l], and its verdicts. *)
  Definition verdicts (f : K -> V -> V * bool) (l : list (K * V)) : list (V * bool) :=
    map (fun kv => f (fst kv) (snd kv)) l.
  Definition kept (r : list (V * bool)) : list V := map fst (filter snd r).
  Definition rejected (r : list (V * bool)) : list V := map fst (filter (fun x => negb (snd x)) r).

  Definition map_account (op : map_op K V) (s : seen (map_out K V)) (h given taken dropped h' : list V) : Prop :=
    match op, s with
    | OpInsert _ v, Seen o => exists old, o = OutValue old /\ given = [v] /\ taken = opt_list old /\ dropped = []
    | OpGetMut _ w, Seen o => exists old, o = OutValue old /\ taken = opt_list old /\ dropped = [] /\
        given = match old with Some _ => [w] | None => [] end
    | OpRemove _, Seen o => exists old, o = OutValue old /\ given = [] /\ taken = opt_list old /\ dropped = []
    | OpClear, Seen _ => given = [] /\ taken = [] /\ h' = []
    | OpDrain _ leak, Seen o => exists got, o = OutEntries got /\ given = [] /\ taken = map snd (somes got) /\
        if leak then dropped = [] else h' = []
    | OpIterMut _ f, Seen o => exists got, o = OutEntries got /\ taken = map snd (somes got) /\ dropped = [] /\
        given = map (fun kv => f (fst kv) (snd kv)) (somes got)
    | OpValuesMut _ f, Seen o => exists got, o = OutValues got /\ taken = somes got /\ dropped = [] /\
        given = map f (somes got)
    | OpEntryMatch _ v w, Seen o => exists k old, o = OutEntry k old /\ taken = opt_list old /\ dropped = [] /\
        given = [match old with Some _ => w | None => v end]
    | OpEntryOrInsert _ v w, Seen o => exists cur, o = OutValue (Some cur) /\ taken = [cur] /\ dropped = [] /\
        (given = [w] \/ cur = v /\ given = [v; w])
    | OpRetain f, Seen _ => exists l, h = map snd l /\ given = map fst (verdicts f l) /\ taken = h /\
        dropped = rejected (verdicts f l) /\ h' = kept (verdicts f l)
    | OpClone cl, Seen _ => given = map cl h /\ taken = [] /\ dropped = h
    (** A panic: values that the unfinished call has taken out are dropped. *)
    | (OpClear | OpDrain _ _), Caught _ => given = [] /\ taken = []
    | OpRetain f, Caught _ => exists l rest, h = map snd l ++ rest /\ given = map fst (verdicts f l) /\
        taken = map snd l /\ dropped = rejected (verdicts f l) /\ h' = kept (verdicts f l) ++ rest
    | _, _ => given = [] /\ taken = [] /\ dropped = []
    end.

  Definition total_account (op : total_op K V) (s : seen (total_out K V)) (h given taken dropped : list V) : Prop :=
    match op, s with
    | (TGetMut _ v | TIndexMut _ v | TInsert _ v), Seen o =>
        exists old, o = TOValue old /\ given = [v] /\ taken = [old] /\ dropped = []
    | TIterMut_ _ f, Seen o => exists got, o = TOEntries got /\ taken = map snd (somes got) /\ dropped = [] /\
        given = map (fun kv => f (fst kv) (snd kv)) (somes got)
    | TValuesMut_ _ f, Seen o => exists got, o = TOValues got /\ taken = somes got /\ dropped = [] /\
        given = map f (somes got)
    | TClone_ cl, Seen _ => given = map cl h /\ taken = [] /\ dropped = h
    | _, _ => given = [] /\ taken = [] /\ dropped = []
    end.
End Maps.

(** The books of a program: an account for every call, each balanced, and the sums. *)
Section Books.
  Context {Op Out V : Type} (account : Op -> seen Out -> list V -> list V -> list V -> list V -> list V -> Prop).

  Inductive books : list Op -> list (seen Out) -> list V -> list V -> list V -> list V -> list V -> Prop :=
  | books_end h : books [] [] h [] [] [] h
  | books_call op ops s outs h g t d h1 gs ts ds h2 :
      account op s h g t d h1 -> balanced h g t d h1 ->
      books ops outs h1 gs ts ds h2 ->
      books (op :: ops) (s :: outs) h (g ++ gs) (t ++ ts) (d ++ ds) h2.
End Books.
