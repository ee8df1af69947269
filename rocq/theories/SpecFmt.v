(** * SpecFmt: what formatting code does, and the text expected of Debug.

    A formatting function ([fmt::Debug::fmt] under fixed flags) hands strings to a sink
    ([fmt::Write]), is told each time whether the sink took it, and returns a [fmt::Result] or
    panics. It is written as a program: *)
From Coq Require Import Ascii String List.
From Verif Require Import Base.
Import ListNotations.

Inductive writing :=
| Return (r : res bool)                           (** [Ok(())] is [Val true], [Err] is [Val false] *)
| WriteStr (s : string) (k : bool -> writing).    (** [write_str(s)]; [k] gets whether it was [Ok] *)

(** What is written to a sink that takes everything, and how it ends. *)
Fixpoint heard (p : writing) : string * res bool :=
  match p with
  | Return r => (""%string, r)
  | WriteStr s k => let '(t, r) := heard (k true) in ((s ++ t)%string, r)
  end.
(** The function succeeds and its text is [t]. *)
Definition says (p : writing) (t : string) : Prop := heard p = (t, Val true).

(** Any sink: the strings offered to it and whether each was taken, and how it ends. *)
Fixpoint attempts {St : Type} (sink : St -> string -> bool * St) (st : St) (p : writing)
    : list (string * bool) * res bool :=
  match p with
  | Return r => ([], r)
  | WriteStr s k =>
      let '(ok, st') := sink st s in
      let '(l, r) := attempts sink st' (k ok) in ((s, ok) :: l, r)
  end.

(** The function passes the errors of the sink on: a refused write makes it return [Err] at once. *)
Fixpoint polite (p : writing) : Prop :=
  match p with
  | Return _ => True
  | WriteStr _ k => k false = Return (Val false) /\ polite (k true)
  end.

Definition newline : ascii := "010"%char.
Definition nl : string := String newline EmptyString.

(** Every non-empty line gets four spaces in front; [start] tells whether the text begins a line. *)
Fixpoint indented (start : bool) (s : string) : string :=
  match s with
  | EmptyString => EmptyString
  | String c s' => ((if start then "    " else "") ++ String c (indented (Ascii.eqb c newline) s'))%string
  end.

(** The text of a list of items between [open] and [close]: [{:?}] puts them on one line with ", "
    between them, [{:#?}] gives each its own lines, indented. *)
Definition bracketed (alternate : bool) (open close : string) (items : list string) : string :=
  if alternate then
    (open ++ (if items then "" else nl) ++
     String.concat "" (map (fun t => indented true (t ++ "," ++ nl)) items) ++ close)%string
  else (open ++ String.concat ", " items ++ close)%string.

(** What has been written when the item after [items] breaks off having written [t]. *)
Definition broken_off (alternate : bool) (open : string) (items : list string) (t : string) : string :=
  if alternate then
    (open ++ nl ++ String.concat "" (map (fun t => indented true (t ++ "," ++ nl)) items) ++ indented true t)%string
  else (open ++ String.concat "" (map (fun t => t ++ ", ") items) ++ t)%string.

(** The texts of a pair and of an entry of a map. *)
Definition pair_text (alternate : bool) (a b : string) : string := bracketed alternate "(" ")" [a; b].
Definition entry_text (k v : string) : string := (k ++ ": " ++ v)%string.

(** [p] prints the items, each shown by a program of [items], between [open] and [close]: the text
    when all succeed; where it stops when one returns [Err] or panics; and errors of
    the sink are passed on. *)
Definition prints (alternate : bool) (open close : string) (p : writing) (items : list writing) : Prop :=
  (forall ts, Forall2 says items ts -> says p (bracketed alternate open close ts)) /\
  (forall before q after ts t r, items = before ++ q :: after -> Forall2 says before ts ->
     heard q = (t, r) -> r <> Val true -> heard p = (broken_off alternate open ts t, r)) /\
  (Forall polite items -> polite p).

(** [q] prints the entry of a map whose key and value are shown by [k] and [v]. *)
Definition prints_entry (q k v : writing) : Prop :=
  (forall a b, says k a -> says v b -> says q (entry_text a b)) /\
  (forall t r, heard k = (t, r) -> r <> Val true -> heard q = (t, r)) /\
  (forall a t r, says k a -> heard v = (t, r) -> r <> Val true -> heard q = (entry_text a t, r)) /\
  (polite k -> polite v -> polite q).

Section Collections.
  Context {A B : Type} (alternate : bool) (showA : A -> writing) (showB : B -> writing).
  Definition prints_list (p : writing) (l : list A) : Prop := prints alternate "[" "]" p (map showA l).
  Definition prints_set (p : writing) (l : list A) : Prop := prints alternate "{" "}" p (map showA l).
  Definition prints_pairs (p : writing) (l : list (A * B)) : Prop :=
    exists qs, Forall2 (fun q e => prints alternate "(" ")" q [showA (fst e); showB (snd e)]) qs l /\
      prints alternate "[" "]" p qs.
  Definition prints_map (p : writing) (l : list (A * B)) : Prop :=
    exists qs, Forall2 (fun q e => prints_entry q (showA (fst e)) (showB (snd e))) qs l /\
      prints alternate "{" "}" p qs.
End Collections.
