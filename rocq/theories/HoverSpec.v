(** Specification for C47 and C48. *)
From Verif Require Import Chars HoverModel.

(** Columns [a, b) of a line hold a maximal run of word characters. *)
Definition wordAt (cc : CharClass) (line : qstring) (i : nat) : Prop :=
  exists c, nth_error line i = Some c /\ inWord cc c = true.
Definition maximalWord (cc : CharClass) (line : qstring) (a b : nat) : Prop :=
  (a <= b <= List.length line)%nat /\ (forall i, (a <= i < b)%nat -> wordAt cc line i) /\
  ~ wordAt cc line b /\ (forall i, S i = a -> ~ wordAt cc line i).
Definition columns (line : qstring) (a b : nat) : qstring := firstn (b - a) (skipn a line).

(** [At pos t ch]: [ch] are the scopes of [t] around [pos], innermost first, down to a scope none
    of whose children contains [pos]. *)
Definition covers (t : Tree) (pos : nat) : bool := match t with T n _ => contains n pos end.
Inductive At (pos : nat) : Tree -> list Node -> Prop :=
| AtHere n cs : contains n pos = true -> (forall c, In c cs -> covers c pos = false) -> At pos (T n cs) [n]
| AtChild n cs c ch : contains n pos = true -> In c cs -> At pos c ch -> At pos (T n cs) (ch ++ [n]).

(** Sibling scopes do not overlap. *)
Inductive wfTree : Tree -> Prop :=
| wfT n cs : (forall c, In c cs -> wfTree c) ->
    (forall i j a b, nth_error cs i = Some a -> nth_error cs j = Some b -> i <> j ->
       forall pos, covers a pos = true -> covers b pos = false) -> wfTree (T n cs).

(** [c] is the innermost scope of kind [k] in [ch], [up] the scopes around it. *)
Definition innermost (k : CK) (ch : list Node) (c : Node) (up : list Node) : Prop :=
  exists inner, ch = inner ++ c :: up /\ nKind c = k /\ Forall (fun x => nKind x <> k) inner.
