(** Vocabulary for the second half of C13. *)
From Verif Require Export LexSpec2.

(** In the character database blanks are neither digits nor letters (true of Unicode, where
    the general categories Z*, Nd and L* are disjoint, and of QChar::isSpace's ASCII blanks). *)
Definition blanksNotNames (cc : CharClass) : Prop :=
  forall c, isSpace cc c = true -> isDigit cc c = false /\ isLetter cc c = false.

(** [A] is the document up to and including the last of the tokens. *)
Definition endsBehind (A : qstring) (toks : list Token) : Prop :=
  exists pre t, toks = pre ++ [t] /\ t_end t = (Z.of_nat (List.length A) - 1)%Z.
