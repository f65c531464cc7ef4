(** Vocabulary for C32-C34. *)
From Verif Require Export LexSpec2 ComplModel.
Open Scope nat_scope.

(** Token sequences with balanced parentheses. *)
Inductive balanced : list Tok -> Prop :=
| bal_nil : balanced []
| bal_other k w : k <> T_LPAREN -> k <> T_RPAREN -> balanced w -> balanced (k :: w)
| bal_paren u w : balanced u -> balanced w -> balanced (T_LPAREN :: u ++ T_RPAREN :: w).

(** [encloses ks c p]: position [p] is the opening parenthesis of the argument list the
    position [c] is in; no token the lexer could not make sense of lies in between. *)
Definition encloses (ks : list Tok) (c p : nat) : Prop :=
  exists pre args post, ks = pre ++ T_LPAREN :: args ++ post /\
    List.length pre = p /\ p + S (List.length args) = c /\
    balanced args /\ ~ In T_INVALID args.

(** The text ends inside a block comment that was opened and not closed. *)
Definition endsInBlockComment (cc : CharClass) (text : qstring) : Prop :=
  exists toks l r, handsOut cc text initHtml toks l /\
    inPhp cc text l (str "/*" ++ r) /\ ~ contains (str "*/") r.

(** The text ends inside a comment started by # or by two (not three) slashes. *)
Definition endsInLineComment (cc : CharClass) (text : qstring) : Prop :=
  exists toks l start r, handsOut cc text initHtml toks l /\
    inPhp cc text l (start ++ r) /\ oneLine (start ++ r) /\
    (start = str "#" \/ (start = str "//" /\ forall x, r <> cSLASH :: x)).

(** The text ends inside a documentation comment started by three slashes. *)
Definition endsInDocLine (cc : CharClass) (text : qstring) : Prop :=
  exists toks l r, handsOut cc text initHtml toks l /\
    inPhp cc text l (str "///" ++ r) /\ oneLine (str "///" ++ r).
