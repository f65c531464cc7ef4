(** Vocabulary for the statements about tokenizing (C01-C06, C13).  Nothing here refers to how
    the lexer works; only the types of its results come from the model. *)
From Verif Require Export LexModel.
From Coq Require Export Sorted.
Open Scope nat_scope.

(** QString::mid(pos, n) for 0 <= pos; a negative n means "to the end". *)
Definition mid (s : qstring) (pos n : Z) : qstring :=
  if (n <? 0)%Z then skipn (Z.to_nat pos) s
  else firstn (Z.to_nat n) (skipn (Z.to_nat pos) s).

(** ParseSession::symbol(token), parser/parsesession.cpp 141-145:
    m_contents.mid(token.begin, token.end - token.begin + 1). *)
Definition symbol (content : qstring) (t : Token) : qstring :=
  mid content (t_begin t) (t_end t - t_begin t + 1).

(** Consecutive tokens touch: each begins one behind the end of its predecessor. *)
Fixpoint contiguous (from : Z) (ts : list Token) : Prop :=
  match ts with
  | [] => True
  | t :: r => t_begin t = from /\ contiguous (t_end t + 1) r
  end.

(** A comment opened but never closed. *)
Definition openBlockComment (s : qstring) : Prop :=
  exists r, s = str "/*" ++ r /\ forall a b, r <> a ++ str "*/" ++ b.

(** The token sequence ends in __halt_compiler ( ) ; with blanks or comments in between. *)
Definition blanks (ts : list Token) : Prop :=
  Forall (fun t => t_kind t = T_WHITESPACE \/ t_kind t = T_COMMENT \/ t_kind t = T_DOC_COMMENT) ts.
Definition endsWithHalt (ts : list Token) : Prop :=
  exists pre h w1 lp w2 rp w3 semi,
    ts = pre ++ h :: w1 ++ lp :: w2 ++ rp :: w3 ++ [semi] /\
    t_kind h = T_HALT_COMPILER /\ t_kind lp = T_LPAREN /\ t_kind rp = T_RPAREN /\
    t_kind semi = T_SEMICOLON /\ blanks w1 /\ blanks w2 /\ blanks w3.

(** The offsets of the newline characters. *)
Definition isNL (s : qstring) (i : nat) : bool :=
  match nth_error s i with Some c => (c =? cNL)%N | None => false end.
Definition nlOffsets (s : qstring) : list nat := filter (isNL s) (seq 0 (List.length s)).

(** The word yield (any case) followed by blanks and fewer than three further characters. *)
Definition yieldAtEnd (cc : CharClass) (content : qstring) : Prop :=
  exists pre y w r, content = pre ++ y ++ w ++ r /\ map (foldCase cc) y = str "yield" /\
                    forallb (isSpace cc) w = true /\ List.length r < 3.

(** An opening brace, a dollar and a digit in a row. *)
Definition braceDollarDigit (cc : CharClass) (content : qstring) : Prop :=
  exists pre d r, content = pre ++ str "{$" ++ d :: r /\ isDigit cc d = true.

(** The states a lexer can be in after some tokens. *)
Inductive reachable (cc : CharClass) (content : qstring) (l0 : LexState) : LexState -> Prop :=
| reach_init : reachable cc content l0 l0
| reach_step l l' t nl : reachable cc content l0 l ->
    nextToken cc content l = Some (l', t, nl) -> reachable cc content l0 l'.

(** The two ways the lexer is started: on a file and on an expression. *)
Definition initial (l : LexState) : Prop := l = initHtml \/ l = initDefault.

(** The tokens whose newlines are not recorded where they are: casts and "yield from", which
    may contain newlines, and a constant string running into the end of the document. *)
Definition castKind (k : Tok) : Prop :=
  In k [T_INT_CAST; T_DOUBLE_CAST; T_STRING_CAST; T_ARRAY_CAST; T_OBJECT_CAST; T_BOOL_CAST;
        T_UNSET_CAST].
Definition blindToken (content : qstring) (t : Token) : Prop :=
  (castKind (t_kind t) \/ t_kind t = T_YIELD_FROM \/
   (t_kind t = T_CONSTANT_ENCAPSED_STRING /\ t_end t = Z.of_nat (List.length content) - 1))%Z
  /\ In cNL (symbol content t).
