(** Vocabulary for C56 and C57: what the text in front of the cursor asks for. *)
From Verif Require Export ComplSpec.
Open Scope nat_scope.

(** The text in front of the cursor as kinds and texts of its tokens. *)
Notation piece := (Tok * qstring)%type.
Definition pieces (doc : qstring) (toks : list Token) : list piece := map (fun t => (t_kind t, symbol doc t)) toks.
(** Nothing is left behind the last token (no comment is open). *)
Definition covers (doc : qstring) (l : list piece) : Prop := List.concat (map snd l) = doc.

(** At most one stretch of blanks. *)
Inductive gap : list piece -> Prop :=
| gap_none : gap []
| gap_blank b : gap [(T_WHITESPACE, b)].

(** "A, B, " *)
Inductive nameList : list piece -> list qstring -> Prop :=
| nl_nil : nameList [] []
| nl_more items names w1 x w2 c : nameList items names -> gap w1 -> gap w2 ->
    nameList (items ++ w1 ++ [(T_STRING, x)] ++ w2 ++ [(T_COMMA, c)]) (names ++ [x]).

(** Tokens behind which an expression or a statement starts. *)
Definition codeKinds : list Tok :=
  [T_SEMICOLON; T_LBRACE; T_RBRACE; T_COLON; T_ASSIGN; T_PLUS_ASSIGN; T_MINUS_ASSIGN; T_MUL_ASSIGN; T_DIV_ASSIGN; T_MOD_ASSIGN;
   T_CONCAT_ASSIGN; T_AND_ASSIGN; T_OR_ASSIGN; T_XOR_ASSIGN; T_SL_ASSIGN; T_SR_ASSIGN; T_EXP_ASSIGN;
   T_PLUS; T_MINUS; T_MUL; T_DIV; T_MOD; T_EXP; T_CONCAT; T_SL; T_SR; T_BIT_AND; T_BIT_OR; T_BIT_XOR; T_TILDE;
   T_BOOLEAN_AND; T_BOOLEAN_OR; T_LOGICAL_AND; T_LOGICAL_OR; T_LOGICAL_XOR; T_BANG; T_QUESTION; T_NULL_COALESCE; T_ELLIPSIS;
   T_IS_EQUAL; T_IS_NOT_EQUAL; T_IS_IDENTICAL; T_IS_NOT_IDENTICAL; T_IS_SMALLER; T_IS_SMALLER_OR_EQUAL; T_IS_GREATER; T_IS_GREATER_OR_EQUAL;
   T_SPACESHIP; T_INT_CAST; T_DOUBLE_CAST; T_STRING_CAST; T_ARRAY_CAST; T_OBJECT_CAST; T_BOOL_CAST; T_UNSET_CAST;
   T_AT; T_LBRACKET; T_DOUBLE_ARROW; T_ECHO; T_PRINT; T_RETURN; T_EXIT; T_OPEN_TAG_WITH_ECHO; T_CURLY_OPEN; T_DOLLAR_OPEN_CURLY_BRACES;
   T_DOUBLE_QUOTE; T_ENCAPSED_AND_WHITESPACE; T_START_HEREDOC; T_STRING].
Definition modifiers : list Tok := [T_ABSTRACT; T_CONST; T_FINAL; T_PUBLIC; T_PRIVATE; T_PROTECTED; T_STATIC; T_VAR].
(** Tokens behind which nothing can be completed. *)
Definition deadKinds : list Tok :=
  [T_VARIABLE; T_LNUMBER; T_DNUMBER; T_NUM_STRING; T_RPAREN; T_RBRACKET; T_CLASS; T_INTERFACE; T_TRAIT; T_FUNCTION; T_INLINE_HTML; T_CLOSE_TAG;
   T_AS; T_GOTO; T_BREAK; T_CONTINUE; T_END_HEREDOC; T_END_NOWDOC; T_LINE; T_FILE; T_DIR; T_CLASS_C; T_METHOD_C; T_FUNC_C; T_NAMESPACE_C; T_TRAIT_C].

Notation blank b := (T_WHITESPACE, b).
(** [offers inClass l op forbidden]: behind [l] the user is asked to choose as [op] says, except
    the classes and interfaces named in [forbidden]. *)
Inductive offers (inClass : bool) : list piece -> Op -> list qstring -> Prop :=
| of_throw_new pre a b c d : offers inClass (pre ++ [(T_THROW, a); blank b; (T_NEW, c); blank d]) ExceptionChoose []
| of_new pre a b : (forall p x y, pre <> p ++ [(T_THROW, x); blank y]) -> offers inClass (pre ++ [(T_NEW, a); blank b]) NewClassChoose []
| of_throw pre a b : offers inClass (pre ++ [(T_THROW, a); blank b]) ExceptionInstanceChoose []
| of_catch pre a w1 b w2 : gap w1 -> gap w2 -> offers inClass (pre ++ [(T_CATCH, a)] ++ w1 ++ [(T_LPAREN, b)] ++ w2) ExceptionChoose []
| of_call pre k a w1 b w2 : gap w1 -> gap w2 -> k <> T_CATCH -> k <> T_WHITESPACE ->
    offers inClass (pre ++ [(k, a)] ++ w1 ++ [(T_LPAREN, b)] ++ w2) NoMemberAccess []
| of_instanceof pre a w : gap w -> offers inClass (pre ++ [(T_INSTANCEOF, a)] ++ w) InstanceOfChoose []
| of_extends pre a b n c d e : offers inClass (pre ++ [(T_CLASS, a); blank b; (T_STRING, n); blank c; (T_EXTENDS, d); blank e]) ClassExtendsChoose [n]
| of_extends_interface pre a b n c d e :
    offers inClass (pre ++ [(T_INTERFACE, a); blank b; (T_STRING, n); blank c; (T_EXTENDS, d); blank e]) InterfaceChoose [n]
| of_implements pre a b n c d e : offers inClass (pre ++ [(T_CLASS, a); blank b; (T_STRING, n); blank c; (T_IMPLEMENTS, d); blank e]) InterfaceChoose [n]
| of_list pre kw ext a b n c d items names w :
    (kw = T_CLASS /\ ext = T_IMPLEMENTS) \/ (kw = T_INTERFACE /\ ext = T_EXTENDS) ->
    nameList items names -> items <> [] -> gap w ->
    offers inClass (pre ++ [(kw, a); blank b; (T_STRING, n); blank c; (ext, d)] ++ items ++ w) InterfaceChoose (n :: names)
| of_code pre k a w : In k codeKinds -> gap w ->
    offers inClass (pre ++ [(k, a)] ++ w) (if inClass then ClassMemberChoose else NoMemberAccess) []
| of_modifier pre k a w : In k modifiers -> gap w -> inClass = true -> offers inClass (pre ++ [(k, a)] ++ w) ClassMemberChoose [].

(** Nothing is offered. *)
Inductive offersNothing (inClass : bool) : list piece -> Prop :=
| on_dead pre k a w : In k deadKinds -> gap w -> offersNothing inClass (pre ++ [(k, a)] ++ w)
| on_word pre k a : In k [T_EXTENDS; T_IMPLEMENTS; T_NEW; T_THROW] -> offersNothing inClass (pre ++ [(k, a)])
| on_modifier pre k a w : In k modifiers -> gap w -> inClass = false -> offersNothing inClass (pre ++ [(k, a)] ++ w).

(** ** C57 *)
Definition kindsOf (l : list piece) : list Tok := map fst l.
Definition textOf (l : list piece) : qstring := List.concat (map snd l).
(** Tokens no expression contains. *)
Definition boundaries : list Tok :=
  [T_SEMICOLON; T_OPEN_TAG; T_OPEN_TAG_WITH_ECHO; T_LBRACE; T_RBRACE; T_IF; T_WHILE; T_FOR; T_FOREACH; T_SWITCH; T_ELSEIF].
(** What may stand between such a token and the expression: blanks and "return". *)
Inductive lead : list piece -> Prop :=
| lead_gap w : gap w -> lead w
| lead_return w1 r w2 : gap w1 -> gap w2 -> lead (w1 ++ [(T_RETURN, r)] ++ w2).
(** The tokens of an expression. *)
Definition isExpression (e : list piece) : Prop :=
  balanced (kindsOf e) /\ (forall k, In k (kindsOf e) -> ~ In k boundaries /\ k <> T_INVALID) /\
  exists k s r, e = (k, s) :: r /\ k <> T_WHITESPACE /\ k <> T_RETURN.
(** The arguments in front of the one the cursor is in. *)
Definition earlierArguments (args : list piece) : Prop :=
  args = [] \/ (balanced (kindsOf args) /\ ~ In T_INVALID (kindsOf args) /\ ~ In T_EXTENDS (kindsOf args) /\ ~ In T_IMPLEMENTS (kindsOf args) /\
                exists a c, args = a ++ [(T_COMMA, c)]).
