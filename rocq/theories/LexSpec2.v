(** Vocabulary for the statements about single tokens (C07-C16).  Written from the PHP
    language reference, without reference to how the lexer works; only [nextToken] and the
    mode names come from the model. *)
From Verif Require Export LexSpec.
Open Scope nat_scope.

(** What the lexer has not consumed yet. *)
Definition remaining (content : qstring) (l : LexState) : qstring := skipn (lx_pos l) content.

(** The lexer, somewhere in a run over [content] and not past a finished __halt_compiler();,
    is in mode [m] with [rest] ahead. *)
Definition at_ (cc : CharClass) (content : qstring) (m : LState) (l : LexState) (rest : qstring) : Prop :=
  (exists l0, initial l0 /\ reachable cc content l0 l) /\ lx_halt l <> 4 /\
  (exists r, lx_st l = m :: r) /\ remaining content l = rest.

(** PHP code: the script itself or the braces of an interpolated expression. *)
Definition inPhp (cc : CharClass) (content : qstring) (l : LexState) (rest : qstring) : Prop :=
  at_ cc content DefaultState l rest \/ at_ cc content StringVariableCurly l rest.

(** One call hands out a token of kind [k] with text [text] and leaves [tail] ahead. *)
Definition yields (cc : CharClass) (content : qstring) (l : LexState)
    (k : Tok) (text : qstring) (tail : qstring) (l' : LexState) : Prop :=
  exists t nl, nextToken cc content l = Some (l', t, nl) /\ t_kind t = k /\
    symbol content t = text /\ remaining content l' = tail.

(** The body of a quoted string: backslash pairs, and characters that are neither a
    backslash nor the closing quote. *)
Inductive quoted (q : N) : qstring -> Prop :=
| q_nil : quoted q []
| q_char c s : c <> q -> c <> cBSLASH -> quoted q s -> quoted q (c :: s)
| q_pair c s : quoted q s -> quoted q (cBSLASH :: c :: s).

(** Identifier characters of PHP: letters, digits, underscore and everything above ASCII. *)
Definition identChar (cc : CharClass) (c : N) : Prop :=
  isLetter cc c = true \/ isDigit cc c = true \/ c = cUNDERSCORE \/ (127 < c)%N.
Definition identStart (cc : CharClass) (c : N) : Prop := identChar cc c /\ isDigit cc c = false.

(** [s] has, inside a quoted string, an unescaped variable start: "$name" or "${". *)
Definition varStart (cc : CharClass) (q : N) (s : qstring) : Prop :=
  exists a c b, s = a ++ cDOLLAR :: c :: b /\ quoted q a /\ (c = cLBRACE \/ identStart cc c).

(** [w] occurs in [s]. *)
Definition contains (w s : qstring) : Prop := exists a b, s = a ++ w ++ b.

(** Where a line comment stops: at the end of the document, before a closing tag, or behind
    a newline.  [lineEnd rest text tail]: the comment of [rest] is [text], leaving [tail]. *)
Definition oneLine (s : qstring) : Prop := ~ In cNL s /\ ~ contains (str "?>") s.
Inductive lineEnd : qstring -> qstring -> qstring -> Prop :=
| le_eof s : oneLine s -> lineEnd s s []
| le_close s r : oneLine s -> lineEnd (s ++ str "?>" ++ r) s (str "?>" ++ r)
| le_nl s r : oneLine s -> lineEnd (s ++ cNL :: r) (s ++ [cNL]) r.

(** Blanks of one line. *)
Definition lineBlanks (cc : CharClass) (w : qstring) : Prop :=
  Forall (fun c => isSpace cc c = true /\ c <> cNL) w.
Definition nextIsDoc (cc : CharClass) (r : qstring) : Prop :=
  exists w x, r = w ++ str "///" ++ x /\ lineBlanks cc w.
(** A doc comment of consecutive lines starting with ///; the first line is given from any
    point on. *)
Inductive docEnd (cc : CharClass) : qstring -> qstring -> qstring -> Prop :=
| de_eof s : oneLine s -> docEnd cc s s []
| de_close s r : oneLine s -> docEnd cc (s ++ str "?>" ++ r) s (str "?>" ++ r)
| de_nl s r : oneLine s -> ~ nextIsDoc cc r -> docEnd cc (s ++ cNL :: r) (s ++ [cNL]) r
| de_more s w rest text tail : oneLine s -> lineBlanks cc w ->
    docEnd cc (cSLASH :: rest) text tail ->
    docEnd cc (s ++ cNL :: w ++ str "///" ++ rest) (s ++ cNL :: w ++ str "//" ++ text) tail.

(** PHP's operators and punctuation.  Left out, because their first character can also start
    something that is not an operator, are only the casts. *)
Definition operators : list (qstring * Tok) :=
  [ (str "+", T_PLUS); (str "-", T_MINUS); (str "*", T_MUL); (str "/", T_DIV); (str "%", T_MOD);
    (str "**", T_EXP); (str ".", T_CONCAT); (str "...", T_ELLIPSIS);
    (str "=", T_ASSIGN); (str "+=", T_PLUS_ASSIGN); (str "-=", T_MINUS_ASSIGN);
    (str "*=", T_MUL_ASSIGN); (str "/=", T_DIV_ASSIGN); (str "%=", T_MOD_ASSIGN);
    (str "**=", T_EXP_ASSIGN); (str ".=", T_CONCAT_ASSIGN); (str "&=", T_AND_ASSIGN);
    (str "|=", T_OR_ASSIGN); (str "^=", T_XOR_ASSIGN); (str "<<=", T_SL_ASSIGN);
    (str ">>=", T_SR_ASSIGN);
    (str "&", T_BIT_AND); (str "|", T_BIT_OR); (str "^", T_BIT_XOR); (str "~", T_TILDE);
    (str "<<", T_SL); (str ">>", T_SR);
    (str "==", T_IS_EQUAL); (str "===", T_IS_IDENTICAL); (str "!=", T_IS_NOT_EQUAL);
    (str "<>", T_IS_NOT_EQUAL); (str "!==", T_IS_NOT_IDENTICAL);
    (str "<", T_IS_SMALLER); (str ">", T_IS_GREATER); (str "<=", T_IS_SMALLER_OR_EQUAL);
    (str ">=", T_IS_GREATER_OR_EQUAL); (str "<=>", T_SPACESHIP);
    (str "??", T_NULL_COALESCE); (str "@", T_AT); (str "++", T_INC); (str "--", T_DEC);
    (str "!", T_BANG); (str "&&", T_BOOLEAN_AND); (str "||", T_BOOLEAN_OR);
    (str "->", T_OBJECT_OPERATOR); (str "=>", T_DOUBLE_ARROW);
    (str "::", T_PAAMAYIM_NEKUDOTAYIM); (str ":", T_COLON); (str "?", T_QUESTION);
    (str ";", T_SEMICOLON); (str ",", T_COMMA); (str "\", T_BACKSLASH);
    (str ")", T_RPAREN); (str "[", T_LBRACKET); (str "]", T_RBRACKET);
    (str "{", T_LBRACE); (str "}", T_RBRACE); (str "?>", T_CLOSE_TAG) ].

(** [op] is the longest operator at the front of [rest]. *)
Definition longestOp (op : qstring) (k : Tok) (rest : qstring) : Prop :=
  In (op, k) operators /\ (exists r, rest = op ++ r) /\
  forall op2 k2 r2, In (op2, k2) operators -> rest = op2 ++ r2 ->
    List.length op2 <= List.length op.

(** Comments, heredocs and numbers start with operator characters. *)
Definition notOperator (cc : CharClass) (rest : qstring) : Prop :=
  (exists r, rest = str "//" ++ r \/ rest = str "/*" ++ r \/ rest = str "<<<" ++ r) \/
  (exists d r, rest = cDOT :: d :: r /\ isDigit cc d = true).

(** PHP's keywords. *)
Definition phpKeywords : list (qstring * Tok) :=
  [ (str "abstract", T_ABSTRACT); (str "and", T_LOGICAL_AND); (str "array", T_ARRAY);
    (str "as", T_AS); (str "break", T_BREAK); (str "callable", T_CALLABLE); (str "case", T_CASE);
    (str "catch", T_CATCH); (str "class", T_CLASS); (str "clone", T_CLONE);
    (str "const", T_CONST); (str "continue", T_CONTINUE); (str "declare", T_DECLARE);
    (str "default", T_DEFAULT); (str "die", T_EXIT); (str "do", T_DO); (str "echo", T_ECHO);
    (str "else", T_ELSE); (str "elseif", T_ELSEIF); (str "empty", T_EMPTY);
    (str "enddeclare", T_ENDDECLARE); (str "endfor", T_ENDFOR); (str "endforeach", T_ENDFOREACH);
    (str "endif", T_ENDIF); (str "endswitch", T_ENDSWITCH); (str "endwhile", T_ENDWHILE);
    (str "eval", T_EVAL); (str "exit", T_EXIT); (str "extends", T_EXTENDS);
    (str "final", T_FINAL); (str "finally", T_FINALLY); (str "for", T_FOR);
    (str "foreach", T_FOREACH); (str "function", T_FUNCTION); (str "global", T_GLOBAL);
    (str "goto", T_GOTO); (str "if", T_IF); (str "implements", T_IMPLEMENTS);
    (str "include", T_INCLUDE); (str "include_once", T_INCLUDE_ONCE);
    (str "instanceof", T_INSTANCEOF); (str "insteadof", T_INSTEADOF);
    (str "interface", T_INTERFACE); (str "isset", T_ISSET); (str "list", T_LIST);
    (str "namespace", T_NAMESPACE); (str "new", T_NEW); (str "or", T_LOGICAL_OR);
    (str "print", T_PRINT); (str "private", T_PRIVATE); (str "protected", T_PROTECTED);
    (str "public", T_PUBLIC); (str "require", T_REQUIRE); (str "require_once", T_REQUIRE_ONCE);
    (str "return", T_RETURN); (str "switch", T_SWITCH); (str "throw", T_THROW);
    (str "trait", T_TRAIT); (str "try", T_TRY); (str "unset", T_UNSET); (str "use", T_USE);
    (str "var", T_VAR); (str "void", T_VOID); (str "while", T_WHILE); (str "xor", T_LOGICAL_XOR);
    (str "__halt_compiler", T_HALT_COMPILER); (str "__class__", T_CLASS_C);
    (str "__dir__", T_DIR); (str "__file__", T_FILE); (str "__function__", T_FUNC_C);
    (str "__line__", T_LINE); (str "__method__", T_METHOD_C);
    (str "__namespace__", T_NAMESPACE_C); (str "__trait__", T_TRAIT_C) ].

(** Equal up to the case of letters. *)
Definition sameWord (cc : CharClass) (a b : qstring) : Prop :=
  map (foldCase cc) a = map (foldCase cc) b.

(** [name] is the whole word at the front of [name ++ r]. *)
Definition wholeWord (cc : CharClass) (name r : qstring) : Prop :=
  (exists c s, name = c :: s /\ identStart cc c /\ isSpace cc c = false) /\
  Forall (identChar cc) name /\ (forall c s, r = c :: s -> ~ identChar cc c).

Definition allBlank (cc : CharClass) (w : qstring) : Prop := Forall (fun c => isSpace cc c = true) w.

(** PHP's cast types. *)
Definition castTypes : list (qstring * Tok) :=
  [ (str "int", T_INT_CAST); (str "integer", T_INT_CAST); (str "bool", T_BOOL_CAST);
    (str "boolean", T_BOOL_CAST); (str "float", T_DOUBLE_CAST); (str "double", T_DOUBLE_CAST);
    (str "real", T_DOUBLE_CAST); (str "string", T_STRING_CAST); (str "binary", T_STRING_CAST);
    (str "array", T_ARRAY_CAST); (str "object", T_OBJECT_CAST); (str "unset", T_UNSET_CAST) ].
(** [s] reads "( blanks word blanks )" with word a run of letters. *)
Definition castShape (cc : CharClass) (w1 word w2 : qstring) : qstring :=
  str "(" ++ w1 ++ word ++ w2 ++ str ")".

(** Values of number literals. *)
Definition decDigit (c : N) : option N := if (48 <=? c)%N && (c <=? 57)%N then Some (c - 48)%N else None.
Definition hexDigit (c : N) : option N :=
  if (48 <=? c)%N && (c <=? 57)%N then Some (c - 48)%N
  else if (97 <=? c)%N && (c <=? 102)%N then Some (c - 97 + 10)%N
  else if (65 <=? c)%N && (c <=? 70)%N then Some (c - 65 + 10)%N else None.
(** [value base ds v]: the digit values [ds], most significant first, denote [v]. *)
Fixpoint value (base : N) (ds : list N) : N :=
  match ds with [] => 0%N | d :: r => (d * base ^ N.of_nat (List.length r) + value base r)%N end.
Definition decDigits (s : qstring) (ds : list N) : Prop := map decDigit s = map Some ds.
Definition hexDigits (s : qstring) (ds : list N) : Prop := map hexDigit s = map Some ds.
Definition binDigits (s : qstring) (ds : list N) : Prop :=
  map decDigit s = map Some ds /\ Forall (fun d => d < 2)%N ds.
(** The largest integer PHP represents on a 64-bit machine. *)
Definition phpIntMax : N := (2 ^ 63 - 1)%N.

(** Heredoc/nowdoc end: the identifier, then a newline or ";" and a newline. *)
Definition endsDoc (id : qstring) (s : qstring) : Prop :=
  exists r, s = id ++ cNL :: r \/ s = id ++ cSEMI :: cNL :: r.
Definition docIdent (cc : CharClass) (id : qstring) : Prop :=
  (exists c s, id = c :: s /\ (isLetter cc c = true \/ c = cUNDERSCORE)) /\
  Forall (fun c => isLetter cc c = true \/ isDigit cc c = true \/ c = cUNDERSCORE) id.

(** "<?" that opens PHP: anything but "<?xml". *)
Definition xmlTag (cc : CharClass) (r : qstring) : Prop :=
  exists a b c s, r = a :: b :: c :: s /\
    map (toLower cc) [a; b; c] = str "xml".

(** [s] is [body ++ w ++ tail] where this is the first occurrence of [w]. *)
Definition firstOcc (w s body tail : qstring) : Prop :=
  s = body ++ w ++ tail /\ forall a b, s = a ++ w ++ b -> List.length body <= List.length a.

(** The run of the lexer from [l0] hands out [toks] and reaches [l]. *)
Inductive handsOut (cc : CharClass) (content : qstring) (l0 : LexState) : list Token -> LexState -> Prop :=
| ho_nil : handsOut cc content l0 [] l0
| ho_snoc toks l t nl l' : handsOut cc content l0 toks l ->
    nextToken cc content l = Some (l', t, nl) -> t_kind t <> T_EOF ->
    handsOut cc content l0 (toks ++ [t]) l'.

(** The nowdoc body ends in front of the first line that ends it. *)
Definition nowdocBody (id r body s : qstring) : Prop :=
  r = body ++ s /\ endsDoc id s /\ (exists b, body = b ++ [cNL]) /\
  forall b s', r = b ++ cNL :: s' -> endsDoc id s' -> List.length body <= S (List.length b).

(** "<?php" followed by a blank, in any case. *)
Definition phpTag (cc : CharClass) (tag : qstring) : Prop :=
  exists a b c w, tag = str "<?" ++ [a; b; c; w] /\ map (toLower cc) [a; b; c] = str "php" /\ isSpace cc w = true.

(** [r] goes on with the exponent of a floating point number. *)
Definition expStart (cc : CharClass) (r : qstring) : Prop :=
  exists e x, r = e :: x /\ toLower cc e = 101%N /\
    ((exists d y, x = d :: y /\ isDigit cc d = true) \/
     (exists sg d y, x = sg :: d :: y /\ (sg = cMINUS \/ sg = cPLUS) /\ isDigit cc d = true)).
(** [r] does not go on with a digit. *)
Definition noDigit (cc : CharClass) (r : qstring) : Prop :=
  forall c s, r = c :: s -> isDigit cc c = false.
Definition noDot (r : qstring) : Prop := forall s, r <> cDOT :: s.
Definition noHexDigit (cc : CharClass) (r : qstring) : Prop :=
  forall c s, r = c :: s -> hexDigit (toLower cc c) = None.
(** [r] does not go on with the letter [x], in either case. *)
Definition noLetter (cc : CharClass) (x : N) (r : qstring) : Prop :=
  forall c s, r = c :: s -> toLower cc c <> x.

(** A block comment (given behind its opening) is a doc comment: "/**" and a blank. *)
Definition isDocBlock (cc : CharClass) (r : qstring) : Prop :=
  exists c s, r = cSTAR :: c :: s /\ isSpace cc c = true.
(** Operators that may enter or leave a mode of the lexer. *)
Definition modeOp (k : Tok) : bool :=
  match k with T_OBJECT_OPERATOR | T_LBRACE | T_RBRACE | T_CLOSE_TAG => true | _ => false end.
(** Blanks between "<<<" and the identifier. *)
Definition hereBlanks (w : qstring) : Prop := Forall (fun c => c = cSP \/ c = cTAB) w.
Definition letters (cc : CharClass) (word : qstring) : Prop := Forall (fun c => isLetter cc c = true) word.
(** No blank character is a letter. *)
Definition spaceNotLetter (cc : CharClass) : Prop := forall c, isSpace cc c = true -> isLetter cc c = false.
(** The kind of an integer literal of value [v]. *)
Definition intOrFloat (v : N) : Tok := if (v <=? phpIntMax)%N then T_LNUMBER else T_DNUMBER.
