(** Model of the hand-written lexer, parser/phplexer.cpp and parser/phplexer.h.

    Representation.
    - The document [m_content] is a [list N]; [m_curpos] is a [nat].
    - The pointer [it] of the C++ is the list of the code units from [it] on; [peek it k] is
      [*(it+k)]: reading the index [m_contentSize] gives the terminating NUL of the QString,
      reading beyond it is undefined behaviour and makes the whole step [None].
    - A handler returns, instead of the final [m_curpos], the token length
      [len = m_curpos + 1 - m_tokenBegin] it has at the final [break].  A [len] of 0 is the
      C++ token with tokenEnd = tokenBegin - 1.
    - Offsets inside handlers ([i], [j]) are relative to [m_tokenBegin].
    - createNewline(p) calls are returned as a list of offsets relative to [m_tokenBegin]
      (the locationTable of the token stream only receives these calls).
    - The mode stack [m_state] is a list, top first.  Popping or reading below its bottom is
      undefined behaviour ([None]).
    - int/qint64 overflow is not modelled (documents are shorter than 2^31). *)
From Verif Require Export Chars.
Open Scope N_scope.

(** Token kinds: parser/php.g lines 135-212 (%token list); T_EOF is the value 0 that
    nextTokenKind returns at the end of the file. *)
Inductive Tok :=
| T_EOF | T_INVALID
| T_OPEN_TAG | T_OPEN_TAG_WITH_ECHO | T_INLINE_HTML | T_CLOSE_TAG
| T_WHITESPACE | T_COMMENT | T_DOC_COMMENT
| T_LNUMBER | T_DNUMBER | T_VARIABLE | T_DOLLAR
| T_LBRACE | T_RBRACE | T_LPAREN | T_RPAREN | T_LBRACKET | T_RBRACKET
| T_COMMA | T_AT | T_BANG | T_TILDE | T_COLON | T_QUESTION | T_SEMICOLON | T_BACKSLASH
| T_INT_CAST | T_DOUBLE_CAST | T_STRING_CAST | T_ARRAY_CAST | T_OBJECT_CAST | T_BOOL_CAST
| T_UNSET_CAST
| T_IS_NOT_IDENTICAL | T_IS_NOT_EQUAL | T_IS_IDENTICAL | T_IS_EQUAL
| T_IS_SMALLER | T_IS_SMALLER_OR_EQUAL | T_IS_GREATER | T_IS_GREATER_OR_EQUAL | T_SPACESHIP
| T_SL | T_SL_ASSIGN | T_SR | T_SR_ASSIGN | T_START_HEREDOC | T_END_HEREDOC
| T_START_NOWDOC | T_END_NOWDOC
| T_PAAMAYIM_NEKUDOTAYIM | T_NULL_COALESCE | T_OBJECT_OPERATOR | T_DOUBLE_ARROW | T_ASSIGN
| T_MOD | T_MOD_ASSIGN | T_DIV | T_DIV_ASSIGN | T_MUL | T_MUL_ASSIGN | T_EXP | T_EXP_ASSIGN
| T_PLUS | T_PLUS_ASSIGN | T_INC | T_MINUS | T_MINUS_ASSIGN | T_DEC
| T_BIT_XOR | T_XOR_ASSIGN | T_BIT_OR | T_OR_ASSIGN | T_BOOLEAN_OR
| T_BIT_AND | T_AND_ASSIGN | T_BOOLEAN_AND | T_CONCAT | T_CONCAT_ASSIGN | T_ELLIPSIS
| T_CONSTANT_ENCAPSED_STRING | T_DOUBLE_QUOTE | T_BACKTICK
| T_ENCAPSED_AND_WHITESPACE | T_DOLLAR_OPEN_CURLY_BRACES | T_CURLY_OPEN | T_STRING_VARNAME
| T_NUM_STRING | T_STRING
| T_ECHO | T_INCLUDE | T_INCLUDE_ONCE | T_REQUIRE | T_REQUIRE_ONCE | T_EVAL | T_PRINT
| T_ABSTRACT | T_BREAK | T_CASE | T_CATCH | T_CLASS | T_CONST | T_CONTINUE | T_DEFAULT | T_DO
| T_ELSE | T_EXTENDS | T_FINAL | T_FOR | T_IF | T_IMPLEMENTS | T_INSTANCEOF | T_INSTEADOF
| T_INTERFACE | T_TRAIT | T_NEW | T_PRIVATE | T_PROTECTED | T_PUBLIC | T_RETURN | T_STATIC
| T_SWITCH | T_THROW | T_TRY | T_FINALLY | T_WHILE | T_CLONE | T_EXIT | T_ELSEIF | T_ENDIF
| T_ENDWHILE | T_ENDFOR | T_FOREACH | T_ENDFOREACH | T_DECLARE | T_ENDDECLARE | T_AS
| T_ENDSWITCH | T_FUNCTION | T_USE | T_GOTO | T_GLOBAL | T_VAR | T_UNSET | T_ISSET | T_EMPTY
| T_HALT_COMPILER | T_LIST | T_ARRAY | T_CLASS_C | T_TRAIT_C | T_METHOD_C | T_FUNC_C | T_LINE
| T_FILE | T_DIR | T_LOGICAL_OR | T_LOGICAL_AND | T_LOGICAL_XOR | T_NAMESPACE | T_NAMESPACE_C
| T_CALLABLE | T_VOID | T_YIELD | T_YIELD_FROM.

(** enum Lexer::State, parser/phplexer.h 70-83 *)
Inductive LState :=
| ErrorState | HtmlState | DefaultState | SString | StringVariable | StringVariableBracket
| StringVariableObjectOperator | StringVariableCurly | StringVarname | StringHeredoc
| StringBacktick | StringNowdoc.

Scheme Equality for LState.

(** *(it+k); [None] is a read behind the terminator. *)
Fixpoint peek (it : list N) (k : nat) : option N :=
  match it, k with
  | c :: _, O => Some c
  | [], O => Some cNUL
  | _ :: t, S k' => peek t k'
  | [], S _ => None
  end.

(** Short-circuit tests over reads. *)
Definition test (it : list N) (k : nat) (p : N -> bool) : option bool := option_map p (peek it k).
Definition isC (it : list N) (k : nat) (c : N) : option bool := test it k (fun x => x =? c).
Definition mAnd (a b : option bool) : option bool :=
  match a with Some true => b | r => r end.
Definition mOr (a b : option bool) : option bool :=
  match a with Some false => b | r => r end.
Definition mNot (a : option bool) : option bool := option_map negb a.
Notation "a &&& b" := (mAnd a b) (at level 40, left associativity).
Notation "a ||| b" := (mOr a b) (at level 50, left associativity).
Notation "'IF' b 'THEN' x 'ELSE' y" :=
  (match b with Some true => x | Some false => y | None => None end)
  (at level 200, b at level 100, right associativity).
Notation "x <- a ;; b" := (match a with Some x => b | None => None end)
  (at level 61, a at next level, right associativity).
Notation "' p <- a ;; b" := (match a with Some p => b | None => None end)
  (at level 61, p pattern, a at next level, right associativity).

(** What one handler leaves behind. *)
Record Out := {
  o_tok : Tok;               (* token *)
  o_len : nat;               (* m_curpos + 1 - m_tokenBegin at the break *)
  o_nl  : list nat;          (* createNewline calls, relative to m_tokenBegin *)
  o_st  : list LState;       (* m_state *)
  o_id  : qstring            (* m_hereNowDocIdentifier *)
}.

Section Lexer.
Variable cc : CharClass.

(** Lexer::isValidVariableIdentifier, phplexer.cpp 1050-1053 *)
Definition isIdent (c : N) : bool :=
  isLetter cc c || isDigit cc c || (c =? cUNDERSCORE) || (127 <? c).

(** "isValidVariableIdentifier(p) && !p->isDigit()", e.g. phplexer.cpp 577, 610, 827 *)
Definition isIdentStart (c : N) : bool := isIdent c && negb (isDigit cc c).

(** while (m_curpos < m_contentSize && p(it)) { it++; m_curpos++; }
    e.g. phplexer.cpp 612-615, 1037-1041: offset and pointer at loop exit. *)
Fixpoint skipWhile (p : N -> bool) (it : list N) (i : nat) : nat * list N :=
  match it with
  | c :: t => if p c then skipWhile p t (S i) else (i, it)
  | [] => (i, [])
  end.

(** The same loop with "if (it->unicode() == '\n') createNewline(m_curpos);" first,
    phplexer.cpp 125-129, 923-927. *)
Fixpoint scanWhile (p : N -> bool) (it : list N) (i : nat) : nat * list nat :=
  match it with
  | c :: t =>
      if p c then
        let '(j, nl) := scanWhile p t (S i) in
        (j, if c =? cNL then i :: nl else nl)
      else (i, [])
  | [] => (i, [])
  end.

(** Result without effect on modes. *)
Definition simple (st : list LState) (id : qstring) (t : Tok) (len : nat) : option Out :=
  Some {| o_tok := t; o_len := len; o_nl := []; o_st := st; o_id := id |}.

(** Lexer::popState / state(), phplexer.cpp 33-36, 70-73 *)
Definition pop (st : list LState) : option (list LState) :=
  match st with [] => None | _ :: t => Some t end.
Definition stateAt (st : list LState) (deep : nat) : option LState := nth_error st deep.
Definition stIs (s : LState) (x : LState) : bool := LState_beq s x.

(** case HtmlState, phplexer.cpp 89-121 *)
Fixpoint htmlLoop (it : list N) (i : nat) : option (nat * list nat) :=
  match it with
  | [] => Some (i, [])
  | c :: t =>
      stop <- (isC it 1 cLT &&& isC it 2 cQUEST) ;;
      if stop : bool then Some (i, if c =? cNL then [i] else [])
      else
        ' (j, nl) <- htmlLoop t (S i) ;;
        Some (j, if c =? cNL then i :: nl else nl)
  end.

Definition lexHtml (st : list LState) (id : qstring) (it : list N) : option Out :=
  IF isC it 0 cLT &&& isC it 1 cQUEST
     &&& mNot (test it 2 (fun c => toLower cc c =? 120)        (* x *)
               &&& test it 3 (fun c => toLower cc c =? 109)    (* m *)
               &&& test it 4 (fun c => toLower cc c =? 108))   (* l *)
  THEN
    IF isC it 2 cEQ
    THEN Some {| o_tok := T_OPEN_TAG_WITH_ECHO; o_len := 3; o_nl := [];
                 o_st := DefaultState :: st; o_id := id |}
    ELSE
      IF test it 2 (fun c => toLower cc c =? 112)        (* p *)
         &&& test it 3 (fun c => toLower cc c =? 104)    (* h *)
         &&& test it 4 (fun c => toLower cc c =? 112)    (* p *)
         &&& test it 5 (isSpace cc)
      THEN
        nl <- isC it 5 cNL ;;
        Some {| o_tok := T_OPEN_TAG; o_len := 6; o_nl := if nl : bool then [5%nat] else [];
                o_st := DefaultState :: st; o_id := id |}
      ELSE Some {| o_tok := T_OPEN_TAG; o_len := 2; o_nl := [];
                   o_st := DefaultState :: st; o_id := id |}
  ELSE
    ' (j, nl) <- htmlLoop it 0 ;;
    Some {| o_tok := T_INLINE_HTML; o_len := S j; o_nl := nl; o_st := st; o_id := id |}.

(** QString::toLong(&ok, base): ok iff nonempty, all ASCII digits of the base and the value
    fits a 64-bit signed long (LP64). *)
Definition digitVal (c : N) : option N :=
  if asciiDigit c then Some (c - 48)
  else if (97 <=? c) && (c <=? 102) then Some (c - 87)
  else if (65 <=? c) && (c <=? 70) then Some (c - 55)
  else None.
Fixpoint numVal (base acc : N) (s : qstring) : option N :=
  match s with
  | [] => Some acc
  | c :: t =>
      match digitVal c with
      | Some d => if d <? base then numVal base (acc * base + d) t else None
      | None => None
      end
  end.
Definition longMax : N := 9223372036854775807.
Definition toLongOk (s : qstring) (base : N) : bool :=
  match s with
  | [] => false
  | _ => match numVal base 0 s with Some v => v <=? longMax | None => false end
  end.

(** Loop of phplexer.cpp 148-160 collecting the digits. *)
Definition numChar (hex bin hasPoint : bool) (c : N) : bool :=
  isDigit cc c
  || (negb hex && negb hasPoint && (c =? cDOT))
  || (bin && ((c =? c0) || (c =? c1)))
  || (hex && ((toLower cc c =? 97) || (toLower cc c =? 98) || (toLower cc c =? 99)
              || (toLower cc c =? 100) || (toLower cc c =? 101) || (toLower cc c =? 102))).
Fixpoint numLoop (hex bin hasPoint : bool) (it : list N) (i : nat) (num : qstring)
  : nat * list N * bool * qstring :=
  match it with
  | c :: t =>
      if numChar hex bin hasPoint c
      then numLoop hex bin (if c =? cDOT then true else hasPoint) t (S i) (num ++ [c])
      else (i, it, hasPoint, num)
  | [] => (i, [], hasPoint, num)
  end.

(** Numbers, phplexer.cpp 131-190 *)
Definition lexNumber (st : list LState) (id : qstring) (it : list N) : option Out :=
  hex <- (isC it 0 c0 &&& test it 1 (fun c => toLower cc c =? 120)) ;;
  let '(it1, i1) := if hex : bool then (skipn 2 it, 2%nat) else (it, 0%nat) in
  bin <- (isC it1 0 c0 &&& test it1 1 (fun c => toLower cc c =? 98)) ;;
  let '(it2, i2) := if bin : bool then (skipn 2 it1, (i1 + 2)%nat) else (it1, i1) in
  let '(i3, it3, hasPoint, num) := numLoop hex bin false it2 i2 [] in
  expo <- (Some (negb hex && negb bin) &&& test it3 0 (fun c => toLower cc c =? 101)
           &&& (test it3 1 (isDigit cc)
                ||| ((isC it3 1 cMINUS ||| isC it3 1 cPLUS) &&& test it3 2 (isDigit cc)))) ;;
  if expo : bool then
    let it4 := skipn 1 it3 in
    sgn <- (isC it4 0 cMINUS ||| isC it4 0 cPLUS) ;;
    let '(it5, i5) := if sgn : bool then (skipn 1 it4, (i3 + 2)%nat) else (it4, (i3 + 1)%nat) in
    let '(i6, _) := skipWhile (isDigit cc) it5 i5 in
    simple st id T_DNUMBER i6
  else if hasPoint then simple st id T_DNUMBER i3
  else simple st id (if toLongOk num (if hex then 16 else 10) then T_LNUMBER else T_DNUMBER) i3.

(** Lexer::processVariable, phplexer.cpp 1030-1048: token length if it is a variable. *)
Definition processVariable (it : list N) : option (option nat) :=
  IF isC it 0 cDOLLAR &&& test it 1 isIdentStart
  THEN Some (Some (fst (skipWhile isIdent (skipn 1 it) 1)))
  ELSE Some None.

(** Cast names, phplexer.cpp 225-248 *)
Definition castTok (name : qstring) : Tok :=
  if eqsCI cc name (str "int") || eqsCI cc name (str "integer") then T_INT_CAST
  else if eqsCI cc name (str "real") || eqsCI cc name (str "double")
          || eqsCI cc name (str "float") then T_DOUBLE_CAST
  else if eqsCI cc name (str "string") then T_STRING_CAST
  else if eqsCI cc name (str "binary") then T_STRING_CAST
  else if eqsCI cc name (str "array") then T_ARRAY_CAST
  else if eqsCI cc name (str "object") then T_OBJECT_CAST
  else if eqsCI cc name (str "bool") || eqsCI cc name (str "boolean") then T_BOOL_CAST
  else if eqsCI cc name (str "unset") then T_UNSET_CAST
  else T_LPAREN.

(** case '(', phplexer.cpp 208-256.  [pos] starts at 1; [it1] is the pointer behind '('. *)
Definition lexParen (st : list LState) (id : qstring) (it : list N) : option Out :=
  let it1 := skipn 1 it in
  let '(p1, it2) := skipWhile (isSpace cc) it1 1 in
  let '(p2, it3) := skipWhile (isLetter cc) it2 p1 in
  let name := firstn (p2 - p1) it2 in
  let '(p3, it4) := skipWhile (isSpace cc) it3 p2 in
  IF isC it4 0 cRPAREN
  THEN match castTok name with
       | T_LPAREN => simple st id T_LPAREN 1
       | t => simple st id t (S p3)
       end
  ELSE simple st id T_LPAREN 1.

(** case '!', phplexer.cpp 265-277 *)
Definition lexBang (st : list LState) (id : qstring) (it : list N) : option Out :=
  IF isC it 1 cEQ
  THEN IF isC it 2 cEQ THEN simple st id T_IS_NOT_IDENTICAL 3 ELSE simple st id T_IS_NOT_EQUAL 2
  ELSE simple st id T_BANG 1.

(** Loops of the heredoc start, phplexer.cpp 284-287 and 296-300; their guard
    "m_curpos + pos < m_contentSize" (where m_curpos is one ahead of [it]) says that at least
    one more character follows the one looked at. *)
Fixpoint hereSkip (r : list N) : list N :=
  match r with
  | c :: ((_ :: _) as t) => if (c =? cSP) || (c =? cTAB) then hereSkip t else r
  | _ => r
  end.
Fixpoint hereIdent (r : list N) (acc : qstring) : qstring * list N :=
  match r with
  | c :: ((_ :: _) as t) =>
      if isDigit cc c || isLetter cc c || (c =? cUNDERSCORE)
      then hereIdent t (acc ++ [c]) else (acc, r)
  | _ => (acc, r)
  end.
Definition moreThanOne (r : list N) : bool := match r with _ :: _ :: _ => true | _ => false end.

(** phplexer.cpp 281-323: the "<<<" part; gives the (possibly changed) identifier and the
    token, if one starts here. *)
Definition lexHereStart (st : list LState) (id : qstring) (it : list N)
  : option (qstring * option Out) :=
  let r1 := hereSkip (skipn 3 it) in
  nowdoc <- isC r1 0 cSQ ;;
  quote <- (Some nowdoc ||| isC r1 0 cDQ) ;;
  let r2 := if quote : bool then skipn 1 r1 else r1 in
  IF test r2 0 (fun c => isLetter cc c || (c =? cUNDERSCORE))
  THEN
    let '(id', r3) := hereIdent r2 [] in
    r4 <- (if quote && moreThanOne r3 then
             IF Some nowdoc &&& isC r3 0 cSQ THEN Some (skipn 1 r3)
             ELSE IF isC r3 0 cDQ THEN Some (skipn 1 r3) ELSE Some r3
           else Some r3) ;;
    IF Some (moreThanOne r4) &&& isC r4 0 cNL
    THEN
      let pos := (List.length it - List.length r4)%nat in
      Some (id', Some {| o_tok := if nowdoc : bool then T_START_NOWDOC else T_START_HEREDOC;
                         o_len := S pos; o_nl := [pos];
                         o_st := (if nowdoc then StringNowdoc else StringHeredoc) :: st;
                         o_id := id' |})
    ELSE Some (id', None)
  ELSE Some (id, None).

(** case '<', phplexer.cpp 278-347 *)
Definition lexLess (st : list LState) (id : qstring) (it : list N) : option Out :=
  s <- stateAt st 0 ;;
  IF isC it 1 cLT
  THEN
    ' (id', start) <-
       (IF isC it 2 cLT &&& Some (negb (stIs s StringVariableCurly))
        THEN lexHereStart st id it ELSE Some (id, None)) ;;
    match start with
    | Some o => Some o
    | None => IF isC it 2 cEQ THEN simple st id' T_SL_ASSIGN 3 ELSE simple st id' T_SL 2
    end
  ELSE IF isC it 1 cEQ
  THEN IF isC it 2 cGT THEN simple st id T_SPACESHIP 3
       ELSE simple st id T_IS_SMALLER_OR_EQUAL 2
  ELSE IF isC it 1 cGT THEN simple st id T_IS_NOT_EQUAL 2
  ELSE simple st id T_IS_SMALLER 1.

(** case '>', phplexer.cpp 348-362 *)
Definition lexGreater (st : list LState) (id : qstring) (it : list N) : option Out :=
  IF isC it 1 cGT
  THEN IF isC it 2 cEQ THEN simple st id T_SR_ASSIGN 3 ELSE simple st id T_SR 2
  ELSE IF isC it 1 cEQ THEN simple st id T_IS_GREATER_OR_EQUAL 2
  ELSE simple st id T_IS_GREATER 1.

(** case ':', phplexer.cpp 365-371 *)
Definition lexColon (st : list LState) (id : qstring) (it : list N) : option Out :=
  IF isC it 1 cCOLON THEN simple st id T_PAAMAYIM_NEKUDOTAYIM 2 ELSE simple st id T_COLON 1.

(** "while (state() != HtmlState) popState();", phplexer.cpp 377 *)
Fixpoint popToHtml (st : list LState) : option (list LState) :=
  match st with
  | [] => None
  | s :: t => if stIs s HtmlState then Some st else popToHtml t
  end.

(** case '?', phplexer.cpp 372-383 *)
Definition lexQuestion (st : list LState) (id : qstring) (it : list N) : option Out :=
  IF isC it 1 cGT
  THEN st' <- popToHtml st ;; simple st' id T_CLOSE_TAG 2
  ELSE IF isC it 1 cQUEST THEN simple st id T_NULL_COALESCE 2
  ELSE simple st id T_QUESTION 1.

(** "->", phplexer.cpp 384-389 *)
Definition lexArrow (st : list LState) (id : qstring) (it : list N) : option Out :=
  IF test it 2 isIdent
  THEN simple (StringVariableObjectOperator :: st) id T_OBJECT_OPERATOR 2
  ELSE simple st id T_OBJECT_OPERATOR 2.

(** case '%', phplexer.cpp 390-396; '^', 465-471 *)
Definition lexOpAssign (st : list LState) (id : qstring) (it : list N) (t ta : Tok) : option Out :=
  IF isC it 1 cEQ THEN simple st id ta 2 ELSE simple st id t 1.

(** Line comments, loops of phplexer.cpp 408-442 ("//" and "///") and 450-464 ("#").
    [skip] counts the characters jumped over by "it = it2 + 2; m_curpos = pos + 2;".
    Returns the token length and the newlines. *)
Fixpoint lineComment (doc : bool) (skip : nat) (it : list N) (i : nat)
  : option (nat * list nat) :=
  match it with
  | [] => Some (S i, [])                                   (* m_curpos == m_contentSize *)
  | c :: t =>
      match skip with
      | S k => lineComment doc k t (S i)
      | O =>
          close <- (Some (match t with [] => false | _ => true end)
                    &&& Some (c =? cQUEST) &&& isC it 1 cGT) ;;
          if close : bool then Some (i, [])
          else if c =? cNL then
            if negb doc then Some (S i, [i])
            else
              let '(p, it2) := skipWhile (fun x => isSpace cc x && negb (x =? cNL)) t (S i) in
              more <- (isC it2 0 cSLASH &&& isC it2 1 cSLASH &&& isC it2 2 cSLASH) ;;
              if more : bool then
                ' (j, nl) <- lineComment doc (p + 2 - S i) t (S i) ;;
                Some (j, i :: nl)
              else Some (S i, [i])
          else lineComment doc O t (S i)
      end
  end.

(** Block comment loop, phplexer.cpp 452-459: offset at loop exit. *)
Fixpoint blockLoop (it : list N) (i : nat) : option (nat * list nat) :=
  match it with
  | [] => Some (i, [])
  | c :: t =>
      stop <- (Some (c =? cSTAR) &&& isC it 1 cSLASH) ;;
      if stop : bool then Some (i, [])
      else
        ' (j, nl) <- blockLoop t (S i) ;;
        Some (j, if c =? cNL then i :: nl else nl)
  end.

(** case '/', phplexer.cpp 397-448 *)
Definition lexSlash (st : list LState) (id : qstring) (it : list N) : option Out :=
  IF isC it 1 cEQ THEN simple st id T_DIV_ASSIGN 2
  ELSE IF isC it 1 cSLASH
  THEN
    doc <- isC it 2 cSLASH ;;
    ' (len, nl) <- lineComment doc O it 0 ;;
    Some {| o_tok := if doc : bool then T_DOC_COMMENT else T_COMMENT; o_len := len; o_nl := nl;
            o_st := st; o_id := id |}
  ELSE IF isC it 1 cSTAR
  THEN
    doc <- (isC it 2 cSTAR &&& test it 3 (isSpace cc)) ;;
    ' (j, nl) <- blockLoop (skipn 2 it) 2 ;;
    Some {| o_tok := if doc : bool then T_DOC_COMMENT else T_COMMENT; o_len := j + 2; o_nl := nl;
            o_st := st; o_id := id |}
  ELSE simple st id T_DIV 1.

(** case '#', phplexer.cpp 449-464 *)
Definition lexHash (st : list LState) (id : qstring) (it : list N) : option Out :=
  ' (len, nl) <- lineComment false O it 0 ;;
  Some {| o_tok := T_COMMENT; o_len := len; o_nl := nl; o_st := st; o_id := id |}.

(** case '*', phplexer.cpp 472-487 *)
Definition lexStar (st : list LState) (id : qstring) (it : list N) : option Out :=
  IF isC it 1 cEQ THEN simple st id T_MUL_ASSIGN 2
  ELSE IF isC it 1 cSTAR
  THEN IF isC it 2 cEQ THEN simple st id T_EXP_ASSIGN 3 ELSE simple st id T_EXP 2
  ELSE simple st id T_MUL 1.

(** cases '|', '&', '+', '-', phplexer.cpp 488-527: doubled, with '=', or alone. *)
Definition lexDouble (st : list LState) (id : qstring) (it : list N) (c : N) (td ta t : Tok)
  : option Out :=
  IF isC it 1 c THEN simple st id td 2
  ELSE IF isC it 1 cEQ THEN simple st id ta 2
  ELSE simple st id t 1.

(** case '.', phplexer.cpp 528-537 *)
Definition lexDot (st : list LState) (id : qstring) (it : list N) : option Out :=
  IF isC it 1 cEQ THEN simple st id T_CONCAT_ASSIGN 2
  ELSE IF isC it 1 cDOT &&& isC it 2 cDOT THEN simple st id T_ELLIPSIS 3
  ELSE simple st id T_CONCAT 1.

(** Lexer::isEscapedWithBackslash, phplexer.cpp 1017-1027.  [before] holds the characters in
    front of [it], nearest first; [gt] is "curPos > startPos".  The loop does not change
    curPos, so it walks back through all backslashes; walking off the front of the buffer
    would be a read before the buffer ([None]). *)
Fixpoint oddBackslashes (before : list N) : option bool :=
  match before with
  | [] => None
  | c :: t => if c =? cBSLASH then option_map negb (oddBackslashes t) else Some false
  end.
Definition isEscaped (before : list N) (gt : bool) : option bool :=
  if gt then oddBackslashes before else Some false.

(** case '\'' loop, phplexer.cpp 547-552; startPos is offset 1. *)
Fixpoint sqLoop (before it : list N) (i : nat) : option (nat * list nat) :=
  match it with
  | [] => Some (i, [])
  | c :: t =>
      stop <- (Some (c =? cSQ) &&& mNot (isEscaped before (Nat.ltb 1 i))) ;;
      if stop : bool then Some (i, [])
      else
        ' (j, nl) <- sqLoop (c :: before) t (S i) ;;
        Some (j, if c =? cNL then i :: nl else nl)
  end.

(** case '\'', phplexer.cpp 542-557 *)
Definition lexSQ (st : list LState) (id : qstring) (before it : list N) : option Out :=
  ' (j, nl) <- sqLoop (cSQ :: before) (skipn 1 it) 1 ;;
  Some {| o_tok := T_CONSTANT_ENCAPSED_STRING;
          o_len := if Nat.eqb j (List.length it) then j else S j;
          o_nl := nl; o_st := st; o_id := id |}.

(** case double-quote loop, phplexer.cpp 563-574: offset at exit, foundVar. *)
Fixpoint dqLoop (before it : list N) (i : nat) : option (nat * bool) :=
  match it with
  | [] => Some (i, false)
  | c :: t =>
      stop <- (Some (c =? cDQ) &&& mNot (isEscaped before (Nat.ltb 1 i))) ;;
      if stop : bool then Some (i, false)
      else
        var <- (Some (c =? cDOLLAR) &&& mNot (isEscaped before (Nat.ltb 1 i))
                &&& (isC it 1 cLBRACE ||| test it 1 isIdentStart)) ;;
        if var : bool then Some (i, true) else dqLoop (c :: before) t (S i)
  end.

(** "for (int j...) if (it->unicode() == '\n') createNewline(m_curpos + j);",
    phplexer.cpp 582-587; [base] is m_curpos. *)
Fixpoint newlinesFrom (s : list N) (base : nat) : list nat :=
  match s with
  | [] => []
  | c :: t => if c =? cNL then base :: newlinesFrom t (S base) else newlinesFrom t (S base)
  end.

(** case double-quote, phplexer.cpp 558-595 *)
Definition lexDQ (st : list LState) (id : qstring) (before it : list N) : option Out :=
  ' (i, foundVar) <- dqLoop (cDQ :: before) (skipn 1 it) 1 ;;
  if foundVar : bool then
    Some {| o_tok := T_DOUBLE_QUOTE; o_len := 1; o_nl := []; o_st := SString :: st; o_id := id |}
  else
    let stringSize := (i - 1)%nat in
    let base := if Nat.eqb i (List.length it) then 0%nat else 1%nat in
    Some {| o_tok := T_CONSTANT_ENCAPSED_STRING; o_len := S (base + stringSize);
            o_nl := newlinesFrom (firstn stringSize (skipn 1 it)) base;
            o_st := st; o_id := id |}.

(** case '=', phplexer.cpp 599-613 *)
Definition lexEqual (st : list LState) (id : qstring) (it : list N) : option Out :=
  IF isC it 1 cEQ
  THEN IF isC it 2 cEQ THEN simple st id T_IS_IDENTICAL 3 ELSE simple st id T_IS_EQUAL 2
  ELSE IF isC it 1 cGT THEN simple st id T_DOUBLE_ARROW 2
  ELSE simple st id T_ASSIGN 1.

(** The keyword chain, phplexer.cpp 621-787 in source order. *)
Inductive Kw := KwTok (t : Tok) | KwStatic | KwYield.
Definition keywords : list (qstring * Kw) :=
  [ (str "echo", KwTok T_ECHO); (str "include", KwTok T_INCLUDE);
    (str "include_once", KwTok T_INCLUDE_ONCE); (str "require", KwTok T_REQUIRE);
    (str "require_once", KwTok T_REQUIRE_ONCE); (str "eval", KwTok T_EVAL);
    (str "print", KwTok T_PRINT); (str "abstract", KwTok T_ABSTRACT);
    (str "break", KwTok T_BREAK); (str "case", KwTok T_CASE); (str "catch", KwTok T_CATCH);
    (str "class", KwTok T_CLASS); (str "const", KwTok T_CONST);
    (str "continue", KwTok T_CONTINUE); (str "default", KwTok T_DEFAULT);
    (str "do", KwTok T_DO); (str "else", KwTok T_ELSE); (str "extends", KwTok T_EXTENDS);
    (str "final", KwTok T_FINAL); (str "for", KwTok T_FOR); (str "if", KwTok T_IF);
    (str "implements", KwTok T_IMPLEMENTS); (str "instanceof", KwTok T_INSTANCEOF);
    (str "insteadof", KwTok T_INSTEADOF); (str "interface", KwTok T_INTERFACE);
    (str "trait", KwTok T_TRAIT); (str "new", KwTok T_NEW); (str "private", KwTok T_PRIVATE);
    (str "protected", KwTok T_PROTECTED); (str "public", KwTok T_PUBLIC);
    (str "return", KwTok T_RETURN); (str "static", KwStatic); (str "switch", KwTok T_SWITCH);
    (str "throw", KwTok T_THROW); (str "try", KwTok T_TRY); (str "finally", KwTok T_FINALLY);
    (str "while", KwTok T_WHILE); (str "clone", KwTok T_CLONE); (str "exit", KwTok T_EXIT);
    (str "die", KwTok T_EXIT); (str "elseif", KwTok T_ELSEIF); (str "endif", KwTok T_ENDIF);
    (str "endwhile", KwTok T_ENDWHILE); (str "endfor", KwTok T_ENDFOR);
    (str "foreach", KwTok T_FOREACH); (str "endforeach", KwTok T_ENDFOREACH);
    (str "declare", KwTok T_DECLARE); (str "enddeclare", KwTok T_ENDDECLARE);
    (str "as", KwTok T_AS); (str "endswitch", KwTok T_ENDSWITCH);
    (str "function", KwTok T_FUNCTION); (str "use", KwTok T_USE); (str "goto", KwTok T_GOTO);
    (str "global", KwTok T_GLOBAL); (str "var", KwTok T_VAR); (str "unset", KwTok T_UNSET);
    (str "isset", KwTok T_ISSET); (str "empty", KwTok T_EMPTY);
    (str "__halt_compiler", KwTok T_HALT_COMPILER); (str "list", KwTok T_LIST);
    (str "array", KwTok T_ARRAY); (str "__class__", KwTok T_CLASS_C);
    (str "__trait__", KwTok T_TRAIT_C); (str "__method__", KwTok T_METHOD_C);
    (str "__function__", KwTok T_FUNC_C); (str "__line__", KwTok T_LINE);
    (str "__file__", KwTok T_FILE); (str "__dir__", KwTok T_DIR);
    (str "or", KwTok T_LOGICAL_OR); (str "and", KwTok T_LOGICAL_AND);
    (str "xor", KwTok T_LOGICAL_XOR); (str "namespace", KwTok T_NAMESPACE);
    (str "__namespace__", KwTok T_NAMESPACE_C); (str "callable", KwTok T_CALLABLE);
    (str "void", KwTok T_VOID); (str "yield", KwYield) ].
Definition findKw (name : qstring) : option Kw :=
  option_map snd (find (fun p => eqsCI cc name (fst p)) keywords).

(** Identifiers and keywords, phplexer.cpp 614-812.  [n] is the length of the name, [rest]
    the pointer behind it.  The look-ahead of static/yield skips blanks ([pos] starts at
    m_curpos, one behind [lookAhead]; isSpace(NUL) is false, so stopping at the end of the
    buffer is stopping at its terminator). *)
Definition lexIdent (st : list LState) (id : qstring) (it : list N) : option Out :=
  let '(n, rest) := skipWhile isIdent it 0 in
  match findKw (firstn n it) with
  | Some (KwTok t) => simple st id t n
  | Some KwStatic =>
      let '(_, la) := skipWhile (isSpace cc) rest n in
      IF Some (match la with [] => false | _ => true end) &&& isC la 0 cCOLON &&& isC la 1 cCOLON
      THEN simple st id T_STRING n
      ELSE simple st id T_STATIC n
  | Some KwYield =>
      let '(p, la) := skipWhile (isSpace cc) rest n in
      a <- peek la 0 ;; b <- peek la 1 ;; c <- peek la 2 ;; d <- peek la 3 ;;
      if Nat.leb 4 (List.length la) && eqs [a; b; c; d] (str "from")
      then simple st id T_YIELD_FROM (p + 4)
      else simple st id T_YIELD n
  | None => simple st id T_STRING n
  end.

(** cases DefaultState and StringVariableCurly, phplexer.cpp 122-815 *)
Definition lexDefault (st : list LState) (id : qstring) (before it : list N) : option Out :=
  c <- peek it 0 ;;
  s <- stateAt st 0 ;;
  if isSpace cc c then
    let '(j, nl) := scanWhile (isSpace cc) it 0 in
    Some {| o_tok := T_WHITESPACE; o_len := j; o_nl := nl; o_st := st; o_id := id |}
  else
  IF Some (isDigit cc c) ||| (Some (c =? cDOT) &&& test it 1 (isDigit cc))
  THEN lexNumber st id it
  ELSE
  v <- processVariable it ;;
  match v with
  | Some len => simple st id T_VARIABLE len
  | None =>
  if c =? cDOLLAR then simple st id T_DOLLAR 1
  else if c =? cRBRACE then
    if stIs s StringVariableCurly
    then st' <- pop st ;; simple st' id T_RBRACE 1
    else simple st id T_RBRACE 1
  else if c =? cLBRACE then
    if stIs s StringVariableCurly
    then simple (StringVariableCurly :: st) id T_LBRACE 1
    else simple st id T_LBRACE 1
  else if c =? cRPAREN then simple st id T_RPAREN 1
  else if c =? cLPAREN then lexParen st id it
  else if c =? cRBRACKET then simple st id T_RBRACKET 1
  else if c =? cLBRACKET then simple st id T_LBRACKET 1
  else if c =? cCOMMA then simple st id T_COMMA 1
  else if c =? cAT then simple st id T_AT 1
  else if c =? cBANG then lexBang st id it
  else if c =? cLT then lexLess st id it
  else if c =? cGT then lexGreater st id it
  else if c =? cTILDE then simple st id T_TILDE 1
  else if c =? cCOLON then lexColon st id it
  else if c =? cQUEST then lexQuestion st id it
  else IF Some (c =? cMINUS) &&& isC it 1 cGT
  THEN lexArrow st id it
  ELSE
  if c =? cPERCENT then lexOpAssign st id it T_MOD T_MOD_ASSIGN
  else if c =? cSLASH then lexSlash st id it
  else if c =? cHASH then lexHash st id it
  else if c =? cCARET then lexOpAssign st id it T_BIT_XOR T_XOR_ASSIGN
  else if c =? cSTAR then lexStar st id it
  else if c =? cPIPE then lexDouble st id it cPIPE T_BOOLEAN_OR T_OR_ASSIGN T_BIT_OR
  else if c =? cAMP then lexDouble st id it cAMP T_BOOLEAN_AND T_AND_ASSIGN T_BIT_AND
  else if c =? cPLUS then lexDouble st id it cPLUS T_INC T_PLUS_ASSIGN T_PLUS
  else if c =? cMINUS then lexDouble st id it cMINUS T_DEC T_MINUS_ASSIGN T_MINUS
  else if c =? cDOT then lexDot st id it
  else if c =? cBSLASH then simple st id T_BACKSLASH 1
  else if c =? cSEMI then simple st id T_SEMICOLON 1
  else if c =? cSQ then lexSQ st id before it
  else if c =? cDQ then lexDQ st id before it
  else if c =? cBACKTICK then simple (StringBacktick :: st) id T_BACKTICK 1
  else if c =? cEQ then lexEqual st id it
  else if isIdentStart c then lexIdent st id it
  else simple st id T_INVALID 1
  end.

(** Lexer::isHereNowDocEnd, phplexer.cpp 999-1015 *)
Definition isHereNowDocEnd (id : qstring) (it : list N) : option bool :=
  let n := List.length id in
  Some (eqs (firstn n it) id)
  &&& (isC it n cNL ||| (isC it n cSEMI &&& isC it (S n) cNL)).

(** ENCAPSED_AND_WHITESPACE loop, phplexer.cpp 860-892; [s] is state() (which the loop does
    not change), startPos is offset 0. *)
Fixpoint encLoop (s : LState) (id : qstring) (before it : list N) (i : nat)
  : option (nat * list nat) :=
  match it with
  | [] => Some (i, [])
  | c :: t =>
      let esc := isEscaped before (Nat.ltb 0 i) in
      brk <- (mNot esc
              &&& ((Some (c =? cDOLLAR) &&& isC it 1 cLBRACE)
                   ||| (Some (c =? cLBRACE) &&& isC it 1 cDOLLAR &&& test it 2 isIdent)
                   ||| (Some (c =? cDOLLAR) &&& test it 1 isIdentStart)))
             ||| (Some (stIs s SString) &&& Some (c =? cDQ) &&& mNot esc)
             ||| (Some (stIs s StringBacktick) &&& Some (c =? cBACKTICK) &&& mNot esc) ;;
      if brk : bool then Some (i, [])
      else
        stop <- (Some (stIs s StringHeredoc) &&& Some (c =? cNL) &&& isHereNowDocEnd id t) ;;
        if stop : bool then Some (S i, if c =? cNL then [i] else [])
        else
          ' (j, nl) <- encLoop s id (c :: before) t (S i) ;;
          Some (j, if c =? cNL then i :: nl else nl)
  end.

(** "if (state() == StringVariable) popState(); popState();" *)
Definition popString (st : list LState) : option (list LState) :=
  s <- stateAt st 0 ;;
  st' <- (if stIs s StringVariable then pop st else Some st) ;;
  pop st'.

(** state() == x || state(1) == x *)
Definition inString (st : list LState) (x : LState) : option bool :=
  s <- stateAt st 0 ;;
  Some (stIs s x) ||| (s1 <- stateAt st 1 ;; Some (stIs s1 x)).

(** cases StringVariable, String, StringHeredoc, StringBacktick, phplexer.cpp 817-893 *)
Definition lexString (st : list LState) (id : qstring) (before it : list N) : option Out :=
  c <- peek it 0 ;;
  s <- stateAt st 0 ;;
  IF inString st SString &&& Some (c =? cDQ)
  THEN st' <- popString st ;; simple st' id T_DOUBLE_QUOTE 1
  ELSE IF inString st StringBacktick &&& Some (c =? cBACKTICK)
  THEN st' <- popString st ;; simple st' id T_BACKTICK 1
  ELSE IF inString st StringHeredoc &&& isHereNowDocEnd id it
  THEN st' <- popString st ;; simple st' id T_END_HEREDOC (List.length id)
  ELSE
  v <- processVariable it ;;
  match v with
  | Some len =>
      simple (if stIs s StringVariable then st else StringVariable :: st) id T_VARIABLE len
  | None =>
  IF Some (negb (stIs s StringVariable)) &&& Some (c =? cDOLLAR) &&& isC it 1 cLBRACE
  THEN
    IF test it 2 isIdentStart
    THEN simple (StringVarname :: st) id T_DOLLAR_OPEN_CURLY_BRACES 2
    ELSE simple st id T_DOLLAR_OPEN_CURLY_BRACES 2
  ELSE
  if stIs s StringVariable && (c =? cLBRACKET)
  then simple (StringVariableBracket :: st) id T_LBRACKET 1
  else IF Some (negb (stIs s StringVariable)) &&& Some (c =? cLBRACE) &&& isC it 1 cDOLLAR
          &&& (test it 2 isIdentStart ||| isC it 2 cLBRACE)
  THEN simple (StringVariableCurly :: st) id T_CURLY_OPEN 1
  ELSE IF Some (stIs s StringVariable) &&& Some (c =? cMINUS) &&& isC it 1 cGT
          &&& test it 2 isIdentStart
  THEN simple (StringVariableObjectOperator :: st) id T_OBJECT_OPERATOR 2
  ELSE
    st' <- (if stIs s StringVariable then pop st else Some st) ;;
    s' <- stateAt st' 0 ;;
    ' (i, nl) <- encLoop s' id before it 0 ;;
    Some {| o_tok := T_ENCAPSED_AND_WHITESPACE; o_len := i; o_nl := nl; o_st := st'; o_id := id |}
  end.

(** Nowdoc loop, phplexer.cpp 901-911 *)
Fixpoint nowLoop (id : qstring) (it : list N) (i : nat) : option (nat * list nat) :=
  match it with
  | [] => Some (i, [])
  | c :: t =>
      stop <- (Some (c =? cNL) &&& isHereNowDocEnd id t) ;;
      if stop : bool then Some (S i, if c =? cNL then [i] else [])
      else
        ' (j, nl) <- nowLoop id t (S i) ;;
        Some (j, if c =? cNL then i :: nl else nl)
  end.

(** case StringNowdoc, phplexer.cpp 894-913 *)
Definition lexNowdoc (st : list LState) (id : qstring) (it : list N) : option Out :=
  IF isHereNowDocEnd id it
  THEN st' <- pop st ;; simple st' id T_END_NOWDOC (List.length id)
  ELSE
    ' (i, nl) <- nowLoop id it 0 ;;
    Some {| o_tok := T_STRING; o_len := i; o_nl := nl; o_st := st; o_id := id |}.

(** case StringVariableBracket, phplexer.cpp 914-935 *)
Definition lexBracket (st : list LState) (id : qstring) (it : list N) : option Out :=
  c <- peek it 0 ;;
  if c =? cRBRACKET then st' <- pop st ;; st'' <- pop st' ;; simple st'' id T_RBRACKET 1
  else if isDigit cc c then simple st id T_NUM_STRING (fst (skipWhile (isDigit cc) it 0))
  else
    let '(j, nl) := scanWhile (fun x => negb (x =? cRBRACKET)) it 0 in
    Some {| o_tok := T_STRING; o_len := j; o_nl := nl; o_st := st; o_id := id |}.

(** case StringVariableObjectOperator, phplexer.cpp 936-945 *)
Definition lexObjOp (st : list LState) (id : qstring) (it : list N) : option Out :=
  let j := fst (skipWhile isIdent it 0) in
  st' <- pop st ;;
  s <- stateAt st' 0 ;;
  st'' <- (if stIs s StringVariable then pop st' else Some st') ;;
  simple st'' id T_STRING j.

(** case StringVarname, phplexer.cpp 946-955 *)
Definition lexVarname (st : list LState) (id : qstring) (it : list N) : option Out :=
  st' <- pop st ;;
  simple (StringVariableCurly :: st') id T_STRING_VARNAME (fst (skipWhile isIdent it 0)).

(** switch (state()), phplexer.cpp 88-959 *)
Definition handler (st : list LState) (id : qstring) (before it : list N) : option Out :=
  s <- stateAt st 0 ;;
  match s with
  | HtmlState => lexHtml st id it
  | DefaultState | StringVariableCurly => lexDefault st id before it
  | StringVariable | SString | StringHeredoc | StringBacktick => lexString st id before it
  | StringNowdoc => lexNowdoc st id it
  | StringVariableBracket => lexBracket st id it
  | StringVariableObjectOperator => lexObjOp st id it
  | StringVarname => lexVarname st id it
  | ErrorState => simple st id T_INVALID 1
  end.

(** The object state of class Lexer, phplexer.h 38-60 *)
Record LexState := {
  lx_pos  : nat;               (* m_curpos *)
  lx_st   : list LState;       (* m_state *)
  lx_id   : qstring;           (* m_hereNowDocIdentifier *)
  lx_halt : nat                (* m_haltCompiler *)
}.

(** Constructor, phplexer.cpp 21-31, for the two initial states in use: HtmlState (files) and
    DefaultState (expressions, expressionparser.cpp). *)
Definition initHtml : LexState :=
  {| lx_pos := 0; lx_st := [HtmlState; ErrorState]; lx_id := []; lx_halt := 0 |}.
Definition initDefault : LexState :=
  {| lx_pos := 0; lx_st := [DefaultState; HtmlState; ErrorState]; lx_id := []; lx_halt := 0 |}.

(** A token as the caller sees it: kind, tokenBegin(), tokenEnd(). *)
Record Token := { t_kind : Tok; t_begin : Z; t_end : Z }.

Definition isBlankOrComment (t : Tok) : bool :=
  match t with T_WHITESPACE | T_COMMENT | T_DOC_COMMENT => true | _ => false end.
Definition isEOF (t : Tok) : bool := match t with T_EOF => true | _ => false end.

(** The m_haltCompiler block, phplexer.cpp 967-986: new token kind and counter. *)
Definition haltStep (halt : nat) (t : Tok) : Tok * nat :=
  let '(t', h') :=
    if Nat.eqb halt 0 then (t, halt)
    else if Nat.eqb halt 4 then (T_EOF, halt)
    else if isBlankOrComment t then (t, halt)
    else match halt, t with
         | 1%nat, T_LPAREN => (t, 2%nat)
         | 2%nat, T_RPAREN => (t, 3%nat)
         | 3%nat, T_SEMICOLON => (t, 4%nat)
         | _, _ => (t, 0%nat)
         end in
  match t' with
  | T_HALT_COMPILER => (t', if Nat.eqb h' 0 then 1%nat else h')
  | _ => (t', h')
  end.

(** Lexer::nextTokenKind, phplexer.cpp 75-988: new object state, token, and the absolute
    offsets passed to createNewline.  [None]: undefined behaviour. *)
Definition nextToken (content : list N) (l : LexState)
  : option (LexState * Token * list nat) :=
  let size := List.length content in
  let c := lx_pos l in
  if Nat.leb size c then
    Some (l, {| t_kind := T_EOF; t_begin := -1; t_end := -1 |}, [c])
  else
    o <- handler (lx_st l) (lx_id l) (rev (firstn c content)) (skipn c content) ;;
    let nls := map (Nat.add c) (o_nl o) in
    if Nat.ltb (S size) (c + o_len o) then                   (* m_curpos > m_contentSize *)
      Some ({| lx_pos := c + o_len o - 1; lx_st := o_st o; lx_id := o_id o; lx_halt := lx_halt l |},
            {| t_kind := T_EOF; t_begin := -1; t_end := -1 |}, nls)
    else
      let '(tk, h) := haltStep (lx_halt l) (o_tok o) in
      Some ({| lx_pos := c + o_len o; lx_st := o_st o; lx_id := o_id o; lx_halt := h |},
            {| t_kind := tk; t_begin := Z.of_nat c; t_end := Z.of_nat (c + o_len o) - 1 |}, nls).

(** Calling nextTokenKind until it returns 0, as TokenAccess (completion/context.cpp 75-83)
    does; [None]: undefined behaviour.  [fuel] bounds the number of calls; running out of it
    is the distinct outcome [OutOfFuel], never reported as a normal result. *)
Inductive Run := Done (toks : list Token) (nls : list nat) (last : LexState) | OutOfFuel.
Fixpoint lexAll (fuel : nat) (content : list N) (l : LexState) : option Run :=
  match fuel with
  | O => Some OutOfFuel
  | S f =>
      ' (l', t, nl) <- nextToken content l ;;
      if isEOF (t_kind t) then Some (Done [] nl l')
      else
        r <- lexAll f content l' ;;
        match r with
        | Done ts nls last => Some (Done (t :: ts) (nl ++ nls) last)
        | OutOfFuel => Some OutOfFuel
        end
  end.

End Lexer.
