(** Code completion context (completion/context.cpp, token handling). *)
From Verif Require Export LexModel LexSpec.
Open Scope nat_scope.

(** A decidable equality on token kinds, by numbering them. *)
Definition kindNum (k : Tok) : nat :=
  match k with
  | T_EOF => 0 | T_INVALID => 1 | T_OPEN_TAG => 2 | T_OPEN_TAG_WITH_ECHO => 3
  | T_INLINE_HTML => 4 | T_CLOSE_TAG => 5 | T_WHITESPACE => 6 | T_COMMENT => 7
  | T_DOC_COMMENT => 8 | T_LNUMBER => 9 | T_DNUMBER => 10 | T_VARIABLE => 11 | T_DOLLAR => 12
  | T_LBRACE => 13 | T_RBRACE => 14 | T_LPAREN => 15 | T_RPAREN => 16 | T_LBRACKET => 17
  | T_RBRACKET => 18 | T_COMMA => 19 | T_AT => 20 | T_BANG => 21 | T_TILDE => 22
  | T_COLON => 23 | T_QUESTION => 24 | T_SEMICOLON => 25 | T_BACKSLASH => 26 | T_INT_CAST => 27
  | T_DOUBLE_CAST => 28 | T_STRING_CAST => 29 | T_ARRAY_CAST => 30 | T_OBJECT_CAST => 31
  | T_BOOL_CAST => 32 | T_UNSET_CAST => 33 | T_IS_NOT_IDENTICAL => 34 | T_IS_NOT_EQUAL => 35
  | T_IS_IDENTICAL => 36 | T_IS_EQUAL => 37 | T_IS_SMALLER => 38 | T_IS_SMALLER_OR_EQUAL => 39
  | T_IS_GREATER => 40 | T_IS_GREATER_OR_EQUAL => 41 | T_SPACESHIP => 42 | T_SL => 43
  | T_SL_ASSIGN => 44 | T_SR => 45 | T_SR_ASSIGN => 46 | T_START_HEREDOC => 47
  | T_END_HEREDOC => 48 | T_START_NOWDOC => 49 | T_END_NOWDOC => 50
  | T_PAAMAYIM_NEKUDOTAYIM => 51 | T_NULL_COALESCE => 52 | T_OBJECT_OPERATOR => 53
  | T_DOUBLE_ARROW => 54 | T_ASSIGN => 55 | T_MOD => 56 | T_MOD_ASSIGN => 57 | T_DIV => 58
  | T_DIV_ASSIGN => 59 | T_MUL => 60 | T_MUL_ASSIGN => 61 | T_EXP => 62 | T_EXP_ASSIGN => 63
  | T_PLUS => 64 | T_PLUS_ASSIGN => 65 | T_INC => 66 | T_MINUS => 67 | T_MINUS_ASSIGN => 68
  | T_DEC => 69 | T_BIT_XOR => 70 | T_XOR_ASSIGN => 71 | T_BIT_OR => 72 | T_OR_ASSIGN => 73
  | T_BOOLEAN_OR => 74 | T_BIT_AND => 75 | T_AND_ASSIGN => 76 | T_BOOLEAN_AND => 77
  | T_CONCAT => 78 | T_CONCAT_ASSIGN => 79 | T_ELLIPSIS => 80
  | T_CONSTANT_ENCAPSED_STRING => 81 | T_DOUBLE_QUOTE => 82 | T_BACKTICK => 83
  | T_ENCAPSED_AND_WHITESPACE => 84 | T_DOLLAR_OPEN_CURLY_BRACES => 85 | T_CURLY_OPEN => 86
  | T_STRING_VARNAME => 87 | T_NUM_STRING => 88 | T_STRING => 89 | T_ECHO => 90
  | T_INCLUDE => 91 | T_INCLUDE_ONCE => 92 | T_REQUIRE => 93 | T_REQUIRE_ONCE => 94
  | T_EVAL => 95 | T_PRINT => 96 | T_ABSTRACT => 97 | T_BREAK => 98 | T_CASE => 99
  | T_CATCH => 100 | T_CLASS => 101 | T_CONST => 102 | T_CONTINUE => 103 | T_DEFAULT => 104
  | T_DO => 105 | T_ELSE => 106 | T_EXTENDS => 107 | T_FINAL => 108 | T_FOR => 109
  | T_IF => 110 | T_IMPLEMENTS => 111 | T_INSTANCEOF => 112 | T_INSTEADOF => 113
  | T_INTERFACE => 114 | T_TRAIT => 115 | T_NEW => 116 | T_PRIVATE => 117 | T_PROTECTED => 118
  | T_PUBLIC => 119 | T_RETURN => 120 | T_STATIC => 121 | T_SWITCH => 122 | T_THROW => 123
  | T_TRY => 124 | T_FINALLY => 125 | T_WHILE => 126 | T_CLONE => 127 | T_EXIT => 128
  | T_ELSEIF => 129 | T_ENDIF => 130 | T_ENDWHILE => 131 | T_ENDFOR => 132 | T_FOREACH => 133
  | T_ENDFOREACH => 134 | T_DECLARE => 135 | T_ENDDECLARE => 136 | T_AS => 137
  | T_ENDSWITCH => 138 | T_FUNCTION => 139 | T_USE => 140 | T_GOTO => 141 | T_GLOBAL => 142
  | T_VAR => 143 | T_UNSET => 144 | T_ISSET => 145 | T_EMPTY => 146 | T_HALT_COMPILER => 147
  | T_LIST => 148 | T_ARRAY => 149 | T_CLASS_C => 150 | T_TRAIT_C => 151 | T_METHOD_C => 152
  | T_FUNC_C => 153 | T_LINE => 154 | T_FILE => 155 | T_DIR => 156 | T_LOGICAL_OR => 157
  | T_LOGICAL_AND => 158 | T_LOGICAL_XOR => 159 | T_NAMESPACE => 160 | T_NAMESPACE_C => 161
  | T_CALLABLE => 162 | T_VOID => 163 | T_YIELD => 164 | T_YIELD_FROM => 165
  end.
Definition allKinds : list Tok :=
  [T_EOF; T_INVALID; T_OPEN_TAG; T_OPEN_TAG_WITH_ECHO; T_INLINE_HTML; T_CLOSE_TAG;
   T_WHITESPACE; T_COMMENT; T_DOC_COMMENT; T_LNUMBER; T_DNUMBER; T_VARIABLE; T_DOLLAR;
   T_LBRACE; T_RBRACE; T_LPAREN; T_RPAREN; T_LBRACKET; T_RBRACKET; T_COMMA; T_AT; T_BANG;
   T_TILDE; T_COLON; T_QUESTION; T_SEMICOLON; T_BACKSLASH; T_INT_CAST; T_DOUBLE_CAST;
   T_STRING_CAST; T_ARRAY_CAST; T_OBJECT_CAST; T_BOOL_CAST; T_UNSET_CAST; T_IS_NOT_IDENTICAL;
   T_IS_NOT_EQUAL; T_IS_IDENTICAL; T_IS_EQUAL; T_IS_SMALLER; T_IS_SMALLER_OR_EQUAL;
   T_IS_GREATER; T_IS_GREATER_OR_EQUAL; T_SPACESHIP; T_SL; T_SL_ASSIGN; T_SR; T_SR_ASSIGN;
   T_START_HEREDOC; T_END_HEREDOC; T_START_NOWDOC; T_END_NOWDOC; T_PAAMAYIM_NEKUDOTAYIM;
   T_NULL_COALESCE; T_OBJECT_OPERATOR; T_DOUBLE_ARROW; T_ASSIGN; T_MOD; T_MOD_ASSIGN; T_DIV;
   T_DIV_ASSIGN; T_MUL; T_MUL_ASSIGN; T_EXP; T_EXP_ASSIGN; T_PLUS; T_PLUS_ASSIGN; T_INC;
   T_MINUS; T_MINUS_ASSIGN; T_DEC; T_BIT_XOR; T_XOR_ASSIGN; T_BIT_OR; T_OR_ASSIGN;
   T_BOOLEAN_OR; T_BIT_AND; T_AND_ASSIGN; T_BOOLEAN_AND; T_CONCAT; T_CONCAT_ASSIGN; T_ELLIPSIS;
   T_CONSTANT_ENCAPSED_STRING; T_DOUBLE_QUOTE; T_BACKTICK; T_ENCAPSED_AND_WHITESPACE;
   T_DOLLAR_OPEN_CURLY_BRACES; T_CURLY_OPEN; T_STRING_VARNAME; T_NUM_STRING; T_STRING; T_ECHO;
   T_INCLUDE; T_INCLUDE_ONCE; T_REQUIRE; T_REQUIRE_ONCE; T_EVAL; T_PRINT; T_ABSTRACT; T_BREAK;
   T_CASE; T_CATCH; T_CLASS; T_CONST; T_CONTINUE; T_DEFAULT; T_DO; T_ELSE; T_EXTENDS; T_FINAL;
   T_FOR; T_IF; T_IMPLEMENTS; T_INSTANCEOF; T_INSTEADOF; T_INTERFACE; T_TRAIT; T_NEW;
   T_PRIVATE; T_PROTECTED; T_PUBLIC; T_RETURN; T_STATIC; T_SWITCH; T_THROW; T_TRY; T_FINALLY;
   T_WHILE; T_CLONE; T_EXIT; T_ELSEIF; T_ENDIF; T_ENDWHILE; T_ENDFOR; T_FOREACH; T_ENDFOREACH;
   T_DECLARE; T_ENDDECLARE; T_AS; T_ENDSWITCH; T_FUNCTION; T_USE; T_GOTO; T_GLOBAL; T_VAR;
   T_UNSET; T_ISSET; T_EMPTY; T_HALT_COMPILER; T_LIST; T_ARRAY; T_CLASS_C; T_TRAIT_C;
   T_METHOD_C; T_FUNC_C; T_LINE; T_FILE; T_DIR; T_LOGICAL_OR; T_LOGICAL_AND; T_LOGICAL_XOR;
   T_NAMESPACE; T_NAMESPACE_C; T_CALLABLE; T_VOID; T_YIELD; T_YIELD_FROM].
Definition is (a b : Tok) : bool := Nat.eqb (kindNum a) (kindNum b).
Definition isIn (k : Tok) (l : list Tok) : bool := existsb (is k) l.

(** Outcome of a computation: a value, an access outside the token list or a failed Q_ASSERT
    ([Bad]), or a loop longer than the fuel ([Fuel]). *)
Inductive CRes (A : Type) := Ok (a : A) | Bad | Fuel.
Arguments Ok {A}. Arguments Bad {A}. Arguments Fuel {A}.
Definition cbind {A B} (r : CRes A) (f : A -> CRes B) : CRes B :=
  match r with Ok a => f a | Bad => Bad | Fuel => Fuel end.
Notation "x <~ a ;; f" := (cbind a (fun x => f)) (at level 61, a at next level, right associativity).

(** class TokenAccess, completion/context.cpp 73-180: m_code, m_stream, m_pos. *)
Record TA := { ta_code : qstring; ta_stream : list Token; ta_pos : Z }.

(** m_stream.at(i) with an absolute index; unchecked in release builds. *)
Definition streamAt (ta : TA) (i : Z) : CRes Token :=
  if (i <? 0)%Z then Bad
  else match nth_error (ta_stream ta) (Z.to_nat i) with Some t => Ok t | None => Bad end.

(** TokenAccess::TokenAccess 76-90 *)
Definition newTA (code : qstring) (toks : list Token) : TA :=
  {| ta_code := code; ta_stream := toks; ta_pos := Z.of_nat (List.length toks) - 1 |}.

(** TokenAccess::typeAt 124-131 *)
Definition typeAt (ta : TA) (rel : Z) : Tok :=
  match streamAt ta (ta_pos ta + rel) with Ok t => t_kind t | _ => T_INVALID end.

(** TokenAccess::type 94-101: INVALID at -1, otherwise an unchecked access. *)
Definition type (ta : TA) : CRes Tok :=
  if (ta_pos ta =? -1)%Z then Ok T_INVALID
  else t <~ streamAt ta (ta_pos ta) ;; Ok (t_kind t).

Definition setPos (ta : TA) (p : Z) : TA :=
  {| ta_code := ta_code ta; ta_stream := ta_stream ta; ta_pos := p |}.

(** TokenAccess::pop 108-112 *)
Definition popTok (ta : TA) : TA := if (0 <=? ta_pos ta)%Z then setPos ta (ta_pos ta - 1) else ta.

(** TokenAccess::moveTo 116-120 with its assertions. *)
Definition moveTo (ta : TA) (rel : Z) : CRes TA :=
  let p := (ta_pos ta + rel)%Z in
  if ((0 <? p) && (p <? Z.of_nat (List.length (ta_stream ta))))%Z then Ok (setPos ta p) else Bad.

(** TokenAccess::at 168-173 *)
Definition tokAt (ta : TA) (rel : Z) : CRes Token := streamAt ta (ta_pos ta + rel).

(** TokenAccess::stringAt 135-138 *)
Definition stringAt (ta : TA) (rel : Z) : CRes qstring :=
  t <~ tokAt ta rel ;; Ok (mid (ta_code ta) (t_begin t) (t_end t - t_begin t + 1)).

(** TokenAccess::prependedBy 142-164: the loop over the list ... *)
Fixpoint prepLoop (ta : TA) (l : list Tok) (skipWs : bool) (pos : Z) : CRes Z :=
  match l with
  | [] => Ok pos
  | k :: rest =>
      pos1 <~ (if skipWs then
                 t <~ streamAt ta (ta_pos ta - pos) ;;
                 Ok (if is (t_kind t) T_WHITESPACE then pos + 1 else pos)%Z
               else Ok pos) ;;
      t <~ streamAt ta (ta_pos ta - pos1) ;;
      if is (t_kind t) k then prepLoop ta rest skipWs (pos1 + 1) else Ok (-1)%Z
  end.
(** ... and the whole function. *)
Definition prependedBy (ta : TA) (l : list Tok) (skipWs : bool) : CRes Z :=
  if (ta_pos ta <? Z.of_nat (List.length l) - 1)%Z then Ok (-1)%Z else prepLoop ta l skipWs 1.

(** removeOtherArguments, context.cpp 184-202; [open] is openLParen. *)
Fixpoint rOALoop (fuel : nat) (ta : TA) (open : nat) : CRes TA :=
  match fuel with
  | O => Fuel
  | S f =>
      let ta := popTok ta in
      k <~ type ta ;;
      if is k T_RPAREN then rOALoop f ta (S open)
      else if is k T_LPAREN then
        match open with O => Ok ta | S o => rOALoop f ta o end
      else if is k T_INVALID then Ok ta
      else rOALoop f ta open
  end.
Definition removeOtherArguments (fuel : nat) (ta : TA) : CRes TA :=
  k <~ type ta ;; if is k T_COMMA then rOALoop fuel ta 0 else Bad.

(** skipWhiteSpace, context.cpp 207-212 *)
Definition skipWhiteSpace (ta : TA) (pos : Z) : Z :=
  if is (typeAt ta pos) T_WHITESPACE then (pos - 1)%Z else pos.

(** enum MemberAccessOperation, completion/context.h 70-88 *)
Inductive Op := NoMemberAccess | MemberAccess | FunctionCallAccess | StaticMemberAccess
| NewClassChoose | ClassExtendsChoose | InterfaceChoose | InstanceOfChoose | ExceptionChoose
| ExceptionInstanceChoose | ClassMemberChoose | FileChoose | NamespaceChoose | BackslashAccess.
Definition opIs (a b : Op) : bool :=
  match a, b with
  | NoMemberAccess, NoMemberAccess | MemberAccess, MemberAccess
  | FunctionCallAccess, FunctionCallAccess | StaticMemberAccess, StaticMemberAccess
  | NewClassChoose, NewClassChoose | ClassExtendsChoose, ClassExtendsChoose
  | InterfaceChoose, InterfaceChoose | InstanceOfChoose, InstanceOfChoose
  | ExceptionChoose, ExceptionChoose | ExceptionInstanceChoose, ExceptionInstanceChoose
  | ClassMemberChoose, ClassMemberChoose | FileChoose, FileChoose
  | NamespaceChoose, NamespaceChoose | BackslashAccess, BackslashAccess => true
  | _, _ => false
  end.

(** The completion context, as far as it is computed from tokens: m_valid,
    m_memberAccessOperation, m_expression, the strings passed to forbidIdentifier (from last
    to first), the string of m_namespace, m_isFileCompletionAfterDirname, m_parentContext.
    Left out: m_text after trimming, m_parentAccess and m_expressionResult (see [Env]). *)
Inductive Ctx := mkCtx {
  c_valid : bool; c_op : Op; c_expr : qstring; c_forbid : list qstring; c_ns : qstring;
  c_afterDir : bool; c_parent : option Ctx }.
Definition ctx0 : Ctx := mkCtx true NoMemberAccess [] [] [] false None.
Definition invalid (c : Ctx) : Ctx :=
  mkCtx false (c_op c) (c_expr c) (c_forbid c) (c_ns c) (c_afterDir c) (c_parent c).
Definition withOp (c : Ctx) (o : Op) : Ctx :=
  mkCtx (c_valid c) o (c_expr c) (c_forbid c) (c_ns c) (c_afterDir c) (c_parent c).
Definition withExpr (c : Ctx) (e : qstring) : Ctx :=
  mkCtx (c_valid c) (c_op c) e (c_forbid c) (c_ns c) (c_afterDir c) (c_parent c).
Definition withForbid (c : Ctx) (ids : list qstring) : Ctx :=
  mkCtx (c_valid c) (c_op c) (c_expr c) (rev ids ++ c_forbid c) (c_ns c) (c_afterDir c) (c_parent c).
Definition withNs (c : Ctx) (n : qstring) : Ctx :=
  mkCtx (c_valid c) (c_op c) (c_expr c) (c_forbid c) n (c_afterDir c) (c_parent c).
Definition withDir (c : Ctx) (b : bool) : Ctx :=
  mkCtx (c_valid c) (c_op c) (c_expr c) (c_forbid c) (c_ns c) b (c_parent c).
Definition withParent (c : Ctx) (p : option Ctx) : Ctx :=
  mkCtx (c_valid c) (c_op c) (c_expr c) (c_forbid c) (c_ns c) (c_afterDir c) p.

(** What the context asks the rest of the program: does evaluateType find a type for an
    expression (922-924); are we in a method of a class (867-870), and does that class have
    an instantiable base class (871-890). *)
Record Env := { e_hasType : qstring -> bool; e_inMethod : bool; e_goodParent : bool }.

(** QString::trimmed, as used at 909 and 460 *)
Fixpoint trimLeft (cc : CharClass) (s : qstring) : qstring :=
  match s with c :: r => if isSpace cc c then trimLeft cc r else s | [] => [] end.
Definition trimmed (cc : CharClass) (s : qstring) : qstring :=
  rev (trimLeft cc (rev (trimLeft cc s))).

(** defaultStopTokens, context.cpp 812-816 *)
Definition stopTokens : list Tok :=
  [T_SEMICOLON; T_INVALID; T_OPEN_TAG; T_OPEN_TAG_WITH_ECHO; T_LBRACE; T_RBRACE; T_IF; T_WHILE;
   T_FOR; T_FOREACH; T_SWITCH; T_ELSEIF].

(** "find expression start", context.cpp 819-833: final startPos and openLParen (which may
    be negative). *)
Fixpoint walk (fuel : nat) (ta : TA) (op : Op) (startPos open : Z) : CRes (Z * Z) :=
  match fuel with
  | O => Fuel
  | S f =>
      let k := typeAt ta startPos in
      if isIn k stopTokens || (negb (opIs op FunctionCallAccess) && is k T_COMMA)
      then Ok (startPos, open)
      else if is k T_LPAREN then
        if (0 <? open + 1)%Z then Ok (startPos, open + 1)%Z
        else walk f ta op (startPos - 1) (open + 1)
      else if is k T_RPAREN then walk f ta op (startPos - 1) (open - 1)
      else walk f ta op (startPos - 1) open
  end.

(** "for (i = startPos; i <= 0; ++i) m_expression += stringAt(i)", context.cpp 905-907 *)
Fixpoint strings (ta : TA) (from : Z) (n : nat) : CRes qstring :=
  match n with
  | O => Ok []
  | S n => s <~ stringAt ta from ;; r <~ strings ta (from + 1) n ;; Ok (s ++ r)
  end.

(** CodeCompletionContext::evaluateExpression, context.cpp 792-973, with the constructor for
    parent contexts (773-790) at the recursive call; [fuel] also bounds the nesting. *)
Fixpoint evaluate (cc : CharClass) (env : Env) (fuel : nat) (ta : TA) (c : Ctx) : CRes Ctx :=
  match fuel with
  | O => Fuel
  | S f =>
      let call := opIs (c_op c) FunctionCallAccess in
      start <~ (if call then
                  k <~ type ta ;;
                  if is k T_LPAREN then
                    pos <~ prependedBy ta [T_STRING; T_NEW] true ;;
                    Ok (if (pos =? -1)%Z then -1 else - pos)%Z
                  else Bad
                else Ok 0%Z) ;;
      r <~ walk fuel ta (c_op c) start 0 ;;
      let '(startPos, open) := r in
      if (open <? 0)%Z then Ok (invalid c) else
      let startPos := (startPos + 1)%Z in
      let startPos := if is (typeAt ta startPos) T_WHITESPACE then (startPos + 1)%Z else startPos in
      let startPos := if is (typeAt ta startPos) T_RETURN then
                        if is (typeAt ta (startPos + 1)) T_WHITESPACE then (startPos + 2)%Z
                        else (startPos + 1)%Z
                      else startPos in
      (* the context so far, and whether to go on *)
      cb <~ (if opIs (c_op c) StaticMemberAccess then
               if negb (is (typeAt ta startPos) T_STRING) then Ok (invalid c, false) else
               raw <~ stringAt ta startPos ;;
               let id := map (toLower cc) raw in
               if eqs id (str "parent") && e_inMethod env then
                 if e_goodParent env then Ok (withOp c MemberAccess, true) else Ok (invalid c, false)
               else Ok (c, true)
             else
               e <~ strings ta startPos (Z.to_nat (1 - startPos)) ;;
               let e := trimmed cc e ++ (if call then str ")" else [])
                        ++ repeat cRPAREN (Z.to_nat open) in
               let c := withExpr c e in
               if match e with [] => false | _ => e_hasType env e end then Ok (c, true)
               else if call then Ok (c, false) else Ok (invalid c, false)) ;;
      let '(c, goOn) := cb in
      if negb goOn then Ok c else
      ta <~ moveTo ta startPos ;;
      if is (typeAt ta (-1)) T_LPAREN || is (typeAt ta (-1)) T_COMMA then
        ta <~ moveTo ta (-1) ;;
        k <~ type ta ;;
        ta <~ (if is k T_COMMA then removeOtherArguments fuel ta else Ok ta) ;;
        k <~ type ta ;;
        if is k T_INVALID then Ok (invalid c) else
        p <~ prependedBy ta [T_STRING] true ;;
        if (p =? -1)%Z then Ok c else
        k <~ type ta ;;
        if negb (is k T_LPAREN) then Bad else
        parent <~ evaluate cc env f ta (withOp ctx0 FunctionCallAccess) ;;
        if c_valid parent then Ok (withParent c (Some parent)) else Ok (invalid c)
      else Ok c
  end.

(** The list after "implements", context.cpp 327-363: positions of the identifiers and
    whether this is such a list. *)
Fixpoint implLoop (fuel : nat) (ta : TA) (relPos : Z) (ids : list Z) : CRes (list Z * bool) :=
  match fuel with
  | O => Fuel
  | S f =>
      let relPos := skipWhiteSpace ta relPos in
      if is (typeAt ta relPos) T_STRING then
        let ids := ids ++ [relPos] in
        let relPos := skipWhiteSpace ta (relPos - 1) in
        let before :=
          is (typeAt ta (relPos - 1)) T_WHITESPACE && is (typeAt ta (relPos - 2)) T_STRING
          && is (typeAt ta (relPos - 3)) T_WHITESPACE in
        if (is (typeAt ta relPos) T_EXTENDS && before && is (typeAt ta (relPos - 4)) T_INTERFACE)
           || (is (typeAt ta relPos) T_IMPLEMENTS && before && is (typeAt ta (relPos - 4)) T_CLASS)
        then Ok (ids ++ [relPos - 2]%Z, true)
        else if is (typeAt ta relPos) T_COMMA then implLoop f ta (relPos - 1) ids
        else implLoop f ta relPos ids
      else Ok (ids, false)
  end.

Fixpoint stringsAt (ta : TA) (ps : list Z) : CRes (list qstring) :=
  match ps with
  | [] => Ok []
  | p :: r => s <~ stringAt ta p ;; t <~ stringsAt ta r ;; Ok (s :: t)
  end.

(** The namespace loop, context.cpp 578-588: the identifier and the final relPos. *)
Fixpoint nsLoop (fuel : nat) (ta : TA) (relPos : Z) (ident : qstring) : CRes (qstring * Z) :=
  match fuel with
  | O => Fuel
  | S f =>
      if is (typeAt ta relPos) T_BACKSLASH then nsLoop f ta (relPos - 1) (str "::" ++ ident)
      else if is (typeAt ta relPos) T_STRING then
        s <~ stringAt ta relPos ;; nsLoop f ta (relPos - 1) (s ++ ident)
      else Ok (ident, relPos)
  end.

(** "normal completion is valid", context.cpp 479-558 *)
Definition normalKind (k : Tok) : bool :=
  match k with
  | T_AND_ASSIGN | T_ARRAY_CAST | T_ASSIGN | T_AT | T_BANG | T_BIT_AND | T_BIT_OR | T_BIT_XOR
  | T_BOOLEAN_AND | T_BOOLEAN_OR | T_BOOL_CAST | T_COLON | T_CONCAT | T_CONCAT_ASSIGN
  | T_CURLY_OPEN | T_DEC | T_DIV | T_DIV_ASSIGN | T_DOC_COMMENT | T_DOLLAR_OPEN_CURLY_BRACES
  | T_DOUBLE_ARROW | T_DOUBLE_CAST | T_DOUBLE_QUOTE | T_ECHO | T_ELLIPSIS
  | T_ENCAPSED_AND_WHITESPACE | T_EXIT | T_INC | T_INT_CAST | T_IS_EQUAL | T_IS_GREATER
  | T_IS_GREATER_OR_EQUAL | T_IS_IDENTICAL | T_IS_NOT_EQUAL | T_IS_NOT_IDENTICAL | T_IS_SMALLER
  | T_IS_SMALLER_OR_EQUAL | T_LBRACE | T_LBRACKET | T_LOGICAL_AND | T_LOGICAL_OR
  | T_LOGICAL_XOR | T_MINUS | T_MINUS_ASSIGN | T_MOD | T_MOD_ASSIGN | T_MUL | T_MUL_ASSIGN
  | T_NULL_COALESCE | T_OBJECT_CAST | T_OPEN_TAG_WITH_ECHO | T_OR_ASSIGN | T_PLUS
  | T_PLUS_ASSIGN | T_PRINT | T_QUESTION | T_RBRACE | T_RETURN | T_SEMICOLON | T_SL
  | T_SL_ASSIGN | T_SPACESHIP | T_SR | T_SR_ASSIGN | T_START_HEREDOC | T_START_NOWDOC
  | T_STRING | T_STRING_CAST | T_TILDE | T_UNSET_CAST | T_XOR_ASSIGN | T_EXP | T_EXP_ASSIGN => true
  | _ => false
  end.
(** context.cpp 560-574 *)
Definition modifierKind (k : Tok) : bool :=
  match k with
  | T_ABSTRACT | T_CONST | T_FINAL | T_PUBLIC | T_PRIVATE | T_PROTECTED | T_STATIC | T_VAR => true
  | _ => false
  end.

Definition endsWith (s : qstring) (c : N) : bool :=
  match rev s with x :: _ => (x =? c)%N | [] => false end.

(** The big switch of the constructor, context.cpp 291-672, split in two: the result is the
    token position, the context, and whether the constructor returns right away (the array
    case, 405-409).  [inClass] is duContext()->type() == DUContext::Class; [lws] is
    lastWasWhitespace.  Kinds not named here are the "no completion after this token" list
    596-672 (that list and the others together are all kinds). *)
Definition bigSwitch (cc : CharClass) (fuel : nat) (inClass lws : bool) (text following : qstring)
    (ta : TA) : CRes (TA * Ctx * bool) :=
  let ret c : CRes (TA * Ctx * bool) := Ok (ta, c, false) in
  let clsList kw := [T_WHITESPACE; T_STRING; T_WHITESPACE; kw] in
  k <~ type ta ;;
  match k with
  | T_COMMENT =>
      s <~ stringAt ta 0 ;;
      if negb lws && negb (endsWith s cNL) && negb (eqs (firstn 2 s) (str "/*"))
      then ret (invalid ctx0) else ret ctx0
  | T_EXTENDS =>
      p <~ prependedBy ta (clsList T_CLASS) false ;;
      if negb (p =? -1)%Z then
        s <~ stringAt ta (-2) ;; ret (withForbid (withOp ctx0 ClassExtendsChoose) [s])
      else
        p <~ prependedBy ta (clsList T_INTERFACE) false ;;
        if negb (p =? -1)%Z then
          s <~ stringAt ta (-2) ;; ret (withForbid (withOp ctx0 InterfaceChoose) [s])
        else ret (invalid ctx0)
  | T_IMPLEMENTS =>
      p <~ prependedBy ta (clsList T_CLASS) false ;;
      if negb (p =? -1)%Z then
        s <~ stringAt ta (-2) ;; ret (withForbid (withOp ctx0 InterfaceChoose) [s])
      else ret (invalid ctx0)
  | T_COMMA =>
      r <~ implLoop fuel ta (-1) [] ;;
      if snd r then
        ids <~ stringsAt ta (fst r) ;; ret (withForbid (withOp ctx0 InterfaceChoose) ids)
      else
        ta <~ removeOtherArguments fuel ta ;;
        k <~ type ta ;;
        let c := withOp ctx0 FunctionCallAccess in
        Ok (ta, if is k T_INVALID then invalid c else c, false)
  | T_OPEN_TAG =>
      if negb lws && negb (eqs following []) then ret (invalid ctx0) else ret ctx0
  | T_OBJECT_OPERATOR => Ok (popTok ta, withOp ctx0 MemberAccess, false)
  | T_PAAMAYIM_NEKUDOTAYIM => Ok (popTok ta, withOp ctx0 StaticMemberAccess, false)
  | T_LPAREN =>
      let pos := skipWhiteSpace ta (-1) in
      if is (typeAt ta pos) T_CATCH then ret (withOp ctx0 ExceptionChoose)
      else if is (typeAt ta pos) T_ARRAY then Ok (ta, ctx0, true)
      else ret (withOp ctx0 FunctionCallAccess)
  | T_NEW =>
      p <~ prependedBy ta [T_WHITESPACE; T_THROW] false ;;
      ret (withOp ctx0 (if negb (p =? -1)%Z then ExceptionChoose else NewClassChoose))
  | T_THROW => ret (withOp ctx0 ExceptionInstanceChoose)
  | T_CONSTANT_ENCAPSED_STRING =>
      p <~ prependedBy ta [T_CONCAT; T_RPAREN; T_FILE; T_LPAREN; T_STRING] true ;;
      ra <~ (if negb (p =? -1)%Z then
               s <~ stringAt ta (- p + 1) ;;
               Ok (- p, eqs (map (foldCase cc) s) (str "dirname"))%Z
             else
               p <~ prependedBy ta [T_CONCAT; T_DIR] true ;;
               if negb (p =? -1)%Z then Ok (- p, true)%Z else Ok (p, false)) ;;
      let '(relPos, after) := ra in
      let relPos := skipWhiteSpace ta relPos in
      let relPos := if is (typeAt ta relPos) T_LPAREN then (relPos - 1)%Z else relPos in
      let relPos := skipWhiteSpace ta relPos in
      match typeAt ta relPos with
      | T_REQUIRE | T_REQUIRE_ONCE | T_INCLUDE | T_INCLUDE_ONCE =>
          t <~ tokAt ta 0 ;;
          ret (withDir (withExpr (withOp ctx0 FileChoose)
                 (trimmed cc (mid text (t_begin t + 1) (-1) ++ following))) after)
      | _ =>
          t <~ tokAt ta 0 ;;
          if ((t_begin t <? 0) || (Z.of_nat (List.length text) <=? t_begin t))%Z then Bad
          else ret (invalid ctx0)
      end
  | T_INSTANCEOF => ret (withOp ctx0 InstanceOfChoose)
  | T_NAMESPACE | T_BACKSLASH =>
      r <~ nsLoop fuel ta 0 [] ;;
      ret (withNs (withOp ctx0 (if is (typeAt ta (snd r)) T_NAMESPACE then NamespaceChoose
                                else BackslashAccess)) (fst r))
  | k =>
      if normalKind k then ret (withOp ctx0 (if inClass then ClassMemberChoose else NoMemberAccess))
      else if modifierKind k && inClass then ret (withOp ctx0 ClassMemberChoose)
      else ret (invalid ctx0)
  end.

(** Behind the switch, context.cpp 723-770. *)
Definition afterSwitch (cc : CharClass) (env : Env) (fuel : nat) (ta : TA) (c : Ctx) : CRes Ctx :=
  if negb (c_valid c) then Ok c else
  _ <~ tokAt ta 0 ;;
  match c_op c with
  | FunctionCallAccess =>
      let c := withOp c NoMemberAccess in
      k <~ type ta ;;
      if negb (is k T_LPAREN) then Bad else
      p1 <~ prependedBy ta [T_STRING] true ;;
      p2 <~ (if (p1 =? -1)%Z then prependedBy ta [T_VARIABLE] true else Ok p1) ;;
      if (p2 =? -1)%Z then Ok c
      else parent <~ evaluate cc env fuel ta (withOp ctx0 FunctionCallAccess) ;;
           Ok (withParent c (Some parent))
  | MemberAccess | StaticMemberAccess => evaluate cc env fuel ta c
  | _ => Ok c
  end.

(** Where an opening tag is added to the text, context.cpp 229-237.  [addTag]: the context is
    a class, function, namespace or other block. *)
Definition fullText (addTag : bool) (text : qstring) : qstring :=
  if addTag && negb (eqs (firstn 6 text) (str "<?php ")) then str "<?php " ++ text else text.

(** The constructor, context.cpp 220-771, after the text was tokenized to [toks]. *)
Definition completeTokens (cc : CharClass) (env : Env) (fuel : nat) (inClass : bool)
    (text following : qstring) (toks : list Token) : CRes Ctx :=
  let ta := newTA text toks in
  last <~ tokAt ta 0 ;;
  let lastTokenEnd := (t_end last + 1)%Z in
  k <~ type ta ;;
  let lws := is k T_WHITESPACE in
  let ta := if lws then popTok ta else ta in
  if eqs (mid text lastTokenEnd 2) (str "/*") then Ok (invalid ctx0) else
  k <~ type ta ;;
  if negb lws && isIn k [T_EXTENDS; T_IMPLEMENTS; T_NEW; T_THROW] then Ok (invalid ctx0) else
  r <~ bigSwitch cc fuel inClass lws text following ta ;;
  let '(ta, c, early) := r in
  if early : bool then Ok c else afterSwitch cc env fuel ta c.

(** The whole constructor; [Bad] also when the lexer has undefined behaviour. *)
Definition complete (cc : CharClass) (env : Env) (fuel : nat) (addTag inClass : bool)
    (text following : qstring) : CRes Ctx :=
  let text := fullText addTag text in
  match text with
  | [] => Ok (invalid ctx0)
  | _ => match lexAll cc fuel text initHtml with
         | Some (Done toks _ _) => completeTokens cc env fuel inClass text following toks
         | Some OutOfFuel => Fuel
         | None => Bad
         end
  end.
