(** The parser generated from parser/php.g.

    The rules of the grammar are data ([rule]), translated one by one from php.g; [run] is the
    recursive descent that KDevelop-PG-Qt generates for such rules.  The generator itself is not in
    /repo; what is used of it (see DESIGN.md):
    - an alternative is taken when the look-ahead token is in its FIRST set (always when it can be
      empty) and its [?[: :]] condition holds; alternatives are tried in order; none: return false;
    - [x*] is a while loop on FIRST(x), [x @ s] is [x] and then a while loop on [s];
    - a token that is not there reports "Expected token", a failed call of another rule "Expected
      symbol", both unless errors are blocked; then return false;
    - try/rollback blocks errors, and on failure goes back to the token and the ParserState it began
      with and parses the catch part; try/recover on failure restores the ParserState, drops at least
      one token and then skips up to a token of a set the generator computes or the end of the file.
    What the generator does here and php.g does not say is a parameter ([Gen]): the set where a
    recovery stops, and whether try/recover reports errors while an enclosing try/rollback hides
    them.
    Left out: the fields of the nodes (the tree here has the rules' names and the tokens), the part of
    a node filled by a try part that fails later, the texts of the problems; reading past the end of
    the token stream answers the end-of-file token. *)
From Coq Require Import List Bool NArith ZArith Lia.
From Verif Require Import Chars LexModel.
Import ListNotations.
Open Scope nat_scope.

(** A number for every token, for sets of tokens. *)
Definition pid (k : Tok) : N :=
  (match k with
| T_EOF => 0 | T_INVALID => 1 | T_OPEN_TAG => 2 | T_OPEN_TAG_WITH_ECHO => 3 | T_INLINE_HTML => 4
| T_CLOSE_TAG => 5 | T_WHITESPACE => 6 | T_COMMENT => 7 | T_DOC_COMMENT => 8 | T_LNUMBER => 9 |
T_DNUMBER => 10 | T_VARIABLE => 11 | T_DOLLAR => 12 | T_LBRACE => 13 | T_RBRACE => 14 | T_LPAREN
=> 15 | T_RPAREN => 16 | T_LBRACKET => 17 | T_RBRACKET => 18 | T_COMMA => 19 | T_AT => 20 |
T_BANG => 21 | T_TILDE => 22 | T_COLON => 23 | T_QUESTION => 24 | T_SEMICOLON => 25 |
T_BACKSLASH => 26 | T_INT_CAST => 27 | T_DOUBLE_CAST => 28 | T_STRING_CAST => 29 | T_ARRAY_CAST
=> 30 | T_OBJECT_CAST => 31 | T_BOOL_CAST => 32 | T_UNSET_CAST => 33 | T_IS_NOT_IDENTICAL => 34
| T_IS_NOT_EQUAL => 35 | T_IS_IDENTICAL => 36 | T_IS_EQUAL => 37 | T_IS_SMALLER => 38 |
T_IS_SMALLER_OR_EQUAL => 39 | T_IS_GREATER => 40 | T_IS_GREATER_OR_EQUAL => 41 | T_SPACESHIP =>
42 | T_SL => 43 | T_SL_ASSIGN => 44 | T_SR => 45 | T_SR_ASSIGN => 46 | T_START_HEREDOC => 47 |
T_END_HEREDOC => 48 | T_START_NOWDOC => 49 | T_END_NOWDOC => 50 | T_PAAMAYIM_NEKUDOTAYIM => 51 |
T_NULL_COALESCE => 52 | T_OBJECT_OPERATOR => 53 | T_DOUBLE_ARROW => 54 | T_ASSIGN => 55 | T_MOD
=> 56 | T_MOD_ASSIGN => 57 | T_DIV => 58 | T_DIV_ASSIGN => 59 | T_MUL => 60 | T_MUL_ASSIGN => 61
| T_EXP => 62 | T_EXP_ASSIGN => 63 | T_PLUS => 64 | T_PLUS_ASSIGN => 65 | T_INC => 66 | T_MINUS
=> 67 | T_MINUS_ASSIGN => 68 | T_DEC => 69 | T_BIT_XOR => 70 | T_XOR_ASSIGN => 71 | T_BIT_OR =>
72 | T_OR_ASSIGN => 73 | T_BOOLEAN_OR => 74 | T_BIT_AND => 75 | T_AND_ASSIGN => 76 |
T_BOOLEAN_AND => 77 | T_CONCAT => 78 | T_CONCAT_ASSIGN => 79 | T_ELLIPSIS => 80 |
T_CONSTANT_ENCAPSED_STRING => 81 | T_DOUBLE_QUOTE => 82 | T_BACKTICK => 83 |
T_ENCAPSED_AND_WHITESPACE => 84 | T_DOLLAR_OPEN_CURLY_BRACES => 85 | T_CURLY_OPEN => 86 |
T_STRING_VARNAME => 87 | T_NUM_STRING => 88 | T_STRING => 89 | T_ECHO => 90 | T_INCLUDE => 91 |
T_INCLUDE_ONCE => 92 | T_REQUIRE => 93 | T_REQUIRE_ONCE => 94 | T_EVAL => 95 | T_PRINT => 96 |
T_ABSTRACT => 97 | T_BREAK => 98 | T_CASE => 99 | T_CATCH => 100 | T_CLASS => 101 | T_CONST =>
102 | T_CONTINUE => 103 | T_DEFAULT => 104 | T_DO => 105 | T_ELSE => 106 | T_EXTENDS => 107 |
T_FINAL => 108 | T_FOR => 109 | T_IF => 110 | T_IMPLEMENTS => 111 | T_INSTANCEOF => 112 |
T_INSTEADOF => 113 | T_INTERFACE => 114 | T_TRAIT => 115 | T_NEW => 116 | T_PRIVATE => 117 |
T_PROTECTED => 118 | T_PUBLIC => 119 | T_RETURN => 120 | T_STATIC => 121 | T_SWITCH => 122 |
T_THROW => 123 | T_TRY => 124 | T_FINALLY => 125 | T_WHILE => 126 | T_CLONE => 127 | T_EXIT =>
128 | T_ELSEIF => 129 | T_ENDIF => 130 | T_ENDWHILE => 131 | T_ENDFOR => 132 | T_FOREACH => 133
| T_ENDFOREACH => 134 | T_DECLARE => 135 | T_ENDDECLARE => 136 | T_AS => 137 | T_ENDSWITCH =>
138 | T_FUNCTION => 139 | T_USE => 140 | T_GOTO => 141 | T_GLOBAL => 142 | T_VAR => 143 |
T_UNSET => 144 | T_ISSET => 145 | T_EMPTY => 146 | T_HALT_COMPILER => 147 | T_LIST => 148 |
T_ARRAY => 149 | T_CLASS_C => 150 | T_TRAIT_C => 151 | T_METHOD_C => 152 | T_FUNC_C => 153 |
T_LINE => 154 | T_FILE => 155 | T_DIR => 156 | T_LOGICAL_OR => 157 | T_LOGICAL_AND => 158 |
T_LOGICAL_XOR => 159 | T_NAMESPACE => 160 | T_NAMESPACE_C => 161 | T_CALLABLE => 162 | T_VOID =>
163 | T_YIELD => 164 | T_YIELD_FROM => 165
   end)%N.
Definition allToks : list Tok :=
  [
   T_EOF; T_INVALID; T_OPEN_TAG; T_OPEN_TAG_WITH_ECHO; T_INLINE_HTML; T_CLOSE_TAG; T_WHITESPACE;
   T_COMMENT; T_DOC_COMMENT; T_LNUMBER; T_DNUMBER; T_VARIABLE; T_DOLLAR; T_LBRACE; T_RBRACE;
   T_LPAREN; T_RPAREN; T_LBRACKET; T_RBRACKET; T_COMMA; T_AT; T_BANG; T_TILDE; T_COLON;
   T_QUESTION; T_SEMICOLON; T_BACKSLASH; T_INT_CAST; T_DOUBLE_CAST; T_STRING_CAST; T_ARRAY_CAST;
   T_OBJECT_CAST; T_BOOL_CAST; T_UNSET_CAST; T_IS_NOT_IDENTICAL; T_IS_NOT_EQUAL; T_IS_IDENTICAL;
   T_IS_EQUAL; T_IS_SMALLER; T_IS_SMALLER_OR_EQUAL; T_IS_GREATER; T_IS_GREATER_OR_EQUAL;
   T_SPACESHIP; T_SL; T_SL_ASSIGN; T_SR; T_SR_ASSIGN; T_START_HEREDOC; T_END_HEREDOC;
   T_START_NOWDOC; T_END_NOWDOC; T_PAAMAYIM_NEKUDOTAYIM; T_NULL_COALESCE; T_OBJECT_OPERATOR;
   T_DOUBLE_ARROW; T_ASSIGN; T_MOD; T_MOD_ASSIGN; T_DIV; T_DIV_ASSIGN; T_MUL; T_MUL_ASSIGN;
   T_EXP; T_EXP_ASSIGN; T_PLUS; T_PLUS_ASSIGN; T_INC; T_MINUS; T_MINUS_ASSIGN; T_DEC; T_BIT_XOR;
   T_XOR_ASSIGN; T_BIT_OR; T_OR_ASSIGN; T_BOOLEAN_OR; T_BIT_AND; T_AND_ASSIGN; T_BOOLEAN_AND;
   T_CONCAT; T_CONCAT_ASSIGN; T_ELLIPSIS; T_CONSTANT_ENCAPSED_STRING; T_DOUBLE_QUOTE;
   T_BACKTICK; T_ENCAPSED_AND_WHITESPACE; T_DOLLAR_OPEN_CURLY_BRACES; T_CURLY_OPEN;
   T_STRING_VARNAME; T_NUM_STRING; T_STRING; T_ECHO; T_INCLUDE; T_INCLUDE_ONCE; T_REQUIRE;
   T_REQUIRE_ONCE; T_EVAL; T_PRINT; T_ABSTRACT; T_BREAK; T_CASE; T_CATCH; T_CLASS; T_CONST;
   T_CONTINUE; T_DEFAULT; T_DO; T_ELSE; T_EXTENDS; T_FINAL; T_FOR; T_IF; T_IMPLEMENTS;
   T_INSTANCEOF; T_INSTEADOF; T_INTERFACE; T_TRAIT; T_NEW; T_PRIVATE; T_PROTECTED; T_PUBLIC;
   T_RETURN; T_STATIC; T_SWITCH; T_THROW; T_TRY; T_FINALLY; T_WHILE; T_CLONE; T_EXIT; T_ELSEIF;
   T_ENDIF; T_ENDWHILE; T_ENDFOR; T_FOREACH; T_ENDFOREACH; T_DECLARE; T_ENDDECLARE; T_AS;
   T_ENDSWITCH; T_FUNCTION; T_USE; T_GOTO; T_GLOBAL; T_VAR; T_UNSET; T_ISSET; T_EMPTY;
   T_HALT_COMPILER; T_LIST; T_ARRAY; T_CLASS_C; T_TRAIT_C; T_METHOD_C; T_FUNC_C; T_LINE; T_FILE;
   T_DIR; T_LOGICAL_OR; T_LOGICAL_AND; T_LOGICAL_XOR; T_NAMESPACE; T_NAMESPACE_C; T_CALLABLE;
   T_VOID; T_YIELD; T_YIELD_FROM
  ].
Definition teq (a b : Tok) : bool := N.eqb (pid a) (pid b).
Definition mem (k : Tok) (S : N) : bool := N.testbit S (pid k).
Definition single (k : Tok) : N := N.shiftl 1 (pid k).
Definition setOf (l : list Tok) : N := fold_right (fun k s => N.lor (single k) s) 0%N l.

(** The rules of the grammar, php.g 294-1193 *)
Inductive NT :=
| n_start | n_outerTopStatement | n_topStatement | n_innerStatementList | n_expr |
n_logicalOrExpression | n_logicalXorExpression | n_logicalAndExpression | n_printExpression |
n_assignmentExpression | n_assignmentExpressionEqual | n_assignmentExpressionCheckIfVariable |
n_conditionalExpression | n_nullCoalesceExpression | n_booleanOrExpression |
n_booleanAndExpression | n_bitOrExpression | n_bitXorExpression | n_bitAndExpression |
n_equalityExpression | n_equalityExpressionRest | n_relationalExpression |
n_relationalExpressionRest | n_shiftExpression | n_shiftExpressionRest | n_additiveExpression |
n_additiveExpressionRest | n_multiplicativeExpression | n_multiplicativeExpressionRest |
n_unaryExpression | n_unaryExpressionNotPlusminus | n_postprefixOperator | n_varExpression |
n_varExpressionNormal | n_varExpressionArray | n_closure | n_iifeSyntax | n_lexicalVarList |
n_lexicalVar | n_varExpressionNewObject | n_ctorArguments | n_functionCallParameterList |
n_functionCallParameterListElement | n_assignmentList | n_assignmentListElement |
n_arrayPairValue | n_variable | n_objectOperator | n_variableProperty | n_variableObjectProperty
| n_instantiationAccess | n_baseVariableWithFunctionCalls | n_arrayIndexSpecifier |
n_stringIndexSpecifier | n_functionCall | n_baseVariable | n_compoundVariable |
n_compoundVariableWithSimpleIndirectReference | n_staticMember | n_statement | n_useStatement |
n_useNamespaceOrUseGroupedNamespace | n_compoundNamespace | n_compoundNamespaceStatement |
n_innerUseNamespace | n_constantDeclaration | n_classConstantDeclaration | n_semicolonOrCloseTag
| n_switchCaseList | n_caseList | n_case_item | n_catchItem | n_declareStatement | n_declareItem
| n_foreachVariable | n_foreachStatement | n_staticVar | n_globalVar | n_forExpr |
n_forStatement | n_whileStatement | n_elseifList | n_elseifListItem | n_elseSingle |
n_newElseifList | n_newelseifListItem | n_newElseSingle | n_classNameReference | n_className |
n_staticProperty | n_classProperty | n_objectProperty | n_objectDimList |
n_variableWithoutObjects | n_dimListItem | n_variableName | n_scalar | n_constantOrClassConst |
n_classConstant | n_encapsList | n_encaps | n_encapsVar | n_encapsVarOffset | n_commonScalar |
n_functionDeclarationStatement | n_parameterList | n_parameter | n_genericTypeHint |
n_parameterTypeHint | n_returnTypeHint | n_propertyTypeHint | n_unionParameterType |
n_parameterType | n_unionReturnType | n_returnType | n_unionPropertyType | n_propertyType |
n_staticScalar | n_staticArrayPairValue | n_namespacedIdentifier |
n_namespacedIdentifierBeforeGroupedNamespace | n_identifier | n_reservedNonModifiers |
n_semiReserved | n_semiReservedIdentifier | n_reservedNonModifierIdentifier |
n_variableIdentifier | n_namespaceDeclarationStatement | n_interfaceDeclarationStatement |
n_traitDeclarationStatement | n_classDeclarationStatement | n_classExtends | n_classImplements |
n_classBody | n_classStatement | n_traitAliasDeclaration | n_traitAliasStatement |
n_traitAliasIdentifier | n_methodBody | n_classVariableDeclaration | n_classVariable |
n_traitVisibilityModifiers | n_optionalModifiers | n_optionalClassModifier.

Definition ntId (n : NT) : nat :=
  match n with
| n_start => 0 | n_outerTopStatement => 1 | n_topStatement => 2 | n_innerStatementList => 3 |
n_expr => 4 | n_logicalOrExpression => 5 | n_logicalXorExpression => 6 | n_logicalAndExpression
=> 7 | n_printExpression => 8 | n_assignmentExpression => 9 | n_assignmentExpressionEqual => 10
| n_assignmentExpressionCheckIfVariable => 11 | n_conditionalExpression => 12 |
n_nullCoalesceExpression => 13 | n_booleanOrExpression => 14 | n_booleanAndExpression => 15 |
n_bitOrExpression => 16 | n_bitXorExpression => 17 | n_bitAndExpression => 18 |
n_equalityExpression => 19 | n_equalityExpressionRest => 20 | n_relationalExpression => 21 |
n_relationalExpressionRest => 22 | n_shiftExpression => 23 | n_shiftExpressionRest => 24 |
n_additiveExpression => 25 | n_additiveExpressionRest => 26 | n_multiplicativeExpression => 27 |
n_multiplicativeExpressionRest => 28 | n_unaryExpression => 29 | n_unaryExpressionNotPlusminus
=> 30 | n_postprefixOperator => 31 | n_varExpression => 32 | n_varExpressionNormal => 33 |
n_varExpressionArray => 34 | n_closure => 35 | n_iifeSyntax => 36 | n_lexicalVarList => 37 |
n_lexicalVar => 38 | n_varExpressionNewObject => 39 | n_ctorArguments => 40 |
n_functionCallParameterList => 41 | n_functionCallParameterListElement => 42 | n_assignmentList
=> 43 | n_assignmentListElement => 44 | n_arrayPairValue => 45 | n_variable => 46 |
n_objectOperator => 47 | n_variableProperty => 48 | n_variableObjectProperty => 49 |
n_instantiationAccess => 50 | n_baseVariableWithFunctionCalls => 51 | n_arrayIndexSpecifier =>
52 | n_stringIndexSpecifier => 53 | n_functionCall => 54 | n_baseVariable => 55 |
n_compoundVariable => 56 | n_compoundVariableWithSimpleIndirectReference => 57 | n_staticMember
=> 58 | n_statement => 59 | n_useStatement => 60 | n_useNamespaceOrUseGroupedNamespace => 61 |
n_compoundNamespace => 62 | n_compoundNamespaceStatement => 63 | n_innerUseNamespace => 64 |
n_constantDeclaration => 65 | n_classConstantDeclaration => 66 | n_semicolonOrCloseTag => 67 |
n_switchCaseList => 68 | n_caseList => 69 | n_case_item => 70 | n_catchItem => 71 |
n_declareStatement => 72 | n_declareItem => 73 | n_foreachVariable => 74 | n_foreachStatement =>
75 | n_staticVar => 76 | n_globalVar => 77 | n_forExpr => 78 | n_forStatement => 79 |
n_whileStatement => 80 | n_elseifList => 81 | n_elseifListItem => 82 | n_elseSingle => 83 |
n_newElseifList => 84 | n_newelseifListItem => 85 | n_newElseSingle => 86 | n_classNameReference
=> 87 | n_className => 88 | n_staticProperty => 89 | n_classProperty => 90 | n_objectProperty =>
91 | n_objectDimList => 92 | n_variableWithoutObjects => 93 | n_dimListItem => 94 |
n_variableName => 95 | n_scalar => 96 | n_constantOrClassConst => 97 | n_classConstant => 98 |
n_encapsList => 99 | n_encaps => 100 | n_encapsVar => 101 | n_encapsVarOffset => 102 |
n_commonScalar => 103 | n_functionDeclarationStatement => 104 | n_parameterList => 105 |
n_parameter => 106 | n_genericTypeHint => 107 | n_parameterTypeHint => 108 | n_returnTypeHint =>
109 | n_propertyTypeHint => 110 | n_unionParameterType => 111 | n_parameterType => 112 |
n_unionReturnType => 113 | n_returnType => 114 | n_unionPropertyType => 115 | n_propertyType =>
116 | n_staticScalar => 117 | n_staticArrayPairValue => 118 | n_namespacedIdentifier => 119 |
n_namespacedIdentifierBeforeGroupedNamespace => 120 | n_identifier => 121 |
n_reservedNonModifiers => 122 | n_semiReserved => 123 | n_semiReservedIdentifier => 124 |
n_reservedNonModifierIdentifier => 125 | n_variableIdentifier => 126 |
n_namespaceDeclarationStatement => 127 | n_interfaceDeclarationStatement => 128 |
n_traitDeclarationStatement => 129 | n_classDeclarationStatement => 130 | n_classExtends => 131
| n_classImplements => 132 | n_classBody => 133 | n_classStatement => 134 |
n_traitAliasDeclaration => 135 | n_traitAliasStatement => 136 | n_traitAliasIdentifier => 137 |
n_methodBody => 138 | n_classVariableDeclaration => 139 | n_classVariable => 140 |
n_traitVisibilityModifiers => 141 | n_optionalModifiers => 142 | n_optionalClassModifier => 143
  end.
Definition allNT : list NT :=
  [
   n_start; n_outerTopStatement; n_topStatement; n_innerStatementList; n_expr;
   n_logicalOrExpression; n_logicalXorExpression; n_logicalAndExpression; n_printExpression;
   n_assignmentExpression; n_assignmentExpressionEqual; n_assignmentExpressionCheckIfVariable;
   n_conditionalExpression; n_nullCoalesceExpression; n_booleanOrExpression;
   n_booleanAndExpression; n_bitOrExpression; n_bitXorExpression; n_bitAndExpression;
   n_equalityExpression; n_equalityExpressionRest; n_relationalExpression;
   n_relationalExpressionRest; n_shiftExpression; n_shiftExpressionRest; n_additiveExpression;
   n_additiveExpressionRest; n_multiplicativeExpression; n_multiplicativeExpressionRest;
   n_unaryExpression; n_unaryExpressionNotPlusminus; n_postprefixOperator; n_varExpression;
   n_varExpressionNormal; n_varExpressionArray; n_closure; n_iifeSyntax; n_lexicalVarList;
   n_lexicalVar; n_varExpressionNewObject; n_ctorArguments; n_functionCallParameterList;
   n_functionCallParameterListElement; n_assignmentList; n_assignmentListElement;
   n_arrayPairValue; n_variable; n_objectOperator; n_variableProperty; n_variableObjectProperty;
   n_instantiationAccess; n_baseVariableWithFunctionCalls; n_arrayIndexSpecifier;
   n_stringIndexSpecifier; n_functionCall; n_baseVariable; n_compoundVariable;
   n_compoundVariableWithSimpleIndirectReference; n_staticMember; n_statement; n_useStatement;
   n_useNamespaceOrUseGroupedNamespace; n_compoundNamespace; n_compoundNamespaceStatement;
   n_innerUseNamespace; n_constantDeclaration; n_classConstantDeclaration;
   n_semicolonOrCloseTag; n_switchCaseList; n_caseList; n_case_item; n_catchItem;
   n_declareStatement; n_declareItem; n_foreachVariable; n_foreachStatement; n_staticVar;
   n_globalVar; n_forExpr; n_forStatement; n_whileStatement; n_elseifList; n_elseifListItem;
   n_elseSingle; n_newElseifList; n_newelseifListItem; n_newElseSingle; n_classNameReference;
   n_className; n_staticProperty; n_classProperty; n_objectProperty; n_objectDimList;
   n_variableWithoutObjects; n_dimListItem; n_variableName; n_scalar; n_constantOrClassConst;
   n_classConstant; n_encapsList; n_encaps; n_encapsVar; n_encapsVarOffset; n_commonScalar;
   n_functionDeclarationStatement; n_parameterList; n_parameter; n_genericTypeHint;
   n_parameterTypeHint; n_returnTypeHint; n_propertyTypeHint; n_unionParameterType;
   n_parameterType; n_unionReturnType; n_returnType; n_unionPropertyType; n_propertyType;
   n_staticScalar; n_staticArrayPairValue; n_namespacedIdentifier;
   n_namespacedIdentifierBeforeGroupedNamespace; n_identifier; n_reservedNonModifiers;
   n_semiReserved; n_semiReservedIdentifier; n_reservedNonModifierIdentifier;
   n_variableIdentifier; n_namespaceDeclarationStatement; n_interfaceDeclarationStatement;
   n_traitDeclarationStatement; n_classDeclarationStatement; n_classExtends; n_classImplements;
   n_classBody; n_classStatement; n_traitAliasDeclaration; n_traitAliasStatement;
   n_traitAliasIdentifier; n_methodBody; n_classVariableDeclaration; n_classVariable;
   n_traitVisibilityModifiers; n_optionalModifiers; n_optionalClassModifier
  ].

(** The conditions [?[: :]] of the grammar. *)
Inductive cond :=
| CNotFunctionDeclaration   (* php.g 302-304 *)
| COnlyVariable             (* php.g 557 *)
| COnlyNewObject            (* php.g 558 *)
| CIife                     (* php.g 563 *)
| CDollar                   (* php.g 643 *)
| CNotLabel                 (* php.g 721 *)
| CSecond (k : Tok).        (* LA(2).kind == k, php.g 909 and 1125 *)

(** Parser::ParserUseImportType, php.g 173-177 *)
Inductive Imp := NamespaceOrClassImport | ConstantImport | FunctionImport.

(** The C++ code in the rules that changes the parser's state or reports a problem. *)
Inductive act :=
| ASetIsVariable (b : bool)        (* php.g 375 and 568 *)
| ASetNormal                       (* php.g 413, 557, 558 *)
| ARefAssign                       (* php.g 408-413 *)
| ACheckVariable                   (* php.g 421-426 *)
| AEmptyUseList                    (* php.g 603 *)
| ASetImport (i : Imp)             (* php.g 748-750 *)
| ASetCompoundImport (i : Imp)     (* php.g 768-770 *)
| AMixedImport                     (* php.g 772-777 *)
| AMissingNamespace.               (* php.g 1075 *)

(** Right-hand sides of rules. *)
Inductive item :=
| IT (k : Tok)
| IN (n : NT)
| IEps
| IFail
| ISeq (a b : item)
| IAlt (a b : item)
| ICond (c : cond) (a : item)
| IStar (a : item)
| IList (a : item) (sep : Tok) (brk : option Tok)
| IRollback (a b : item)
| IRecover (n : NT)
| IAct (x : act)
| ILoop (a : item) (stop : list Tok)
| ILoopAgain (a : item) (stop : list Tok)   (* the loop once it has reported, php.g 321-327 *)
| IPeek (k : Tok).

Fixpoint seqs (l : list item) : item :=
  match l with [] => IEps | [a] => a | a :: r => ISeq a (seqs r) end.
Fixpoint alts (l : list item) : item :=
  match l with [] => IFail | a :: r => IAlt a (alts r) end.
Definition plus (a : item) : item := ISeq a (IStar a).

(** The tokens at which the loop around the statements stops, php.g 315-319 *)
Definition innerStop : list Tok :=
  [T_RBRACE; T_EOF; T_CLOSE_TAG; T_ELSEIF; T_ELSE; T_ENDIF; T_ENDFOREACH; T_ENDFOR; T_ENDWHILE;
   T_ENDSWITCH; T_ENDDECLARE; T_CASE; T_DEFAULT].
(** and the one around the members of a class, php.g 1105 *)
Definition classStop : list Tok := [T_RBRACE; T_EOF; T_CLOSE_TAG].

(** The rules.  [0] in front of C++ code is left out; [(.. | 0)*] is the loop without the [0];
    [x* @ s] is [x @ s | 0]; namespaceDeclarationStatement asks behind the semicolon whether there
    was a name: here the two cases are two alternatives; RBRACE with the rewind behind it in
    classBody is [IPeek]. *)
Definition rule (n : NT) : item :=
  match n with
  | n_start => (* php.g 294-295 *)
      IStar (IN n_outerTopStatement)
  | n_outerTopStatement => (* php.g 297-299 *)
      alts [IN n_namespaceDeclarationStatement; IN n_topStatement]
  | n_topStatement => (* php.g 302-311 *)
      alts [ICond CNotFunctionDeclaration (IN n_statement); IN n_functionDeclarationStatement;
        IN n_classDeclarationStatement; IN n_traitDeclarationStatement; IN
        n_interfaceDeclarationStatement; seqs [IT T_HALT_COMPILER; IT T_LPAREN; IT T_RPAREN; IT
        T_SEMICOLON]]
  | n_innerStatementList => (* php.g 313-332 *)
      ILoop (IStar (IRecover n_topStatement)) innerStop
  | n_expr => (* php.g 357-358 *)
      IN n_logicalOrExpression
  | n_logicalOrExpression => (* php.g 360-361 *)
      IList (IN n_logicalXorExpression) T_LOGICAL_OR None
  | n_logicalXorExpression => (* php.g 363-364 *)
      IList (IN n_logicalAndExpression) T_LOGICAL_XOR None
  | n_logicalAndExpression => (* php.g 366-367 *)
      IList (IN n_printExpression) T_LOGICAL_AND None
  | n_printExpression => (* php.g 369-370 *)
      seqs [alts [IT T_PRINT; IEps]; IN n_assignmentExpression]
  | n_assignmentExpression => (* php.g 374-396 *)
      seqs [IAct (ASetIsVariable false); IN n_conditionalExpression; alts [IN
        n_assignmentExpressionEqual; seqs [alts [IT T_PLUS_ASSIGN; IT T_MINUS_ASSIGN; IT
        T_MUL_ASSIGN; IT T_EXP_ASSIGN; IT T_DIV_ASSIGN; IT T_CONCAT_ASSIGN; IT T_MOD_ASSIGN; IT
        T_AND_ASSIGN; IT T_OR_ASSIGN; IT T_XOR_ASSIGN; IT T_SL_ASSIGN; IT T_SR_ASSIGN]; IN
        n_assignmentExpressionCheckIfVariable; IN n_assignmentExpression]; IEps]]
  | n_assignmentExpressionEqual => (* php.g 406-415 *)
      seqs [IT T_ASSIGN; IN n_assignmentExpressionCheckIfVariable; alts [seqs [IT T_BIT_AND;
        IAct ARefAssign]; IEps]; IN n_assignmentExpression; IAct ASetNormal]
  | n_assignmentExpressionCheckIfVariable => (* php.g 420-427 *)
      IAct ACheckVariable
  | n_conditionalExpression => (* php.g 429-434 *)
      seqs [IN n_nullCoalesceExpression; alts [seqs [IT T_QUESTION; alts [IN n_expr; IEps]; IT
        T_COLON; IN n_conditionalExpression]; IEps]]
  | n_nullCoalesceExpression => (* php.g 436-437 *)
      IList (IN n_booleanOrExpression) T_NULL_COALESCE None
  | n_booleanOrExpression => (* php.g 439-440 *)
      IList (IN n_booleanAndExpression) T_BOOLEAN_OR None
  | n_booleanAndExpression => (* php.g 442-443 *)
      IList (IN n_bitOrExpression) T_BOOLEAN_AND None
  | n_bitOrExpression => (* php.g 445-446 *)
      IList (IN n_bitXorExpression) T_BIT_OR None
  | n_bitXorExpression => (* php.g 448-449 *)
      IList (IN n_bitAndExpression) T_BIT_XOR None
  | n_bitAndExpression => (* php.g 451-452 *)
      IList (IN n_equalityExpression) T_BIT_AND None
  | n_equalityExpression => (* php.g 454-456 *)
      seqs [IN n_relationalExpression; alts [IN n_equalityExpressionRest; IEps]]
  | n_equalityExpressionRest => (* php.g 458-460 *)
      seqs [alts [IT T_IS_EQUAL; IT T_IS_NOT_EQUAL; IT T_IS_IDENTICAL; IT T_IS_NOT_IDENTICAL; IT
        T_SPACESHIP]; IN n_relationalExpression]
  | n_relationalExpression => (* php.g 465-471 *)
      seqs [IN n_shiftExpression; alts [IN n_relationalExpressionRest; seqs [IT T_INSTANCEOF; IN
        n_classNameReference]; IEps]]
  | n_relationalExpressionRest => (* php.g 473-475 *)
      seqs [alts [IT T_IS_SMALLER; IT T_IS_GREATER; IT T_IS_SMALLER_OR_EQUAL; IT
        T_IS_GREATER_OR_EQUAL]; IN n_shiftExpression]
  | n_shiftExpression => (* php.g 478-480 *)
      seqs [IN n_additiveExpression; IStar (IN n_shiftExpressionRest)]
  | n_shiftExpressionRest => (* php.g 482-484 *)
      seqs [alts [IT T_SL; IT T_SR]; IN n_additiveExpression]
  | n_additiveExpression => (* php.g 487-489 *)
      seqs [IN n_multiplicativeExpression; IStar (IN n_additiveExpressionRest)]
  | n_additiveExpressionRest => (* php.g 491-497 *)
      seqs [alts [IT T_PLUS; IT T_MINUS; IT T_CONCAT]; IN n_multiplicativeExpression]
  | n_multiplicativeExpression => (* php.g 502-504 *)
      seqs [IN n_unaryExpression; IStar (IN n_multiplicativeExpressionRest)]
  | n_multiplicativeExpressionRest => (* php.g 506-513 *)
      seqs [alts [IT T_MUL; IT T_DIV; IT T_EXP; IT T_MOD]; IN n_unaryExpression]
  | n_unaryExpression => (* php.g 517-540 *)
      alts [seqs [IT T_MINUS; IN n_unaryExpression]; seqs [IT T_PLUS; IN n_unaryExpression];
        seqs [IT T_BANG; IN n_unaryExpression]; seqs [IT T_TILDE; IN n_unaryExpression]; seqs
        [IT T_INT_CAST; IN n_unaryExpression]; seqs [IT T_DOUBLE_CAST; IN n_unaryExpression];
        seqs [IT T_STRING_CAST; IN n_unaryExpression]; seqs [IT T_ARRAY_CAST; IN
        n_unaryExpression]; seqs [IT T_OBJECT_CAST; IN n_unaryExpression]; seqs [IT T_BOOL_CAST;
        IN n_unaryExpression]; seqs [IT T_UNSET_CAST; IN n_unaryExpression]; seqs [IT T_AT; IN
        n_unaryExpression]; seqs [IT T_LIST; IT T_LPAREN; IN n_assignmentList; IT T_RPAREN; IT
        T_ASSIGN; IN n_unaryExpression]; seqs [IT T_EXIT; alts [seqs [IT T_LPAREN; alts [IN
        n_expr; IEps]; IT T_RPAREN]; IEps]]; seqs [IT T_EVAL; IT T_LPAREN; IN n_expr; IT
        T_RPAREN]; seqs [IT T_INCLUDE; IN n_unaryExpression]; seqs [IT T_INCLUDE_ONCE; IN
        n_unaryExpression]; seqs [IT T_REQUIRE; IN n_unaryExpression]; seqs [IT T_REQUIRE_ONCE;
        IN n_unaryExpression]; IN n_unaryExpressionNotPlusminus]
  | n_unaryExpressionNotPlusminus => (* php.g 544-547 *)
      seqs [IStar (IN n_postprefixOperator); IN n_varExpression; IStar (IN
        n_postprefixOperator)]
  | n_postprefixOperator => (* php.g 549-550 *)
      alts [IT T_INC; IT T_DEC]
  | n_varExpression => (* php.g 553-561 *)
      alts [seqs [plus (IT T_PRINT); IN n_assignmentExpression]; seqs [IT T_YIELD; alts [seqs
        [IN n_printExpression; alts [seqs [IT T_DOUBLE_ARROW; IN n_printExpression]; IEps]];
        IEps]]; seqs [IT T_YIELD_FROM; IN n_printExpression]; ICond COnlyVariable (seqs [IAct
        ASetNormal; IN n_variable]); ICond COnlyNewObject (seqs [IAct ASetNormal; IN
        n_varExpressionNewObject]); IN n_varExpressionNormal; seqs [IN n_varExpressionArray;
        IStar (IN n_arrayIndexSpecifier)]]
  | n_varExpressionNormal => (* php.g 563-576 *)
      alts [ICond CIife (IN n_iifeSyntax); seqs [IT T_LPAREN; IRollback (seqs [IN
        n_varExpressionNewObject; IT T_RPAREN; IStar (IN n_instantiationAccess)]) (seqs [IN
        n_expr; IT T_RPAREN])]; seqs [IT T_BACKTICK; IN n_encapsList; IT T_BACKTICK]; IRollback
        (seqs [IN n_variable; IAct (ASetIsVariable true)]) (IN n_scalar); seqs [IT T_ISSET; IT
        T_LPAREN; IList (IN n_variable) T_COMMA None; IT T_RPAREN]; seqs [IT T_EMPTY; IT
        T_LPAREN; IN n_expr; IT T_RPAREN]; IN n_varExpressionNewObject; seqs [IT T_CLONE; IN
        n_varExpressionNormal]; IN n_closure]
  | n_varExpressionArray => (* php.g 578-588 *)
      alts [seqs [IT T_ARRAY; IT T_LPAREN; alts [IList (IN n_arrayPairValue) T_COMMA (Some
        T_RPAREN); IEps]; IT T_RPAREN]; seqs [IT T_LBRACKET; alts [IList (IN n_arrayPairValue)
        T_COMMA (Some T_RBRACKET); IEps]; IT T_RBRACKET]]
  | n_closure => (* php.g 591-595 *)
      seqs [IT T_FUNCTION; alts [IT T_BIT_AND; IEps]; IT T_LPAREN; IN n_parameterList; IT
        T_RPAREN; alts [seqs [IT T_USE; IT T_LPAREN; IN n_lexicalVarList; IT T_RPAREN]; IEps];
        alts [seqs [IT T_COLON; IN n_returnType]; IEps]; IT T_LBRACE; IRecover
        n_innerStatementList; IT T_RBRACE]
  | n_iifeSyntax => (* php.g 597-599 *)
      seqs [IT T_LPAREN; IRollback (seqs [IN n_closure; IT T_RPAREN; IT T_LPAREN; IN
        n_functionCallParameterList; IT T_RPAREN]) (seqs [IN n_expr; IT T_RPAREN])]
  | n_lexicalVarList => (* php.g 601-604 *)
      alts [IList (IN n_lexicalVar) T_COMMA (Some T_RPAREN); IAct AEmptyUseList]
  | n_lexicalVar => (* php.g 606-607 *)
      seqs [alts [IT T_BIT_AND; IEps]; IN n_variableIdentifier]
  | n_varExpressionNewObject => (* php.g 609-610 *)
      seqs [IT T_NEW; IN n_classNameReference; IN n_ctorArguments]
  | n_ctorArguments => (* php.g 612-614 *)
      alts [seqs [IT T_LPAREN; IN n_functionCallParameterList; IT T_RPAREN]; IEps]
  | n_functionCallParameterList => (* php.g 616-619 *)
      alts [IList (IN n_functionCallParameterListElement) T_COMMA (Some T_RPAREN); IEps]
  | n_functionCallParameterListElement => (* php.g 621-622 *)
      alts [seqs [IT T_BIT_AND; IN n_variable]; seqs [alts [IT T_ELLIPSIS; IEps]; IN n_expr]]
  | n_assignmentList => (* php.g 624-625 *)
      IList (IN n_assignmentListElement) T_COMMA None
  | n_assignmentListElement => (* php.g 627-630 *)
      alts [IN n_variable; seqs [IT T_LIST; IT T_LPAREN; IN n_assignmentList; IT T_RPAREN];
        IEps]
  | n_arrayPairValue => (* php.g 632-634 *)
      alts [seqs [IN n_expr; alts [seqs [IT T_DOUBLE_ARROW; alts [IN n_expr; seqs [IT T_BIT_AND;
        IN n_variable]]]; IEps]]; seqs [IT T_BIT_AND; IN n_variable]]
  | n_variable => (* php.g 636-637 *)
      seqs [IN n_baseVariableWithFunctionCalls; IStar (IN n_variableObjectProperty)]
  | n_objectOperator => (* php.g 639-641 *)
      alts [IT T_OBJECT_OPERATOR; IT T_PAAMAYIM_NEKUDOTAYIM]
  | n_variableProperty => (* php.g 643-645 *)
      seqs [alts [ICond CDollar (seqs [IT T_LBRACE; IN n_variable; IT T_RBRACE]); IN
        n_objectProperty]; alts [seqs [IT T_LPAREN; IN n_functionCallParameterList; IT T_RPAREN;
        IStar (IN n_arrayIndexSpecifier)]; IEps]]
  | n_variableObjectProperty => (* php.g 647-648 *)
      seqs [IN n_objectOperator; IN n_variableProperty]
  | n_instantiationAccess => (* php.g 650-651 *)
      seqs [IT T_OBJECT_OPERATOR; IN n_variableProperty]
  | n_baseVariableWithFunctionCalls => (* php.g 656-658 *)
      IRollback (seqs [IN n_functionCall; IStar (IN n_arrayIndexSpecifier)]) (IN n_baseVariable)
  | n_arrayIndexSpecifier => (* php.g 660-661 *)
      seqs [IT T_LBRACKET; alts [IN n_expr; IEps]; IT T_RBRACKET]
  | n_stringIndexSpecifier => (* php.g 663-664 *)
      seqs [IT T_LBRACKET; IN n_expr; IT T_RBRACKET]
  | n_functionCall => (* php.g 666-676 *)
      alts [seqs [IN n_namespacedIdentifier; alts [seqs [IT T_LPAREN; IN
        n_functionCallParameterList; IT T_RPAREN]; seqs [IT T_PAAMAYIM_NEKUDOTAYIM; alts [seqs
        [IN n_semiReservedIdentifier; IT T_LPAREN; IN n_functionCallParameterList; IT T_RPAREN];
        seqs [IN n_variableWithoutObjects; IT T_LPAREN; IN n_functionCallParameterList; IT
        T_RPAREN]; seqs [IT T_LBRACE; IN n_expr; IT T_RBRACE; IT T_LPAREN; IN
        n_functionCallParameterList; IT T_RPAREN]]]]]; seqs [IN n_variableWithoutObjects; IT
        T_LPAREN; IN n_functionCallParameterList; IT T_RPAREN]]
  | n_baseVariable => (* php.g 678-680 *)
      alts [seqs [IN n_compoundVariableWithSimpleIndirectReference; IStar (IN n_dimListItem)];
        IN n_staticMember]
  | n_compoundVariable => (* php.g 682-684 *)
      alts [IN n_variableIdentifier; seqs [IT T_DOLLAR; IT T_LBRACE; IN n_expr; IT T_RBRACE]]
  | n_compoundVariableWithSimpleIndirectReference => (* php.g 686-687 *)
      alts [seqs [IT T_DOLLAR; alts [plus (IT T_DOLLAR); IEps]; alts [IN n_variableIdentifier;
        seqs [IT T_LBRACE; IN n_expr; IT T_RBRACE]]]; IN n_variableIdentifier]
  | n_staticMember => (* php.g 689-690 *)
      seqs [IN n_namespacedIdentifier; IN n_staticProperty]
  | n_statement => (* php.g 692-734 *)
      alts [seqs [IT T_LBRACE; IRecover n_innerStatementList; IT T_RBRACE]; seqs [IT T_IF; IT
        T_LPAREN; IN n_expr; IT T_RPAREN; alts [seqs [IT T_COLON; IN n_innerStatementList; IN
        n_newElseifList; IN n_newElseSingle; IT T_ENDIF; IN n_semicolonOrCloseTag]; seqs [IN
        n_statement; IN n_elseifList; IN n_elseSingle]]]; seqs [IT T_WHILE; IT T_LPAREN; IN
        n_expr; IT T_RPAREN; IN n_whileStatement]; seqs [IT T_FOR; IT T_LPAREN; IN n_forExpr; IT
        T_SEMICOLON; IN n_forExpr; IT T_SEMICOLON; IN n_forExpr; IT T_RPAREN; IN
        n_forStatement]; seqs [IT T_SWITCH; IT T_LPAREN; IN n_expr; IT T_RPAREN; IN
        n_switchCaseList]; seqs [IT T_FOREACH; IT T_LPAREN; IRollback (seqs [IN n_variable; IT
        T_AS; IN n_foreachVariable]) (seqs [IN n_expr; IT T_AS; IN n_variable]); alts [seqs [IT
        T_DOUBLE_ARROW; IN n_foreachVariable]; IEps]; IT T_RPAREN; IN n_foreachStatement]; seqs
        [IT T_DECLARE; IT T_LPAREN; IList (IN n_declareItem) T_COMMA None; IT T_RPAREN; IN
        n_declareStatement]; IT T_SEMICOLON; seqs [IT T_TRY; IT T_LBRACE; IRecover
        n_innerStatementList; IT T_RBRACE; IStar (IN n_catchItem); alts [seqs [IT T_FINALLY; IT
        T_LBRACE; IN n_innerStatementList; IT T_RBRACE]; IEps]]; seqs [IT T_UNSET; IT T_LPAREN;
        IList (IN n_variable) T_COMMA None; IT T_RPAREN; IN n_semicolonOrCloseTag]; ICond
        CNotLabel (seqs [IN n_expr; IN n_semicolonOrCloseTag]); seqs [IT T_DO; IN n_statement;
        IT T_WHILE; IT T_LPAREN; IN n_expr; IT T_RPAREN; IN n_semicolonOrCloseTag]; seqs [IT
        T_BREAK; alts [IN n_expr; IEps]; IN n_semicolonOrCloseTag]; seqs [IT T_CONTINUE; alts
        [IN n_expr; IEps]; IN n_semicolonOrCloseTag]; seqs [IT T_RETURN; alts [IN n_expr; IEps];
        IN n_semicolonOrCloseTag]; seqs [IT T_GLOBAL; IList (IN n_globalVar) T_COMMA None; IN
        n_semicolonOrCloseTag]; seqs [IT T_STATIC; IList (IN n_staticVar) T_COMMA None; IN
        n_semicolonOrCloseTag]; seqs [IT T_ECHO; IList (IN n_expr) T_COMMA None; IN
        n_semicolonOrCloseTag]; seqs [IT T_THROW; IN n_expr; IN n_semicolonOrCloseTag]; IT
        T_CLOSE_TAG; IT T_OPEN_TAG; seqs [IT T_OPEN_TAG_WITH_ECHO; IN n_expr; IN
        n_semicolonOrCloseTag]; IT T_INLINE_HTML; seqs [IT T_CONST; IList (IN
        n_constantDeclaration) T_COMMA None; IT T_SEMICOLON]; seqs [IT T_USE; IN
        n_useStatement]; seqs [IT T_GOTO; IT T_STRING; IT T_SEMICOLON]; seqs [IT T_STRING; IT
        T_COLON]]
  | n_useStatement => (* php.g 736-740 *)
      seqs [alts [seqs [IT T_FUNCTION; IAct (ASetImport FunctionImport)]; seqs [IT T_CONST; IAct
        (ASetImport ConstantImport)]; IAct (ASetImport NamespaceOrClassImport)]; IList (IN
        n_useNamespaceOrUseGroupedNamespace) T_COMMA None; IT T_SEMICOLON]
  | n_useNamespaceOrUseGroupedNamespace => (* php.g 742-745 *)
      seqs [IN n_namespacedIdentifierBeforeGroupedNamespace; alts [seqs [IT T_AS; IN
        n_identifier]; IN n_compoundNamespace; IEps]]
  | n_compoundNamespace => (* php.g 749-754 *)
      seqs [IT T_LBRACE; IList (IN n_compoundNamespaceStatement) T_COMMA (Some T_RBRACE); IT
        T_RBRACE]
  | n_compoundNamespaceStatement => (* php.g 756-767 *)
      seqs [alts [seqs [IT T_FUNCTION; IAct (ASetCompoundImport FunctionImport)]; seqs [IT
        T_CONST; IAct (ASetCompoundImport ConstantImport)]; IAct (ASetCompoundImport
        NamespaceOrClassImport)]; IAct AMixedImport; IN n_innerUseNamespace]
  | n_innerUseNamespace => (* php.g 769-778 *)
      seqs [IList (IN n_identifier) T_BACKSLASH None; alts [seqs [IT T_AS; IN n_identifier];
        IEps]]
  | n_constantDeclaration => (* php.g 782-783 *)
      seqs [IN n_identifier; IT T_ASSIGN; IN n_expr]
  | n_classConstantDeclaration => (* php.g 785-786 *)
      seqs [IN n_semiReservedIdentifier; IT T_ASSIGN; IN n_expr]
  | n_semicolonOrCloseTag => (* php.g 788-789 *)
      alts [IT T_SEMICOLON; IT T_CLOSE_TAG]
  | n_switchCaseList => (* php.g 791-793 *)
      alts [seqs [IT T_LBRACE; alts [IT T_SEMICOLON; IEps]; IRecover n_caseList; IT T_RBRACE];
        seqs [IT T_COLON; alts [IT T_SEMICOLON; IEps]; IN n_caseList; IT T_ENDSWITCH; IN
        n_semicolonOrCloseTag]]
  | n_caseList => (* php.g 795-796 *)
      IStar (IN n_case_item)
  | n_case_item => (* php.g 798-800 *)
      alts [seqs [IT T_CASE; IN n_expr; alts [IT T_COLON; IT T_SEMICOLON]; IN
        n_innerStatementList]; seqs [IT T_DEFAULT; alts [IT T_COLON; IT T_SEMICOLON]; IN
        n_innerStatementList]]
  | n_catchItem => (* php.g 802-804 *)
      seqs [IT T_CATCH; IT T_LPAREN; IList (IN n_namespacedIdentifier) T_BIT_OR None; IN
        n_variableIdentifier; IT T_RPAREN; IT T_LBRACE; IRecover n_innerStatementList; IT
        T_RBRACE]
  | n_declareStatement => (* php.g 806-808 *)
      alts [IN n_statement; seqs [IT T_COLON; IN n_innerStatementList; IT T_ENDDECLARE; IN
        n_semicolonOrCloseTag]]
  | n_declareItem => (* php.g 810-811 *)
      seqs [IT T_STRING; IT T_ASSIGN; IN n_staticScalar]
  | n_foreachVariable => (* php.g 813-814 *)
      seqs [alts [IT T_BIT_AND; IEps]; IN n_variable]
  | n_foreachStatement => (* php.g 816-818 *)
      alts [IN n_statement; seqs [IT T_COLON; IN n_innerStatementList; IT T_ENDFOREACH; IN
        n_semicolonOrCloseTag]]
  | n_staticVar => (* php.g 820-821 *)
      seqs [IN n_variableIdentifier; alts [seqs [IT T_ASSIGN; IN n_staticScalar]; IEps]]
  | n_globalVar => (* php.g 823-825 *)
      alts [IN n_variableIdentifier; seqs [IT T_DOLLAR; alts [IN n_variable; seqs [IT T_LBRACE;
        IN n_expr; IT T_RBRACE]]]]
  | n_forExpr => (* php.g 827-828 *)
      alts [IList (IN n_expr) T_COMMA None; IEps]
  | n_forStatement => (* php.g 830-832 *)
      alts [IN n_statement; seqs [IT T_COLON; IN n_innerStatementList; IT T_ENDFOR; IN
        n_semicolonOrCloseTag]]
  | n_whileStatement => (* php.g 834-836 *)
      alts [IN n_statement; seqs [IT T_COLON; IN n_innerStatementList; IT T_ENDWHILE; IN
        n_semicolonOrCloseTag]]
  | n_elseifList => (* php.g 839-840 *)
      IStar (IN n_elseifListItem)
  | n_elseifListItem => (* php.g 842-843 *)
      seqs [IT T_ELSEIF; IT T_LPAREN; IN n_expr; IT T_RPAREN; IN n_statement]
  | n_elseSingle => (* php.g 845-846 *)
      alts [seqs [IT T_ELSE; IN n_statement]; IEps]
  | n_newElseifList => (* php.g 848-849 *)
      IStar (IN n_newelseifListItem)
  | n_newelseifListItem => (* php.g 851-852 *)
      seqs [IT T_ELSEIF; IT T_LPAREN; IN n_expr; IT T_RPAREN; IT T_COLON; IN
        n_innerStatementList]
  | n_newElseSingle => (* php.g 854-855 *)
      alts [seqs [IT T_ELSE; IT T_COLON; IN n_innerStatementList]; IEps]
  | n_classNameReference => (* php.g 857-859 *)
      alts [seqs [IN n_className; alts [seqs [IN n_staticProperty; IStar (IN n_classProperty)];
        IEps]]; seqs [IN n_variableWithoutObjects; IStar (IN n_classProperty)]]
  | n_className => (* php.g 861-863 *)
      alts [IN n_namespacedIdentifier; IT T_STATIC]
  | n_staticProperty => (* php.g 865-866 *)
      seqs [IT T_PAAMAYIM_NEKUDOTAYIM; IN n_compoundVariableWithSimpleIndirectReference; IStar
        (IN n_dimListItem)]
  | n_classProperty => (* php.g 868-869 *)
      alts [IN n_staticProperty; seqs [IT T_OBJECT_OPERATOR; IN n_objectProperty]]
  | n_objectProperty => (* php.g 871-873 *)
      alts [IN n_objectDimList; IN n_variableWithoutObjects]
  | n_objectDimList => (* php.g 875-876 *)
      seqs [IN n_variableName; IStar (IN n_dimListItem)]
  | n_variableWithoutObjects => (* php.g 878-879 *)
      seqs [IN n_compoundVariableWithSimpleIndirectReference; IStar (IN n_dimListItem)]
  | n_dimListItem => (* php.g 881-882 *)
      alts [IN n_arrayIndexSpecifier; seqs [IT T_LBRACE; IN n_expr; IT T_RBRACE]]
  | n_variableName => (* php.g 884-886 *)
      alts [IN n_identifier; seqs [IT T_LBRACE; IN n_expr; IT T_RBRACE]]
  | n_scalar => (* php.g 888-893 *)
      alts [IN n_commonScalar; seqs [IN n_constantOrClassConst; IStar (IN n_dimListItem)]; IT
        T_STRING_VARNAME; seqs [IT T_DOUBLE_QUOTE; IN n_encapsList; IT T_DOUBLE_QUOTE; IStar (IN
        n_stringIndexSpecifier)]; seqs [IT T_START_HEREDOC; IN n_encapsList; IT T_END_HEREDOC]]
  | n_constantOrClassConst => (* php.g 895-897 *)
      seqs [IN n_namespacedIdentifier; alts [seqs [IT T_PAAMAYIM_NEKUDOTAYIM; IN
        n_classConstant]; IEps]]
  | n_classConstant => (* php.g 899-900 *)
      IN n_semiReservedIdentifier
  | n_encapsList => (* php.g 902-903 *)
      IStar (IN n_encaps)
  | n_encaps => (* php.g 905-906 *)
      alts [IN n_encapsVar; IT T_ENCAPSED_AND_WHITESPACE]
  | n_encapsVar => (* php.g 910-914 *)
      alts [seqs [IT T_DOLLAR_OPEN_CURLY_BRACES; alts [ICond (CSecond T_LBRACKET) (seqs [IT
        T_STRING_VARNAME; IN n_arrayIndexSpecifier; IT T_RBRACE]); seqs [IN n_expr; IT
        T_RBRACE]]]; seqs [IN n_variableIdentifier; alts [seqs [IT T_OBJECT_OPERATOR; IN
        n_identifier]; seqs [IT T_LBRACKET; IN n_encapsVarOffset; IT T_RBRACKET]; IEps]]; seqs
        [IT T_CURLY_OPEN; IN n_expr; IT T_RBRACE]]
  | n_encapsVarOffset => (* php.g 916-919 *)
      alts [IT T_STRING; IT T_NUM_STRING; IN n_variableIdentifier]
  | n_commonScalar => (* php.g 922-934 *)
      alts [IT T_LNUMBER; IT T_DNUMBER; seqs [IT T_CONSTANT_ENCAPSED_STRING; IStar (IN
        n_stringIndexSpecifier)]; IT T_LINE; IT T_DIR; IT T_FILE; IT T_CLASS_C; IT T_TRAIT_C; IT
        T_METHOD_C; IT T_FUNC_C; IT T_NAMESPACE_C; seqs [IT T_START_NOWDOC; IT T_STRING; IT
        T_END_NOWDOC]]
  | n_functionDeclarationStatement => (* php.g 938-941 *)
      seqs [IT T_FUNCTION; alts [IT T_BIT_AND; IEps]; IN n_identifier; IT T_LPAREN; IN
        n_parameterList; IT T_RPAREN; alts [seqs [IT T_COLON; IN n_returnType]; IEps]; IT
        T_LBRACE; IRecover n_innerStatementList; IT T_RBRACE]
  | n_parameterList => (* php.g 943-946 *)
      alts [IList (IN n_parameter) T_COMMA (Some T_RPAREN); IEps]
  | n_parameter => (* php.g 948-950 *)
      seqs [alts [IN n_parameterType; IEps]; alts [IT T_BIT_AND; IEps]; alts [IT T_ELLIPSIS;
        IEps]; IN n_variableIdentifier; alts [seqs [IT T_ASSIGN; IN n_expr]; IEps]]
  | n_genericTypeHint => (* php.g 952-954 *)
      alts [IN n_namespacedIdentifier; IT T_ARRAY]
  | n_parameterTypeHint => (* php.g 956-961 *)
      seqs [alts [IT T_QUESTION; IEps]; alts [IN n_genericTypeHint; IT T_CALLABLE]]
  | n_returnTypeHint => (* php.g 965-970 *)
      seqs [alts [IT T_QUESTION; IEps]; alts [IN n_genericTypeHint; IT T_CALLABLE; IT T_VOID]]
  | n_propertyTypeHint => (* php.g 972-976 *)
      seqs [alts [IT T_QUESTION; IEps]; IN n_genericTypeHint]
  | n_unionParameterType => (* php.g 981-982 *)
      IList (IN n_parameterTypeHint) T_BIT_OR None
  | n_parameterType => (* php.g 984-985 *)
      IN n_unionParameterType
  | n_unionReturnType => (* php.g 987-988 *)
      IList (IN n_returnTypeHint) T_BIT_OR None
  | n_returnType => (* php.g 990-991 *)
      IN n_unionReturnType
  | n_unionPropertyType => (* php.g 993-994 *)
      IList (IN n_propertyTypeHint) T_BIT_OR None
  | n_propertyType => (* php.g 996-997 *)
      IN n_unionPropertyType
  | n_staticScalar => (* php.g 999-1013 *)
      alts [IN n_commonScalar; IN n_constantOrClassConst; seqs [IT T_PLUS; IN n_staticScalar];
        seqs [IT T_MINUS; IN n_staticScalar]; seqs [IT T_ARRAY; IT T_LPAREN; alts [IList (IN
        n_staticArrayPairValue) T_COMMA (Some T_RPAREN); IEps]; IT T_RPAREN]; seqs [IT
        T_LBRACKET; alts [IList (IN n_staticArrayPairValue) T_COMMA (Some T_RBRACKET); IEps]; IT
        T_RBRACKET]]
  | n_staticArrayPairValue => (* php.g 1015-1016 *)
      seqs [IN n_staticScalar; alts [seqs [IT T_DOUBLE_ARROW; IN n_staticScalar]; IEps]]
  | n_namespacedIdentifier => (* php.g 1018-1020 *)
      seqs [alts [IT T_BACKSLASH; IEps]; IList (IN n_identifier) T_BACKSLASH None]
  | n_namespacedIdentifierBeforeGroupedNamespace => (* php.g 1022-1024 *)
      seqs [alts [IT T_BACKSLASH; IEps]; IList (IN n_identifier) T_BACKSLASH (Some T_LBRACE)]
  | n_identifier => (* php.g 1026-1027 *)
      IT T_STRING
  | n_reservedNonModifiers => (* php.g 1029-1036 *)
      alts [IT T_INCLUDE; IT T_INCLUDE_ONCE; IT T_EVAL; IT T_REQUIRE; IT T_REQUIRE_ONCE; IT
        T_LOGICAL_OR; IT T_LOGICAL_XOR; IT T_LOGICAL_AND; IT T_INSTANCEOF; IT T_NEW; IT T_CLONE;
        IT T_EXIT; IT T_IF; IT T_ELSEIF; IT T_ELSE; IT T_ENDIF; IT T_ECHO; IT T_DO; IT T_WHILE;
        IT T_ENDWHILE; IT T_FOR; IT T_ENDFOR; IT T_FOREACH; IT T_ENDFOREACH; IT T_DECLARE; IT
        T_ENDDECLARE; IT T_AS; IT T_TRY; IT T_CATCH; IT T_FINALLY; IT T_THROW; IT T_USE; IT
        T_INSTEADOF; IT T_GLOBAL; IT T_VAR; IT T_UNSET; IT T_ISSET; IT T_EMPTY; IT T_CONTINUE;
        IT T_GOTO; IT T_FUNCTION; IT T_CONST; IT T_RETURN; IT T_PRINT; IT T_YIELD; IT T_LIST; IT
        T_SWITCH; IT T_ENDSWITCH; IT T_CASE; IT T_DEFAULT; IT T_BREAK; IT T_ARRAY; IT
        T_CALLABLE; IT T_EXTENDS; IT T_IMPLEMENTS; IT T_NAMESPACE; IT T_TRAIT; IT T_INTERFACE;
        IT T_CLASS; IT T_CLASS_C; IT T_TRAIT_C; IT T_FUNC_C; IT T_METHOD_C; IT T_LINE; IT
        T_FILE; IT T_DIR; IT T_NAMESPACE_C]
  | n_semiReserved => (* php.g 1038-1040 *)
      alts [IN n_reservedNonModifiers; IT T_STATIC; IT T_ABSTRACT; IT T_FINAL; IT T_PRIVATE; IT
        T_PROTECTED; IT T_PUBLIC]
  | n_semiReservedIdentifier => (* php.g 1042-1052 *)
      alts [IN n_identifier; IN n_semiReserved]
  | n_reservedNonModifierIdentifier => (* php.g 1056-1066 *)
      alts [IN n_identifier; IN n_reservedNonModifiers]
  | n_variableIdentifier => (* php.g 1070-1071 *)
      IT T_VARIABLE
  | n_namespaceDeclarationStatement => (* php.g 1073-1078 *)
      seqs [IT T_NAMESPACE; alts [seqs [IList (IN n_identifier) T_BACKSLASH None; alts [IT
        T_SEMICOLON; seqs [IT T_LBRACE; IRecover n_innerStatementList; IT T_RBRACE]]]; seqs [IT
        T_SEMICOLON; IAct AMissingNamespace]; seqs [IT T_LBRACE; IRecover n_innerStatementList;
        IT T_RBRACE]]]
  | n_interfaceDeclarationStatement => (* php.g 1080-1082 *)
      seqs [IT T_INTERFACE; IN n_identifier; alts [seqs [IT T_EXTENDS; IN n_classImplements];
        IEps]; IT T_LBRACE; IRecover n_classBody; IT T_RBRACE]
  | n_traitDeclarationStatement => (* php.g 1084-1086 *)
      seqs [IT T_TRAIT; IN n_identifier; IT T_LBRACE; IN n_classBody; IT T_RBRACE]
  | n_classDeclarationStatement => (* php.g 1088-1092 *)
      seqs [IN n_optionalClassModifier; IT T_CLASS; IN n_identifier; alts [seqs [IT T_EXTENDS;
        IN n_classExtends]; IEps]; alts [seqs [IT T_IMPLEMENTS; IN n_classImplements]; IEps]; IT
        T_LBRACE; IN n_classBody; IT T_RBRACE]
  | n_classExtends => (* php.g 1094-1095 *)
      IN n_namespacedIdentifier
  | n_classImplements => (* php.g 1097-1098 *)
      IList (IN n_namespacedIdentifier) T_COMMA None
  | n_classBody => (* php.g 1101-1114 *)
      seqs [ILoop (IStar (IRecover n_classStatement)) classStop; IPeek T_RBRACE]
  | n_classStatement => (* php.g 1116-1125 *)
      alts [seqs [IT T_VAR; IN n_classVariableDeclaration; IT T_SEMICOLON]; seqs [IN
        n_optionalModifiers; alts [seqs [alts [IN n_propertyType; IEps]; IN
        n_classVariableDeclaration; IT T_SEMICOLON]; seqs [IT T_FUNCTION; alts [IT T_BIT_AND;
        IEps]; IN n_semiReservedIdentifier; IT T_LPAREN; IN n_parameterList; IT T_RPAREN; alts
        [seqs [IT T_COLON; IN n_returnType]; IEps]; IN n_methodBody]; seqs [IT T_CONST; IList
        (IN n_classConstantDeclaration) T_COMMA None; IT T_SEMICOLON]]]; seqs [IT T_USE; IList
        (IN n_namespacedIdentifier) T_COMMA None; alts [IN n_traitAliasDeclaration; IT
        T_SEMICOLON]]]
  | n_traitAliasDeclaration => (* php.g 1127-1129 *)
      seqs [IT T_LBRACE; IList (IN n_traitAliasStatement) T_SEMICOLON (Some T_RBRACE); IT
        T_RBRACE]
  | n_traitAliasStatement => (* php.g 1131-1140 *)
      seqs [IN n_traitAliasIdentifier; alts [seqs [IT T_AS; alts [ICond (CSecond T_SEMICOLON)
        (alts [IN n_traitVisibilityModifiers; IN n_reservedNonModifierIdentifier]); seqs [IN
        n_traitVisibilityModifiers; IN n_semiReservedIdentifier]]]; seqs [IT T_INSTEADOF; IList
        (IN n_namespacedIdentifier) T_COMMA None]]]
  | n_traitAliasIdentifier => (* php.g 1142-1143 *)
      seqs [IN n_namespacedIdentifier; IT T_PAAMAYIM_NEKUDOTAYIM; IN n_semiReservedIdentifier]
  | n_methodBody => (* php.g 1145-1147 *)
      alts [IT T_SEMICOLON; seqs [IT T_LBRACE; IRecover n_innerStatementList; IT T_RBRACE]]
  | n_classVariableDeclaration => (* php.g 1149-1150 *)
      IList (IN n_classVariable) T_COMMA None
  | n_classVariable => (* php.g 1152-1153 *)
      seqs [IN n_variableIdentifier; alts [seqs [IT T_ASSIGN; IN n_staticScalar]; IEps]]
  | n_traitVisibilityModifiers => (* php.g 1155-1161 *)
      alts [IT T_PUBLIC; IT T_PROTECTED; IT T_PRIVATE; IT T_STATIC; IT T_ABSTRACT; IT T_FINAL]
  | n_optionalModifiers => (* php.g 1165-1174 *)
      IStar (alts [IT T_PUBLIC; IT T_PROTECTED; IT T_PRIVATE; IT T_STATIC; IT T_ABSTRACT; IT
        T_FINAL])
  | n_optionalClassModifier => (* php.g 1178-1183 *)
      alts [IT T_ABSTRACT; IT T_FINAL; IEps]
  end.

(** FIRST sets as the generator computes them, by iteration from empty tables. *)
Record tables := { tNull : list bool; tFirst : list N }.
Definition nullOf (t : tables) (n : NT) : bool := nth (ntId n) (tNull t) false.
Definition firstOf (t : tables) (n : NT) : N := nth (ntId n) (tFirst t) 0%N.

Fixpoint nullableT (t : tables) (i : item) : bool :=
  match i with
  | IT _ | IFail | IPeek _ => false
  | IN n | IRecover n => nullOf t n
  | IEps | IStar _ | IAct _ | ILoop _ _ | ILoopAgain _ _ => true
  | ISeq a b => nullableT t a && nullableT t b
  | IAlt a b | IRollback a b => nullableT t a || nullableT t b
  | ICond _ a => nullableT t a
  | IList a _ _ => nullableT t a
  end.
Fixpoint firstT (t : tables) (i : item) : N :=
  match i with
  | IT k | IPeek k => single k
  | IN n | IRecover n => firstOf t n
  | IEps | IFail | IAct _ => 0%N
  | ISeq a b => if nullableT t a then N.lor (firstT t a) (firstT t b) else firstT t a
  | IAlt a b | IRollback a b => N.lor (firstT t a) (firstT t b)
  | ICond _ a => firstT t a
  | IStar a | ILoop a _ | ILoopAgain a _ => firstT t a
  | IList a s _ => if nullableT t a then N.lor (firstT t a) (single s) else firstT t a
  end.
Definition stepT (t : tables) : tables :=
  {| tNull := map (fun n => nullableT t (rule n)) allNT;
     tFirst := map (fun n => firstT t (rule n)) allNT |}.
Definition emptyT : tables := {| tNull := map (fun _ => false) allNT; tFirst := map (fun _ => 0%N) allNT |}.
Definition theTables : tables := Eval vm_compute in Nat.iter 60 stepT emptyT.

Definition nullable : item -> bool := nullableT theTables.
Definition first : item -> N := firstT theTables.

(** Parser::VarExpressionState, php.g 185-189 *)
Inductive VState := Normal | OnlyVariable | OnlyNewObject.

(** Parser::ProblemType, php.g 150-155, and the index of the token of the problem. *)
Inductive Severity := SevError | SevWarning.
Record problem := { pr_sev : Severity; pr_index : nat }.

(** The parser between two steps: [rest] are the tokens from the look-ahead token (yytoken) on,
    without the end-of-file token; [pos] is the index of yytoken, tokenStream->index() - 1; [size] is
    the number of tokens including the end-of-file token; [reads] counts the calls of yylex(). *)
Record PS := { rest : list Tok; pos : nat; size : nat; vst : VState; isVar : bool; imp : Imp;
               cimp : Imp; blocked : bool; problems : list problem; reads : nat }.

Definition la (k : nat) (s : PS) : Tok := nth (k - 1) (rest s) T_EOF.
Definition yytoken (s : PS) : Tok := la 1 s.

(** yylex() *)
Definition yylex (s : PS) : PS :=
  match rest s with
  | [] => s
  | _ :: r => {| rest := r; pos := S (pos s); size := size s; vst := vst s; isVar := isVar s;
                 imp := imp s; cimp := cimp s; blocked := blocked s; problems := problems s;
                 reads := S (reads s) |}
  end.
Definition setVst (s : PS) (v : VState) : PS :=
  {| rest := rest s; pos := pos s; size := size s; vst := v; isVar := isVar s; imp := imp s;
     cimp := cimp s; blocked := blocked s; problems := problems s; reads := reads s |}.
Definition setIsVar (s : PS) (b : bool) : PS :=
  {| rest := rest s; pos := pos s; size := size s; vst := vst s; isVar := b; imp := imp s;
     cimp := cimp s; blocked := blocked s; problems := problems s; reads := reads s |}.
Definition setImps (s : PS) (i c : Imp) : PS :=
  {| rest := rest s; pos := pos s; size := size s; vst := vst s; isVar := isVar s; imp := i;
     cimp := c; blocked := blocked s; problems := problems s; reads := reads s |}.
Definition setBlocked (s : PS) (b : bool) : PS :=
  {| rest := rest s; pos := pos s; size := size s; vst := vst s; isVar := isVar s; imp := imp s;
     cimp := cimp s; blocked := b; problems := problems s; reads := reads s |}.

(** Parser::reportProblem, php.g 1276-1316; [back] is 1 for the offset -1 and 2 for -2. *)
Definition report (sev : Severity) (back : nat) (s : PS) : PS :=
  let index := pos s + 1 - back in
  if size s <=? index then s
  else {| rest := rest s; pos := pos s; size := size s; vst := vst s; isVar := isVar s;
          imp := imp s; cimp := cimp s; blocked := blocked s;
          problems := problems s ++ [{| pr_sev := sev; pr_index := index |}]; reads := reads s |}.
(** Parser::expectedToken and expectedSymbol, php.g 1320-1348, as the generated code calls them. *)
Definition expected (s : PS) : PS := if blocked s then s else report SevError 1 s.

(** copyCurrentState and restoreState, php.g 1361-1373: [s0] is where the try part began.  Problems
    and the import kinds stay. *)
Definition restoreState (s0 s : PS) : PS := setIsVar (setVst s (vst s0)) (isVar s0).
Definition rewind (s0 s : PS) : PS :=
  {| rest := rest s0; pos := pos s0; size := size s; vst := vst s; isVar := isVar s; imp := imp s;
     cimp := cimp s; blocked := blocked s; problems := problems s; reads := reads s |}.

Definition holds (c : cond) (s : PS) : bool :=
  match c with
  | CNotFunctionDeclaration =>
      (teq (la 1 s) T_FUNCTION
       && ((teq (la 2 s) T_BIT_AND && teq (la 3 s) T_LPAREN) || teq (la 2 s) T_LPAREN))
      || negb (teq (la 1 s) T_FUNCTION)
  | COnlyVariable => match vst s with OnlyVariable => true | _ => false end
  | COnlyNewObject => match vst s with OnlyNewObject => true | _ => false end
  | CIife => teq (la 1 s) T_LPAREN && teq (la 2 s) T_FUNCTION && teq (la 3 s) T_LPAREN
  | CDollar => teq (la 1 s) T_DOLLAR
  | CNotLabel => negb (teq (la 1 s) T_STRING) || negb (teq (la 2 s) T_COLON)
  | CSecond k => teq (la 2 s) k
  end.

(** Whether the generated code enters [i]. *)
Definition enters (i : item) (s : PS) : bool := nullable i || mem (yytoken s) (first i).
Definition test (i : item) (s : PS) : bool :=
  match i with
  | ICond c a => holds c s && enters a s
  | _ => enters i s
  end.

(** The tree: a token with its index, or a rule with startToken, its parts and endToken + 1. *)
Inductive tree :=
| Leaf (k : Tok) (p : nat)
| Node (n : NT) (startToken : nat) (children : list tree) (behind : nat).

Inductive res := Ok (t : list tree) (s : PS) | Fail (s : PS).

(** The C++ code of the rules. *)
Definition doAct (x : act) (s : PS) : res :=
  match x with
  | ASetIsVariable b => Ok [] (setIsVar s b)
  | ASetNormal => Ok [] (setVst s Normal)
  | ARefAssign =>
      Ok [] (if teq (yytoken s) T_NEW then setVst (report SevWarning 2 s) OnlyNewObject
             else setVst s OnlyVariable)
  | ACheckVariable => if isVar s then Ok [] s else Fail (report SevError 1 s)
  | AEmptyUseList => Ok [] (report SevError 1 s)
  | ASetImport i => Ok [] (setImps s i (cimp s))
  | ASetCompoundImport c => Ok [] (setImps s (imp s) c)
  | AMixedImport =>
      Ok [] (match imp s, cimp s with
             | NamespaceOrClassImport, _ | _, NamespaceOrClassImport => s
             | _, _ => report SevError 2 s
             end)
  | AMissingNamespace => Ok [] (report SevError 2 s)
  end.

(** The end of try/recover: drop tokens up to one of the set. *)
Fixpoint skipTo (stop : Tok -> bool) (l : list Tok) (s : PS) : PS :=
  match l with
  | [] => s
  | k :: r => if stop k then s else skipTo stop r (yylex s)
  end.
Definition recover (stop : Tok -> bool) (s0 s : PS) : PS :=
  let s1 := restoreState s0 s in
  let s2 := if pos s1 =? pos s0 then yylex s1 else s1 in
  skipTo stop (rest s2) s2.

Definition inStop (k : Tok) (l : list Tok) : bool := existsb (teq k) l.

(** What is left open about the generator (not in /repo): where the recovery of a try/recover
    around a rule stops, and whether try/recover unblocks errors. *)
Record Gen := { resync : NT -> Tok -> bool; unblocks : bool }.

(** The generated functions.  [fuel] bounds the depth of the calls. *)
Fixpoint run (rs : Gen) (fuel : nat) (i : item) (s : PS) : option res :=
  match fuel with
  | O => None
  | S f =>
      match i with
      | IT k => Some (if teq (yytoken s) k then Ok [Leaf k (pos s)] (yylex s) else Fail (expected s))
      | IN n =>
          if enters (rule n) s then
            match run rs f (rule n) s with
            | Some (Ok t s') => Some (Ok [Node n (pos s) t (pos s')] s')
            | Some (Fail s') => Some (Fail (expected s'))
            | None => None
            end
          else Some (Fail (expected s))
      | IEps => Some (Ok [] s)
      | IFail => Some (Fail s)
      | ISeq a b =>
          match run rs f a s with
          | Some (Ok t1 s1) =>
              match run rs f b s1 with
              | Some (Ok t2 s2) => Some (Ok (t1 ++ t2) s2)
              | r => r
              end
          | r => r
          end
      | IAlt a b => if test a s then run rs f a s else run rs f b s
      | ICond _ a => run rs f a s
      | IStar a =>
          if mem (yytoken s) (first a) then
            match run rs f a s with
            | Some (Ok t1 s1) =>
                match run rs f (IStar a) s1 with
                | Some (Ok t2 s2) => Some (Ok (t1 ++ t2) s2)
                | r => r
                end
            | r => r
            end
          else Some (Ok [] s)
      | IList a sep brk =>
          match run rs f a s with
          | Some (Ok t1 s1) =>
              if teq (yytoken s1) sep then
                let s2 := yylex s1 in
                let stop := match brk with Some b => teq (yytoken s2) b | None => false end in
                if stop then Some (Ok (t1 ++ [Leaf sep (pos s1)]) s2)
                else
                  match run rs f (IList a sep brk) s2 with
                  | Some (Ok t2 s3) => Some (Ok (t1 ++ Leaf sep (pos s1) :: t2) s3)
                  | r => r
                  end
              else Some (Ok t1 s1)
          | r => r
          end
      | IRollback a b =>
          match run rs f a (setBlocked s true) with
          | Some (Ok t s') => Some (Ok t (setBlocked s' (blocked s)))
          | Some (Fail s') => run rs f b (rewind s (restoreState s (setBlocked s' (blocked s))))
          | None => None
          end
      | IRecover n =>
          match run rs f (IN n) (setBlocked s (blocked s && negb (unblocks rs))) with
          | Some (Ok t s') => Some (Ok t (setBlocked s' (blocked s)))
          | Some (Fail s') => Some (Ok [] (recover (resync rs n) s (setBlocked s' (blocked s))))
          | None => None
          end
      | IAct x => Some (doAct x s)
      | ILoop a stop =>
          match run rs f a s with
          | Some (Ok t1 s1) =>
              if inStop (yytoken s1) stop then Some (Ok t1 s1)
              else
                match run rs f (ILoopAgain a stop) (yylex (report SevError 1 s1)) with
                | Some (Ok t2 s2) => Some (Ok (t1 ++ t2) s2)
                | r => r
                end
          | r => r
          end
      | ILoopAgain a stop =>
          match run rs f a s with
          | Some (Ok t1 s1) =>
              if inStop (yytoken s1) stop then Some (Ok t1 s1)
              else
                match run rs f (ILoopAgain a stop) (yylex s1) with
                | Some (Ok t2 s2) => Some (Ok (t1 ++ t2) s2)
                | r => r
                end
          | r => r
          end
      | IPeek k => Some (if teq (yytoken s) k then Ok [] s else Fail (expected s))
      end
  end.

(** The parser after tokenize(), php.g 1243 and the constructor 207-211. *)
Definition initial (ts : list Tok) : PS :=
  {| rest := ts; pos := 0; size := S (List.length ts); vst := Normal; isVar := false;
     imp := NamespaceOrClassImport; cimp := NamespaceOrClassImport; blocked := false;
     problems := []; reads := 0 |}.

(** Parser::parseStart with the generated check that the file ends there, and the problem that
    ParseSession::parse adds when it fails, parsesession.cpp 116-132. *)
Inductive parsed := Accepted (t : tree) (p : list problem) | Rejected (p : list problem).
Definition parseFile (rs : Gen) (fuel : nat) (ts : list Tok) : option parsed :=
  let s := initial ts in
  match run rs fuel (rule n_start) s with
  | None => None
  | Some (Ok t s') =>
      match rest s' with
      | [] => Some (Accepted (Node n_start 0 t (pos s')) (problems s'))
      | _ :: _ => Some (Rejected (problems (report SevError 1 s')))
      end
  | Some (Fail s') => Some (Rejected (problems (report SevError 1 s')))
  end.
