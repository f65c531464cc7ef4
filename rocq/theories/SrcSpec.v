(** How PHP text spells tokens (C68).  Written from the PHP language reference, with the vocabulary
    of LexSpec2.v; nothing here comes from the lexer.  A document is a sequence of pieces; what a
    piece may be depends on where it stands, and the places are nested: code inside the braces of
    a string inside code inside HTML. *)
From Verif Require Export LexSpec2 TokModel.
Open Scope nat_scope.

Inductive place :=
| InHtml
| InCode                        (* between "<?php" and "?>" *)
| InBraces                      (* code between braces in a string, or between braces inside these *)
| InQuotes                      (* "..", with variables *)
| InBackticks                   (* `..` *)
| InHeredoc (id : qstring)      (* <<<id *)
| BehindVar.                    (* in a string, directly behind a variable *)
Definition code (st : list place) : Prop :=
  exists st', st = InCode :: st' \/ st = InBraces :: st'.
(** [string p st here]: [here] is inside a string [p] that stands in [st]. *)
Definition isString (p : place) : Prop :=
  match p with InQuotes | InBackticks | InHeredoc _ => True | _ => False end.
Definition within (p : place) (st here : list place) : Prop :=
  isString p /\ (here = p :: st \/ here = BehindVar :: p :: st).

Definition noIdent (cc : CharClass) (r : qstring) : Prop := forall c s, r = c :: s -> ~ identChar cc c.
Definition noBlank (cc : CharClass) (r : qstring) : Prop := forall c s, r = c :: s -> isSpace cc c = false.
Definition ident (cc : CharClass) (name : qstring) : Prop :=
  (exists c s, name = c :: s /\ identStart cc c) /\ Forall (identChar cc) name.

(** Blanks and comments. *)
Inductive gap (cc : CharClass) : qstring -> qstring -> Prop :=
| g_blanks w r : w <> [] -> allBlank cc w -> noBlank cc r -> gap cc w r
| g_block body r : ~ contains (str "*/") (body ++ str "*") -> gap cc (str "/*" ++ body ++ str "*/") r
| g_hash s text r : lineEnd (str "#" ++ s) text r -> gap cc text r
| g_slashes s text r : (forall x, s <> cSLASH :: x) -> lineEnd (str "//" ++ s) text r -> gap cc text r
| g_doc s text r : docEnd cc (str "///" ++ s) text r -> gap cc text r.

(** One token of code, spelled [text], in front of [r]. *)
Inductive lexeme (cc : CharClass) : Tok -> qstring -> qstring -> Prop :=
| x_keyword name r k t : wholeWord cc name r -> In (k, t) phpKeywords -> sameWord cc name k ->
    t <> T_HALT_COMPILER -> lexeme cc t name r
| x_name name r : wholeWord cc name r -> (forall k t, In (k, t) phpKeywords -> ~ sameWord cc name k) ->
    ~ sameWord cc name (str "static") -> ~ sameWord cc name (str "yield") -> lexeme cc T_STRING name r
| x_static name w r : wholeWord cc name (w ++ r) -> sameWord cc name (str "static") -> allBlank cc w -> noBlank cc r ->
    (forall x, r <> str "::" ++ x) -> lexeme cc T_STATIC name (w ++ r)
| x_static_name name w r : wholeWord cc name (w ++ str "::" ++ r) -> sameWord cc name (str "static") -> allBlank cc w ->
    lexeme cc T_STRING name (w ++ str "::" ++ r)
| x_yield name w r : wholeWord cc name (w ++ r) -> sameWord cc name (str "yield") -> allBlank cc w -> noBlank cc r ->
    3 <= List.length r -> (forall x, r <> str "from" ++ x) -> lexeme cc T_YIELD name (w ++ r)
| x_yield_from name w r : wholeWord cc name (w ++ str "from" ++ r) -> sameWord cc name (str "yield") -> allBlank cc w ->
    lexeme cc T_YIELD_FROM (name ++ w ++ str "from") r
| x_variable name r : ident cc name -> noIdent cc r -> lexeme cc T_VARIABLE (cDOLLAR :: name) r
| x_dollar r : (forall c s, r = c :: s -> ~ identStart cc c) -> lexeme cc T_DOLLAR [cDOLLAR] r
| x_integer s ds r : s <> [] -> decDigits s ds -> (s = [c0] -> noLetter cc 120 r /\ noLetter cc 98 r) ->
    noDigit cc r -> noDot r -> ~ expStart cc r -> lexeme cc (intOrFloat (value 10 ds)) s r
| x_float s1 ds1 s2 ds2 r : decDigits s1 ds1 -> decDigits s2 ds2 -> s1 ++ s2 <> [] -> noDigit cc r -> ~ expStart cc r ->
    lexeme cc T_DNUMBER (s1 ++ cDOT :: s2) r
| x_exponent (s1 : qstring) ds1 (s2 : qstring) ds2 (pt : bool) e (sg s3 : qstring) ds3 r :
    decDigits s1 ds1 -> decDigits s2 ds2 -> decDigits s3 ds3 ->
    (if pt then s1 ++ s2 <> [] else s1 <> []) -> [e] = str "e" \/ [e] = str "E" ->
    sg = [] \/ sg = [cMINUS] \/ sg = [cPLUS] -> s3 <> [] -> noDigit cc r ->
    lexeme cc T_DNUMBER (s1 ++ (if pt then cDOT :: s2 else []) ++ e :: sg ++ s3) r
| x_hex x s ds r : [x] = str "x" \/ [x] = str "X" -> s <> [] -> hexDigits s ds ->
    (forall y, s <> str "0b" ++ y /\ s <> str "0B" ++ y) -> (s = [c0] -> noLetter cc 98 r) ->
    noDigit cc r -> noHexDigit cc r -> lexeme cc (intOrFloat (value 16 ds)) (c0 :: x :: s) r
| x_binary b s ds r : [b] = str "b" \/ [b] = str "B" -> s <> [] -> binDigits s ds -> List.length s <= 19 ->
    noDigit cc r -> noDot r -> lexeme cc T_LNUMBER (c0 :: b :: s) r
| x_single body r : quoted cSQ body -> lexeme cc T_CONSTANT_ENCAPSED_STRING ([cSQ] ++ body ++ [cSQ]) r
| x_double body r : quoted cDQ body -> ~ varStart cc cDQ body ->
    lexeme cc T_CONSTANT_ENCAPSED_STRING ([cDQ] ++ body ++ [cDQ]) r
| x_operator op k r : longestOp op k (op ++ r) -> modeOp k = false -> ~ notOperator cc (op ++ r) -> lexeme cc k op r
| x_paren r : (forall w1 word w2 tail k t, str "(" ++ r = castShape cc w1 word w2 ++ tail -> allBlank cc w1 ->
     letters cc word -> allBlank cc w2 -> In (k, t) castTypes -> ~ sameWord cc word k) ->
    lexeme cc T_LPAREN (str "(") r
| x_cast w1 word w2 r k t : allBlank cc w1 -> letters cc word -> allBlank cc w2 -> In (k, t) castTypes ->
    sameWord cc word k -> lexeme cc t (castShape cc w1 word w2) r.

(** In a string of kind [p], something else than text starts at the front of [s]: a variable, the
    closing quote. *)
Definition quoteOf (p : place) : option N :=
  match p with InQuotes => Some cDQ | InBackticks => Some cBACKTICK | _ => None end.
Definition special (cc : CharClass) (p : place) (s : qstring) : Prop :=
  (exists c r, s = cDOLLAR :: c :: r /\ (c = cLBRACE \/ identStart cc c)) \/
  (exists c r, s = cLBRACE :: cDOLLAR :: c :: r /\ (c = cLBRACE \/ identChar cc c)) \/
  (exists q r, quoteOf p = Some q /\ s = q :: r).
(** [s] starts with a line break in front of the end of the heredoc [p]. *)
Definition lastLine (p : place) (s : qstring) : Prop :=
  match p with InHeredoc id => exists r, s = cNL :: r /\ endsDoc id r | _ => False end.
(** [plainText p body r]: [body], in front of [r], is the text up to the next special character, or up
    to the end of the heredoc. *)
Inductive plainText (cc : CharClass) (p : place) : qstring -> qstring -> Prop :=
| t_stop r : special cc p r -> (forall x, r <> str "{${" ++ x) -> plainText cc p [] r
| t_last r : lastLine p (cNL :: r) -> plainText cc p [cNL] r
| t_char c body r : c <> cBSLASH -> ~ special cc p (c :: body ++ r) -> ~ lastLine p (c :: body ++ r) ->
    plainText cc p body r -> plainText cc p (c :: body) r
| t_pair c body r : ~ lastLine p (c :: body ++ r) -> plainText cc p body r -> plainText cc p (cBSLASH :: c :: body) r
| t_pair_last r : lastLine p (cNL :: r) -> plainText cc p [cBSLASH; cNL] r.

Definition heredocStart (w quote id : qstring) : qstring := str "<<<" ++ w ++ quote ++ id ++ quote ++ [cNL].

(** [piece st toks text st' r]: at [st], [text] in front of [r] spells the tokens [toks] and leads to [st']. *)
Inductive piece (cc : CharClass) :
  list place -> list (Tok * qstring) -> qstring -> list place -> qstring -> Prop :=
(* HTML *)
| p_html c body r : (forall x, c :: body ++ str "<?" ++ r = str "<?" ++ x -> xmlTag cc x) ->
    firstOcc (str "<?") (body ++ str "<?" ++ r) body r ->
    piece cc [InHtml] [(T_INLINE_HTML, c :: body)] (c :: body) [InHtml] (str "<?" ++ r)
| p_html_rest c body : (forall x, c :: body = str "<?" ++ x -> xmlTag cc x) -> ~ contains (str "<?") body ->
    piece cc [InHtml] [(T_INLINE_HTML, c :: body)] (c :: body) [InHtml] []
| p_open tag r : phpTag cc tag -> piece cc [InHtml] [(T_OPEN_TAG, tag)] tag [InCode; InHtml] r
| p_open_short r : ~ xmlTag cc r -> (forall x, r <> cEQ :: x) -> (forall t x, str "<?" ++ r = t ++ x -> ~ phpTag cc t) ->
    piece cc [InHtml] [(T_OPEN_TAG, str "<?")] (str "<?") [InCode; InHtml] r
| p_open_echo r : piece cc [InHtml] [(T_OPEN_TAG_WITH_ECHO, str "<?=")] (str "<?=") [InCode; InHtml] r
(* code *)
| p_gap st text r : code st -> gap cc text r -> piece cc st [] text st r
| p_token st k text r : code st -> lexeme cc k text r -> piece cc st [(k, text)] text st r
| p_arrow st r : code st -> noIdent cc r -> piece cc st [(T_OBJECT_OPERATOR, str "->")] (str "->") st r
| p_member st name r : code st -> ident cc name -> noIdent cc r ->
    piece cc st [(T_OBJECT_OPERATOR, str "->"); (T_STRING, name)] (str "->" ++ name) st r
| p_lbrace st r : piece cc (InCode :: st) [(T_LBRACE, str "{")] (str "{") (InCode :: st) r
| p_rbrace st r : piece cc (InCode :: st) [(T_RBRACE, str "}")] (str "}") (InCode :: st) r
| p_lbrace_in st r : piece cc (InBraces :: st) [(T_LBRACE, str "{")] (str "{") (InBraces :: InBraces :: st) r
| p_rbrace_in st r : piece cc (InBraces :: st) [(T_RBRACE, str "}")] (str "}") st r
| p_close r : piece cc [InCode; InHtml] [(T_CLOSE_TAG, str "?>")] (str "?>") [InHtml] r
| p_quote st r : code st -> varStart cc cDQ r -> piece cc st [(T_DOUBLE_QUOTE, [cDQ])] [cDQ] (InQuotes :: st) r
| p_backtick st r : code st -> piece cc st [(T_BACKTICK, [cBACKTICK])] [cBACKTICK] (InBackticks :: st) r
| p_heredoc st w quote id r : hereBlanks w -> quote = [] \/ quote = [cDQ] -> docIdent cc id -> r <> [] ->
    piece cc (InCode :: st) [(T_START_HEREDOC, heredocStart w quote id)] (heredocStart w quote id)
      (InHeredoc id :: InCode :: st) r
| p_nowdoc st w id body r : hereBlanks w -> docIdent cc id -> endsDoc id (id ++ r) ->
    ~ endsDoc id (body ++ id ++ r) -> nowdocBody id (body ++ id ++ r) body (id ++ r) ->
    piece cc (InCode :: st)
      [(T_START_NOWDOC, heredocStart w [cSQ] id); (T_STRING, body); (T_END_NOWDOC, id)]
      (heredocStart w [cSQ] id ++ body ++ id) (InCode :: st) r
(* strings *)
| p_text p st here body r : within p st here -> plainText cc p body r ->
    ~ (exists id, p = InHeredoc id /\ endsDoc id (body ++ r)) ->
    (here = p :: st -> body <> []) ->
    (here = BehindVar :: p :: st -> (forall x, body ++ r <> cLBRACKET :: x) /\
       (forall c x, body ++ r = str "->" ++ c :: x -> ~ identStart cc c) /\
       (forall c x, body ++ r = cDOLLAR :: c :: x -> ~ identStart cc c) /\
       (forall q x, quoteOf p = Some q -> body ++ r <> q :: x)) ->
    piece cc here [(T_ENCAPSED_AND_WHITESPACE, body)] body (p :: st) r
| p_var p st here name r : within p st here -> ident cc name -> noIdent cc r ->
    piece cc here [(T_VARIABLE, cDOLLAR :: name)] (cDOLLAR :: name) (BehindVar :: p :: st) r
| p_number p st ds r : isString p -> ds <> [] -> Forall (fun c => isDigit cc c = true) ds ->
    piece cc (BehindVar :: p :: st)
      [(T_LBRACKET, str "["); (T_NUM_STRING, ds); (T_RBRACKET, str "]")] (str "[" ++ ds ++ str "]") (p :: st) r
| p_index p st c s r : isString p -> isDigit cc c = false -> ~ In cRBRACKET (c :: s) ->
    piece cc (BehindVar :: p :: st)
      [(T_LBRACKET, str "["); (T_STRING, c :: s); (T_RBRACKET, str "]")] (str "[" ++ (c :: s) ++ str "]") (p :: st) r
| p_prop p st name r : isString p -> ident cc name -> noIdent cc r ->
    piece cc (BehindVar :: p :: st)
      [(T_OBJECT_OPERATOR, str "->"); (T_STRING, name)] (str "->" ++ name) (p :: st) r
| p_curly p st c r : isString p -> identStart cc c \/ c = cLBRACE ->
    piece cc (p :: st) [(T_CURLY_OPEN, str "{")] (str "{") (InBraces :: p :: st) (cDOLLAR :: c :: r)
| p_dollar_curly p st name r : isString p -> ident cc name -> noIdent cc r ->
    piece cc (p :: st) [(T_DOLLAR_OPEN_CURLY_BRACES, str "${"); (T_STRING_VARNAME, name)] (str "${" ++ name)
      (InBraces :: p :: st) r
| p_unquote st here r : within InQuotes st here -> piece cc here [(T_DOUBLE_QUOTE, [cDQ])] [cDQ] st r
| p_unbacktick st here r : within InBackticks st here -> piece cc here [(T_BACKTICK, [cBACKTICK])] [cBACKTICK] st r
| p_end_heredoc id st here r : within (InHeredoc id) st here -> endsDoc id (id ++ r) ->
    piece cc here [(T_END_HEREDOC, id)] id st r.


(** A whole text from [st] on. *)
Inductive spells (cc : CharClass) : list place -> list (Tok * qstring) -> qstring -> Prop :=
| sp_html : spells cc [InHtml] [] []
| sp_code : spells cc [InCode; InHtml] [] []
| sp_piece st ts text st' r ts' : piece cc st ts text st' r -> spells cc st' ts' r ->
    spells cc st (ts ++ ts') (text ++ r).

(** Token lists that need no place but code and HTML: nothing of strings with variables in them, and no
    __halt_compiler.  Two pieces of HTML do not follow each other. *)
Definition plainTok (k : Tok) : bool :=
  match k with
  | T_EOF | T_INVALID | T_OPEN_TAG | T_OPEN_TAG_WITH_ECHO | T_INLINE_HTML | T_CLOSE_TAG
  | T_WHITESPACE | T_COMMENT | T_DOC_COMMENT | T_START_HEREDOC | T_END_HEREDOC | T_START_NOWDOC | T_END_NOWDOC
  | T_DOUBLE_QUOTE | T_BACKTICK | T_ENCAPSED_AND_WHITESPACE | T_DOLLAR_OPEN_CURLY_BRACES | T_CURLY_OPEN
  | T_STRING_VARNAME | T_NUM_STRING | T_HALT_COMPILER => false
  | _ => true
  end.
Inductive mode := Html | HtmlSeen | Php.
Fixpoint writable (m : mode) (ts : list Tok) : bool :=
  match m, ts with
  | _, [] => true
  | Html, T_INLINE_HTML :: ts' => writable HtmlSeen ts'
  | (Html | HtmlSeen), (T_OPEN_TAG | T_OPEN_TAG_WITH_ECHO) :: ts' => writable Php ts'
  | (Html | HtmlSeen), _ => false
  | Php, T_CLOSE_TAG :: ts' => writable Html ts'
  | Php, k :: ts' => plainTok k && writable Php ts'
  end.

(** What PHP reads and the lexer does not: the quirks of C68. *)
Inductive phpPiece (cc : CharClass) :
  list place -> list (Tok * qstring) -> qstring -> list place -> qstring -> Prop :=
| pp_piece st ts text st' r : piece cc st ts text st' r -> phpPiece cc st ts text st' r
(* any expression may stand in "${..}" *)
| pp_dollar_curly p st r : isString p -> (forall c s, r = c :: s -> ~ identStart cc c) ->
    phpPiece cc (p :: st) [(T_DOLLAR_OPEN_CURLY_BRACES, str "${")] (str "${") (InBraces :: p :: st) r
(* "{$" opens code, whatever follows *)
| pp_curly p st r : isString p ->
    phpPiece cc (p :: st) [(T_CURLY_OPEN, str "{")] (str "{") (InBraces :: p :: st) (cDOLLAR :: r)
(* heredocs in the braces of a string *)
| pp_heredoc st w quote id r : hereBlanks w -> quote = [] \/ quote = [cDQ] -> docIdent cc id -> r <> [] ->
    phpPiece cc (InBraces :: st) [(T_START_HEREDOC, heredocStart w quote id)] (heredocStart w quote id)
      (InHeredoc id :: InBraces :: st) r
(* the name behind "->" is a name, also behind blanks *)
| pp_member st w name r : code st -> allBlank cc w -> ident cc name -> noIdent cc r ->
    phpPiece cc st [(T_OBJECT_OPERATOR, str "->"); (T_STRING, name)] (str "->" ++ w ++ name) st r
(* [yield from] in capitals *)
| pp_yield_from st name w word r : code st -> wholeWord cc name (w ++ word ++ r) -> sameWord cc name (str "yield") -> allBlank cc w ->
    sameWord cc word (str "from") -> noIdent cc r -> phpPiece cc st [(T_YIELD_FROM, name ++ w ++ word)] (name ++ w ++ word) st r.
Inductive phpSpells (cc : CharClass) : list place -> list (Tok * qstring) -> qstring -> Prop :=
| psp_html : phpSpells cc [InHtml] [] []
| psp_code : phpSpells cc [InCode; InHtml] [] []
| psp_piece st ts text st' r ts' : phpPiece cc st ts text st' r -> phpSpells cc st' ts' r ->
    phpSpells cc st (ts ++ ts') (text ++ r).

(** The text [doc] is split into other tokens than [ts]. *)
Definition misread (cc : CharClass) (doc : qstring) (ts : list (Tok * qstring)) : Prop :=
  exists f ps e, tokenize cc f doc initHtml 0 0 = Some (PDone (ps ++ [e])) /\ p_kind e = T_EOF /\
    map (fun p => (p_kind p, psymbol doc p)) ps <> ts.

(** Texts with these quirks. *)
Definition dollarText : qstring := str "<?php " ++ [cDQ] ++ str "${'a' /**/}" ++ [cDQ] ++ str " /**/; /**/".
Definition curlyText : qstring := str "<?php " ++ [cDQ] ++ str "{$$x /**/}" ++ [cDQ] ++ str " /**/; /**/".
Definition heredocText : qstring :=
  str "<?php " ++ [cDQ] ++ str "{$x /**/[ /**/<<<E" ++ [cNL] ++ str "b" ++ [cNL] ++ str "E" ++ [cNL] ++ str "] /**/}" ++ [cDQ] ++ str " /**/; /**/".
Definition memberText : qstring := str "<?php $x /**/-> list /**/; /**/".
Definition yieldText : qstring := str "<?php yield FROM /**/$x /**/; /**/".
