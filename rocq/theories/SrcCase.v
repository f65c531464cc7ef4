(** C68: a text with HTML, code, a string with variables and code in it, and a heredoc. *)
From Verif Require Export SrcFile PexSpec.
Open Scope nat_scope.
Local Notation cc := asciiCC.
Definition E0 : qstring := str "E".
Definition docParts : list (list (Tok * qstring) * qstring) :=
  [ ([(T_INLINE_HTML, str "hi ")], str "hi "); ([(T_OPEN_TAG, str "<?php ")], str "<?php ");
    ([(T_DOUBLE_QUOTE, [cDQ])], [cDQ]);
    ([(T_ENCAPSED_AND_WHITESPACE, str "a ")], str "a "); ([(T_VARIABLE, str "$x")], str "$x");
    ([(T_LBRACKET, str "["); (T_NUM_STRING, str "10"); (T_RBRACKET, str "]")], str "[10]");
    ([(T_VARIABLE, str "$x")], str "$x"); ([(T_OBJECT_OPERATOR, str "->"); (T_STRING, str "list")], str "->list");
    ([(T_ENCAPSED_AND_WHITESPACE, str "\$y")], str "\$y");
    ([(T_CURLY_OPEN, str "{")], str "{"); ([(T_VARIABLE, str "$x")], str "$x");
    ([(T_OBJECT_OPERATOR, str "->"); (T_STRING, str "for")], str "->for"); ([(T_RBRACE, str "}")], str "}");
    ([(T_DOUBLE_QUOTE, [cDQ])], [cDQ]); ([], gapText); ([(T_SEMICOLON, str ";")], str ";"); ([], gapText);
    ([(T_CLOSE_TAG, str "?>")], str "?>") ].
Definition docToks := flat_map fst docParts.
Definition docText : qstring := flat_map snd docParts.
Lemma doc_spells : spells cc [InHtml] docToks docText.
Proof.
  assert (IDX : ident cc (str "x")) by exact (ident_x cc asciiCC_ok).
  assert (NI : forall c s, (c < 128)%N -> asciiIdent c = false -> noIdent cc (c :: s)).
  { intros c s H E d s' Ed. injection Ed as <- _. apply (not_ident _ asciiCC_ok); assumption. }
  unfold docToks, docText.
  Ltac go st' := match goal with |- spells _ ?st (flat_map fst ((?ts, ?tx) :: ?l)) _ =>
     change (spells cc st (ts ++ flat_map fst l) (tx ++ flat_map snd l)); apply (sp_piece cc st ts tx st' (flat_map snd l) (flat_map fst l)) end.
  Ltac sk := match goal with |- spells _ ?st (flat_map fst ((?ts, ?tx) :: ?l)) _ =>
     change (spells cc st (flat_map fst l) (gapText ++ flat_map snd l)); apply (gap_spells cc asciiCC_ok); [exact code1|] end.
  unfold docParts.
  go [InHtml]; [apply (p_html cc 104%N (str "i ") (tl (tl (flat_map snd (tl docParts))))); [discriminate|]|].
  { split; [reflexivity|]. intros a b E. destruct a as [|? [|? a]]; [discriminate|discriminate|cbn; lia]. }
  go [InCode; InHtml]; [apply p_open; exists 112%N, 104%N, 112%N, 32%N; repeat split; reflexivity|].
  go [InQuotes; InCode; InHtml]; [apply p_quote; [exact code1|]|].
  { exists (str "a "), 120%N, (tl (tl (flat_map snd (skipn 4 docParts)))). split; [reflexivity|]. split; [repeat (constructor; [discriminate|discriminate|]); constructor|].
    right. split; [left; reflexivity|reflexivity]. }
  assert (W : within InQuotes [InCode; InHtml] [InQuotes; InCode; InHtml]) by (split; [exact I|auto]).
  assert (W' : within InQuotes [InCode; InHtml] (BehindVar :: [InQuotes; InCode; InHtml])) by (split; [exact I|auto]).
  Ltac nos := let E := fresh in intros [(? & ? & E & _)|[(? & ? & E & _)|(? & ? & E & ?)]]; first [discriminate E|injection E as <-; discriminate].
  go [InQuotes; InCode; InHtml]; [apply (p_text cc InQuotes [InCode; InHtml]); [exact W| |intros (id & E & _); discriminate|discriminate|discriminate]|].
  { apply t_char; [discriminate|nos|intros []|]. apply t_char; [discriminate|nos|intros []|]. apply t_stop; [|discriminate].
    left. exists 120%N, (tl (tl (flat_map snd (skipn 4 docParts)))). split; [reflexivity|]. right. split; [left; reflexivity|reflexivity]. }
  go [BehindVar; InQuotes; InCode; InHtml]; [apply (p_var cc InQuotes _ _ (str "x")); [exact W|exact IDX|apply NI; [reflexivity|reflexivity]]|].
  go [InQuotes; InCode; InHtml]; [apply (p_number cc InQuotes _ (str "10")); [exact I|discriminate|repeat constructor]|].
  go [BehindVar; InQuotes; InCode; InHtml]; [apply (p_var cc InQuotes _ _ (str "x")); [exact W|exact IDX|apply NI; [reflexivity|reflexivity]]|].
  go [InQuotes; InCode; InHtml]; [apply (p_prop cc InQuotes _ (str "list")); [exact I| |apply NI; [reflexivity|reflexivity]]|].
  { split; [eexists _, _; split; [reflexivity|split; [left; reflexivity|reflexivity]]|repeat (constructor; [left; reflexivity|]); constructor]. }
  go [InQuotes; InCode; InHtml]; [apply (p_text cc InQuotes [InCode; InHtml]); [exact W| |intros (id & E & _); discriminate|discriminate|discriminate]|].
  { apply t_pair; [intros []|]. apply t_char; [discriminate|nos|intros []|]. apply t_stop; [|discriminate].
    right. left. exists 120%N, (tl (tl (flat_map snd (skipn 10 docParts)))). split; [reflexivity|]. right. left. reflexivity. }
  go [InBraces; InQuotes; InCode; InHtml]; [apply (p_curly cc InQuotes _ 120%N (tl (tl (flat_map snd (skipn 10 docParts))))); [exact I|left; split; [left; reflexivity|reflexivity]]|].
  go [InBraces; InQuotes; InCode; InHtml]; [apply p_token; [apply code2|]; apply (x_variable cc (str "x")); [exact IDX|apply NI; [reflexivity|reflexivity]]|].
  go [InBraces; InQuotes; InCode; InHtml]; [apply (p_member cc _ (str "for")); [apply code2| |apply NI; [reflexivity|reflexivity]]|].
  { split; [eexists _, _; split; [reflexivity|split; [left; reflexivity|reflexivity]]|repeat (constructor; [left; reflexivity|]); constructor]. }
  go [InQuotes; InCode; InHtml]; [apply p_rbrace_in|].
  go [InCode; InHtml]; [apply p_unquote; exact W|].
  sk.
  go [InCode; InHtml]; [apply p_token; [exact code1|]; exact (op_lexeme cc asciiCC_ok (str ";") T_SEMICOLON (str "?>") (findWord_in operators T_SEMICOLON (str ";") eq_refl) eq_refl)|].
  sk.
  go [InHtml]; [apply p_close|]. constructor.
Qed.
#[local] Instance functions0 : Functions := closures 0.
Definition docProgram : list fi := [FSt SHtml; FSt SOpen;
  FSt (SExpr Semi (EString QDouble [BText; BOffset FNum; BProp; BText; BCurly (EProp EVar)])); FSt SClose].
Lemma doc_program : map fst docToks = sourceOf docProgram /\ forallb fiOk docProgram = true.
Proof. split; vm_compute; reflexivity. Qed.
