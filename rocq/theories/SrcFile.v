(** C68, part 7: from text to the program; and where it fails. *)
From Verif Require Export SrcProofs5 SrcPrint ParseModel StSpec FnProofs.
Open Scope nat_scope.

Lemma text_read d cc doc ts (fs : list (@fi (closures d))) : ascii_ok cc -> spaceNotLetter cc -> spells cc [InHtml] ts doc ->
  map fst ts = sourceOf fs -> forallb fiOk fs = true -> forall g,
  exists t n, sourceRead t = Some fs /\ forall f, n <= f -> exists ps e,
    tokenize cc f doc initHtml 0 0 = Some (PDone (ps ++ [e])) /\ p_kind e = T_EOF /\
    map (fun p => (p_kind p, psymbol doc p)) ps = ts /\
    parseFile g f (map p_kind ps) = Some (Accepted t []).
Proof.
  intros OK SL S E F g. destruct (text_tokens cc doc ts OK SL S) as [n1 H1]. destruct (source_readN d g fs F) as (t & R & n2 & H2).
  exists t, (n1 + n2). split; [exact R|]. intros f Hf. destruct (H1 f ltac:(lia)) as (ps & e & T & He & M).
  exists ps, e. split; [exact T|]. split; [exact He|]. split; [exact M|].
  assert (EK : map p_kind ps = sourceOf fs) by (rewrite <- E, <- M, map_map; reflexivity).
  rewrite EK. apply H2. lia.
Qed.
Lemma spelled_once cc doc ts ts' : ascii_ok cc -> spaceNotLetter cc -> spells cc [InHtml] ts doc -> spells cc [InHtml] ts' doc -> ts = ts'.
Proof.
  intros OK SL S S'. destruct (text_tokens cc doc ts OK SL S) as [n H]. destruct (text_tokens cc doc ts' OK SL S') as [n' H'].
  destruct (H (n + n') ltac:(lia)) as (ps & e & T & _ & M). destruct (H' (n + n') ltac:(lia)) as (ps' & e' & T' & _ & M').
  rewrite T in T'. injection T' as E. apply app_inj_tail in E. destruct E as [-> _]. congruence.
Qed.
Lemma program_text d cc (fs : list (@fi (closures d))) : ascii_ok cc -> spaceNotLetter cc -> forallb fiOk fs = true -> writable Html (sourceOf fs) = true ->
  exists doc ts, spells cc [InHtml] ts doc /\ map fst ts = sourceOf fs /\ forall g, exists t n, sourceRead t = Some fs /\ forall f, n <= f ->
    exists ps e, tokenize cc f doc initHtml 0 0 = Some (PDone (ps ++ [e])) /\ p_kind e = T_EOF /\
      map (fun p => (p_kind p, psymbol doc p)) ps = ts /\ parseFile g f (map p_kind ps) = Some (Accepted t []).
Proof.
  intros OK SL F W. destruct (every_spelled cc _ OK W) as (ts & doc & E & S). exists doc, ts. split; [exact S|]. split; [exact E|].
  intros g. exact (text_read d cc doc ts fs OK SL S E F g).
Qed.

(** ** Quirks *)
Fixpoint splitLast {A} (l : list A) : option (list A * A) :=
  match l with [] => None | [x] => Some ([], x) | x :: l' => match splitLast l' with Some (a, b) => Some (x :: a, b) | None => None end end.
Lemma splitLast_eq A (l : list A) a b : splitLast l = Some (a, b) -> l = a ++ [b].
Proof.
  revert a b. induction l as [|x l IH]; intros a b; [discriminate|]. cbn [splitLast]. destruct l as [|y l].
  - intros E. injection E as <- <-. reflexivity.
  - destruct (splitLast (y :: l)) as [[a' b']|] eqn:E'; [|discriminate]. intros E. injection E as <- <-. rewrite (IH _ _ eq_refl). reflexivity.
Qed.
Definition kinds (cc : CharClass) (f : nat) (doc : qstring) : option (list Tok) :=
  match tokenize cc f doc initHtml 0 0 with Some (PDone ps) => match splitLast ps with Some (a, e) => if isEOF (p_kind e) then Some (map p_kind a) else None | None => None end | _ => None end.
Lemma wrong_by cc f doc ks ts : kinds cc f doc = Some ks -> ks <> map fst ts -> misread cc doc ts.
Proof.
  unfold kinds. destruct (tokenize cc f doc initHtml 0 0) as [[ps|]|] eqn:T; try discriminate. destruct (splitLast ps) as [[a e]|] eqn:S; [|discriminate].
  destruct (isEOF (p_kind e)) eqn:He; [|discriminate]. intros E N. injection E as <-. exists f, a, e. rewrite (splitLast_eq _ _ _ _ S) in T. split; [exact T|].
  split; [destruct (p_kind e); try discriminate He; reflexivity|]. intros M. apply N. rewrite <- M, map_map. reflexivity.
Qed.

Lemma php_gap st ts r : code st -> phpSpells asciiCC st ts r -> phpSpells asciiCC st ts (gapText ++ r).
Proof.
  intros H S. change (gapText ++ r) with ([32%N] ++ str "/**/" ++ r). apply (psp_piece asciiCC st [] [32%N] st (str "/**/" ++ r) ts).
  - apply pp_piece, p_gap; [exact H|]. apply g_blanks; [discriminate|exact (blank_ok _ asciiCC_ok)|apply (comment_noBlank _ asciiCC_ok)].
  - apply (psp_piece asciiCC st [] (str "/**/") st r ts); [|exact S]. apply pp_piece, p_gap; [exact H|]. apply (g_block asciiCC [] r).
    intros (a & b & E). destruct a as [|x [|y a]]; discriminate.
Qed.
Lemma php_tok k st ts r : code st -> plainTok k = true -> modeOp k = false -> phpSpells asciiCC st ts r ->
  phpSpells asciiCC st ((k, spelling k) :: ts) (spelling k ++ gapText ++ r).
Proof.
  intros C P M S. apply (psp_piece asciiCC st [(k, spelling k)] (spelling k) st (gapText ++ r) ts); [|apply php_gap; assumption].
  apply pp_piece, p_token; [exact C|]. apply (spelling_lexeme _ asciiCC_ok); assumption.
Qed.
Lemma php_open ts r : phpSpells asciiCC [InCode; InHtml] ts r -> phpSpells asciiCC [InHtml] ((T_OPEN_TAG, str "<?php ") :: ts) (str "<?php " ++ r).
Proof.
  intros S. apply (psp_piece asciiCC [InHtml] [(T_OPEN_TAG, str "<?php ")] (str "<?php ") [InCode; InHtml] r ts); [|exact S].
  apply pp_piece, p_open. exists 112%N, 104%N, 112%N, 32%N. repeat split; reflexivity.
Qed.
Lemma code1 : code [InCode; InHtml]. Proof. exists [InHtml]. auto. Qed.
Lemma code2 st : code (InBraces :: st). Proof. exists st. auto. Qed.
Definition inQ := [InQuotes; InCode; InHtml].
Lemma php_quote ts r : varStart asciiCC cDQ r -> phpSpells asciiCC inQ ts r -> phpSpells asciiCC [InCode; InHtml] ((T_DOUBLE_QUOTE, [cDQ]) :: ts) ([cDQ] ++ r).
Proof.
  intros V S. apply (psp_piece asciiCC [InCode; InHtml] [(T_DOUBLE_QUOTE, [cDQ])] [cDQ] inQ r ts); [|exact S].
  apply pp_piece, p_quote; [exact code1|exact V].
Qed.
(** "}", the closing quote, ";". *)
Definition tailText : qstring := str "}" ++ [cDQ] ++ gapText ++ spelling T_SEMICOLON ++ gapText.
Definition tailToks : list (Tok * qstring) := [(T_RBRACE, str "}"); (T_DOUBLE_QUOTE, [cDQ]); (T_SEMICOLON, spelling T_SEMICOLON)].
Lemma php_semi : phpSpells asciiCC [InCode; InHtml] [(T_SEMICOLON, spelling T_SEMICOLON)] (spelling T_SEMICOLON ++ gapText).
Proof. rewrite <- (app_nil_r gapText). apply php_tok; [exact code1|reflexivity|reflexivity|constructor]. Qed.
Lemma php_tail : phpSpells asciiCC (InBraces :: inQ) tailToks tailText.
Proof.
  apply (psp_piece asciiCC (InBraces :: inQ) [(T_RBRACE, str "}")] (str "}") inQ _ [(T_DOUBLE_QUOTE, [cDQ]); (T_SEMICOLON, spelling T_SEMICOLON)]); [apply pp_piece, p_rbrace_in|].
  apply (psp_piece asciiCC inQ [(T_DOUBLE_QUOTE, [cDQ])] [cDQ] [InCode; InHtml] _ [(T_SEMICOLON, spelling T_SEMICOLON)]).
  - apply pp_piece, p_unquote. split; [exact I|left; reflexivity].
  - apply php_gap; [exact code1|exact php_semi].
Qed.
Lemma quirk doc : (exists doc' ts, doc' = doc /\ phpSpells asciiCC [InHtml] ts doc' /\ misread asciiCC doc ts) ->
  exists ts, phpSpells asciiCC [InHtml] ts doc /\ misread asciiCC doc ts.
Proof. intros (doc' & ts & -> & H). eauto. Qed.
Lemma dollar_expression : exists ts, phpSpells asciiCC [InHtml] ts dollarText /\ misread asciiCC dollarText ts.
Proof.
  set (d2 := spelling T_CONSTANT_ENCAPSED_STRING ++ gapText ++ tailText).
  assert (S2 : phpSpells asciiCC (InBraces :: inQ) ((T_CONSTANT_ENCAPSED_STRING, spelling T_CONSTANT_ENCAPSED_STRING) :: tailToks) d2).
  { apply php_tok; [apply code2|reflexivity|reflexivity|exact php_tail]. }
  assert (S1 : phpSpells asciiCC inQ ((T_DOLLAR_OPEN_CURLY_BRACES, str "${") :: (T_CONSTANT_ENCAPSED_STRING, spelling T_CONSTANT_ENCAPSED_STRING) :: tailToks) (str "${" ++ d2)).
  { apply (psp_piece asciiCC inQ [(T_DOLLAR_OPEN_CURLY_BRACES, str "${")] (str "${") (InBraces :: inQ) d2); [|exact S2].
    apply pp_dollar_curly; [exact I|]. intros c s E [[H|[H|[H|H]]] _]; injection E as <- _; try discriminate H. }
  apply quirk. eexists _, _. split; [reflexivity|]. split; [apply php_open, php_quote; [|exact S1]|].
  - exists [], cLBRACE, d2. split; [reflexivity|]. split; [constructor|auto].
  - eapply (wrong_by asciiCC 100); [vm_compute; reflexivity|discriminate].
Qed.
Lemma curly_dollar : exists ts, phpSpells asciiCC [InHtml] ts curlyText /\ misread asciiCC curlyText ts.
Proof.
  set (d3 := spelling T_VARIABLE ++ gapText ++ tailText).
  assert (S3 : phpSpells asciiCC (InBraces :: inQ) ((T_VARIABLE, spelling T_VARIABLE) :: tailToks) d3).
  { apply php_tok; [apply code2|reflexivity|reflexivity|exact php_tail]. }
  assert (S2 : phpSpells asciiCC (InBraces :: inQ) ((T_DOLLAR, str "$") :: (T_VARIABLE, spelling T_VARIABLE) :: tailToks) (str "$" ++ d3)).
  { apply (psp_piece asciiCC (InBraces :: inQ) [(T_DOLLAR, str "$")] (str "$") (InBraces :: inQ) d3); [|exact S3].
    apply pp_piece, p_token; [apply code2|]. apply x_dollar. intros c s E [[H|[H|[H|H]]] _]; injection E as <- _; try discriminate H. }
  assert (S1 : phpSpells asciiCC inQ ((T_CURLY_OPEN, str "{") :: (T_DOLLAR, str "$") :: (T_VARIABLE, spelling T_VARIABLE) :: tailToks) (str "{" ++ str "$" ++ d3)).
  { apply (psp_piece asciiCC inQ [(T_CURLY_OPEN, str "{")] (str "{") (InBraces :: inQ)); [|exact S2]. apply (pp_curly asciiCC InQuotes [InCode; InHtml] d3). exact I. }
  apply quirk. eexists _, _. split; [reflexivity|]. split; [apply php_open, php_quote; [|exact S1]|].
  - exists (str "{$"), 120%N, (gapText ++ tailText). split; [reflexivity|]. split; [repeat (constructor; [discriminate|discriminate|]); constructor|].
    right. split; [left; reflexivity|reflexivity].
  - eapply (wrong_by asciiCC 100); [vm_compute; reflexivity|discriminate].
Qed.
Lemma braces_heredoc : exists ts, phpSpells asciiCC [InHtml] ts heredocText /\ misread asciiCC heredocText ts.
Proof.
  set (here := heredocStart [] [] (str "E")).
  set (d4 := str "E" ++ [cNL] ++ spelling T_RBRACKET ++ gapText ++ tailText).
  assert (S4 : phpSpells asciiCC (InHeredoc (str "E") :: InBraces :: inQ) ((T_END_HEREDOC, str "E") :: (T_RBRACKET, spelling T_RBRACKET) :: tailToks) d4).
  { apply (psp_piece asciiCC (InHeredoc (str "E") :: InBraces :: inQ) [(T_END_HEREDOC, str "E")] (str "E") (InBraces :: inQ)).
    - apply pp_piece, p_end_heredoc; [split; [exact I|left; reflexivity]|]. eexists. left. reflexivity.
    - apply (psp_piece asciiCC (InBraces :: inQ) [] [cNL] (InBraces :: inQ)).
      + apply pp_piece, p_gap; [apply code2|]. apply g_blanks; [discriminate|repeat constructor|]. intros c s E. injection E as <- _. reflexivity.
      + apply php_tok; [apply code2|reflexivity|reflexivity|exact php_tail]. }
  set (d3 := str "b" ++ [cNL] ++ d4).
  assert (S3 : phpSpells asciiCC (InHeredoc (str "E") :: InBraces :: inQ) ((T_ENCAPSED_AND_WHITESPACE, str "b" ++ [cNL]) :: (T_END_HEREDOC, str "E") :: (T_RBRACKET, spelling T_RBRACKET) :: tailToks) d3).
  { unfold d3. rewrite app_assoc. apply (psp_piece asciiCC (InHeredoc (str "E") :: InBraces :: inQ) [(T_ENCAPSED_AND_WHITESPACE, str "b" ++ [cNL])] (str "b" ++ [cNL]) (InHeredoc (str "E") :: InBraces :: inQ) d4); [|exact S4].
    apply pp_piece, (p_text asciiCC (InHeredoc (str "E")) (InBraces :: inQ)); [split; [exact I|left; reflexivity]| | |discriminate|discriminate].
    - apply (t_char asciiCC (InHeredoc (str "E")) 98%N [cNL]); [discriminate| | |].
      + intros [(c & r & E & _)|[(c & r & E & _)|(q & r & Eq & E)]]; discriminate.
      + intros (r & E & _). discriminate.
      + apply t_last. eexists. split; [reflexivity|]. eexists. left. reflexivity.
    - intros (id & E & D). injection E as <-. destruct D as [x [D|D]]; discriminate. }
  assert (S2 : phpSpells asciiCC (InBraces :: inQ) ((T_START_HEREDOC, here) :: (T_ENCAPSED_AND_WHITESPACE, str "b" ++ [cNL]) :: (T_END_HEREDOC, str "E") :: (T_RBRACKET, spelling T_RBRACKET) :: tailToks) (here ++ d3)).
  { apply (psp_piece asciiCC (InBraces :: inQ) [(T_START_HEREDOC, here)] here (InHeredoc (str "E") :: InBraces :: inQ) d3); [|exact S3].
    apply pp_heredoc; [constructor|left; reflexivity| |discriminate]. split; [|constructor; [left; reflexivity|constructor]].
    eexists _, _. split; [reflexivity|]. left; reflexivity. }
  set (d1 := spelling T_VARIABLE ++ gapText ++ spelling T_LBRACKET ++ gapText ++ here ++ d3).
  assert (S1 : phpSpells asciiCC (InBraces :: inQ) ((T_VARIABLE, spelling T_VARIABLE) :: (T_LBRACKET, spelling T_LBRACKET) :: (T_START_HEREDOC, here) :: (T_ENCAPSED_AND_WHITESPACE, str "b" ++ [cNL]) :: (T_END_HEREDOC, str "E") :: (T_RBRACKET, spelling T_RBRACKET) :: tailToks) d1).
  { unfold d1. apply php_tok; [apply code2|reflexivity|reflexivity|]. apply php_tok; [apply code2|reflexivity|reflexivity|exact S2]. }
  apply quirk. eexists _, _. split; [reflexivity|]. split; [apply php_open, php_quote; [|apply (psp_piece asciiCC inQ [(T_CURLY_OPEN, str "{")] (str "{") (InBraces :: inQ) d1); [apply (pp_curly asciiCC InQuotes [InCode; InHtml]); exact I|exact S1]]|].
  - exists (str "{"), 120%N, (tl (tl d1)). split; [reflexivity|]. split; [repeat (constructor; [discriminate|discriminate|]); constructor|].
    right. split; [left; reflexivity|reflexivity].
  - eapply (wrong_by asciiCC 200); [vm_compute; reflexivity|discriminate].
Qed.
Lemma member_blank : exists ts, phpSpells asciiCC [InHtml] ts memberText /\ misread asciiCC memberText ts.
Proof.
  assert (S2 : phpSpells asciiCC [InCode; InHtml] ([(T_OBJECT_OPERATOR, str "->"); (T_STRING, str "list")] ++ [(T_SEMICOLON, spelling T_SEMICOLON)]) ((str "->" ++ [32%N] ++ str "list") ++ gapText ++ spelling T_SEMICOLON ++ gapText)).
  { apply (psp_piece asciiCC [InCode; InHtml] [(T_OBJECT_OPERATOR, str "->"); (T_STRING, str "list")] (str "->" ++ [32%N] ++ str "list") [InCode; InHtml]).
    - apply pp_member; [exact code1|repeat constructor| |].
      + split; [eexists _, _; split; [reflexivity|split; [left; reflexivity|reflexivity]]|repeat (constructor; [left; reflexivity|]); constructor].
      + exact (gap_ident asciiCC asciiCC_ok _).
    - apply php_gap; [exact code1|exact php_semi]. }
  apply quirk. eexists _, _. split; [reflexivity|]. split; [apply php_open, (php_tok T_VARIABLE); [exact code1|reflexivity|reflexivity|exact S2]|].
  eapply (wrong_by asciiCC 100); [vm_compute; reflexivity|discriminate].
Qed.
Lemma yield_FROM : exists ts, phpSpells asciiCC [InHtml] ts yieldText /\ misread asciiCC yieldText ts.
Proof.
  apply quirk. eexists _, _. split; [reflexivity|]. split; [apply php_open, (psp_piece asciiCC [InCode; InHtml] [(T_YIELD_FROM, str "yield" ++ [32%N] ++ str "FROM")] (str "yield" ++ [32%N] ++ str "FROM") [InCode; InHtml]); [|apply php_gap; [exact code1|apply (php_tok T_VARIABLE); [exact code1|reflexivity|reflexivity|exact php_semi]]]|].
  - apply pp_yield_from; [exact code1|apply (ascii_word _ asciiCC_ok); [reflexivity|]|reflexivity|repeat constructor|reflexivity|exact (gap_ident asciiCC asciiCC_ok _)].
    intros c s E. injection E as <- _. apply (not_ident _ asciiCC_ok); [lia|reflexivity].
  - eapply (wrong_by asciiCC 100); [vm_compute; reflexivity|discriminate].
Qed.
