(** C71: the text is read as the method. *)
From Coq Require Import List Bool Lia.
From Verif Require Import ClsSpec OvrModel OvrSpec.
From Verif Require Import Chars LexModel TokModel ParseModel SrcSpec PexSpec StSpec SrcPrint OvrSpec2.
Import ListNotations.
Open Scope nat_scope.

Section S.
Variable cc : CharClass.
Hypothesis OK : ascii_ok cc.

Lemma codeIn : code inCode. Proof. exists [InHtml]. now left. Qed.
Lemma tok k s ts r : lexeme cc k s r -> spells cc inCode ts r -> spells cc inCode ((k, s) :: ts) (s ++ r).
Proof. intros L S. apply (sp_piece cc inCode [(k, s)] s inCode r ts); [apply p_token; [exact codeIn|exact L]|exact S]. Qed.
Lemma blanks w ts r : allBlank cc w -> noBlank cc r -> spells cc inCode ts r -> spells cc inCode ts (w ++ r).
Proof.
  intros B N S. destruct w as [|c w]; [exact S|]. apply (sp_piece cc inCode [] (c :: w) inCode r ts); [|exact S].
  apply p_gap; [exact codeIn|]. apply g_blanks; [discriminate|exact B|exact N].
Qed.
Lemma blank1 : allBlank cc [cSP].
Proof. exact (blank_ok cc OK). Qed.
Lemma open_brace ts r : spells cc inCode ts r -> spells cc inCode ((T_LBRACE, str "{") :: ts) (str "{" ++ r).
Proof. intros S. apply (sp_piece cc inCode [(T_LBRACE, str "{")] _ inCode r ts); [apply p_lbrace|exact S]. Qed.
Lemma close_brace ts r : spells cc inCode ts r -> spells cc inCode ((T_RBRACE, str "}") :: ts) (str "}" ++ r).
Proof. intros S. apply (sp_piece cc inCode [(T_RBRACE, str "}")] _ inCode r ts); [apply p_rbrace|exact S]. Qed.

(** Operators that are no part of longer ones. *)
Definition extends (op : qstring) (r : qstring) : bool :=
  existsb (fun x => match skipn (List.length op) (fst x) with
                    | [] => false
                    | c :: _ => eqs (firstn (List.length op) (fst x)) op && match r with d :: _ => N.eqb c d | [] => false end
                    end) operators.
Lemma op_lex op k r : In (op, k) operators -> modeOp k = false -> extends op r = false -> hd 0%N op <> 46%N -> hd 0%N op <> 47%N -> hd 0%N op <> 60%N ->
  lexeme cc k op r.
Proof.
  intros H M X N1 N2 N3. apply x_operator; [|exact M|].
  - split; [exact H|]. split; [eauto|]. intros op2 k2 r2 H2 E.
    destruct (le_lt_dec (List.length op2) (List.length op)) as [L|L]; [exact L|exfalso].
    assert (F : firstn (List.length op) op2 = op).
    { apply (f_equal (firstn (List.length op))) in E. rewrite !firstn_app, Nat.sub_diag, firstn_all in E. cbn [firstn] in E.
      rewrite app_nil_r in E. replace (List.length op - List.length op2) with 0 in E by lia. cbn [firstn] in E. now rewrite app_nil_r in E. }
    pose proof (firstn_skipn (List.length op) op2) as FS. rewrite F in FS. destruct (skipn (List.length op) op2) as [|c x] eqn:SK.
    { rewrite app_nil_r in FS. subst op2. lia. }
    rewrite <- FS, <- app_assoc in E. apply app_inv_head in E. subst r.
    assert (T : extends op ((c :: x) ++ r2) = true).
    { unfold extends. apply existsb_exists. exists (op2, k2). split; [exact H2|]. cbn [fst]. rewrite SK, F. cbn [app]. rewrite N.eqb_refl, andb_true_r. now apply eqs_eq. }
    congruence.
  - intros [[x N]|(d & x & E & D)].
    + destruct op as [|c op]; [repeat (destruct H as [H|H]; [discriminate H|]); destruct H|]. cbn in N1, N2, N3, N.
      destruct N as [N|[N|N]]; injection N as N _; congruence.
    + destruct op as [|c op]; [repeat (destruct H as [H|H]; [discriminate H|]); destruct H|]. cbn in N1, E. injection E as E _. congruence.
Qed.
Lemma comma_lex r : lexeme cc T_COMMA (str ",") r.
Proof. apply op_lex; try discriminate; [apply findWord_in; reflexivity|reflexivity|destruct r; reflexivity]. Qed.
Lemma rparen_lex r : lexeme cc T_RPAREN (str ")") r.
Proof. apply op_lex; try discriminate; [apply findWord_in; reflexivity|reflexivity|destruct r; reflexivity]. Qed.
Lemma semi_lex r : lexeme cc T_SEMICOLON (str ";") r.
Proof. apply op_lex; try discriminate; [apply findWord_in; reflexivity|reflexivity|destruct r; reflexivity]. Qed.
Lemma colons_lex r : lexeme cc T_PAAMAYIM_NEKUDOTAYIM (str "::") r.
Proof. apply op_lex; try discriminate; [apply findWord_in; reflexivity|reflexivity|destruct r; reflexivity]. Qed.
Lemma assign_lex r : lexeme cc T_ASSIGN (str "=") (cSP :: r).
Proof. apply op_lex; try discriminate; [apply findWord_in; reflexivity|reflexivity|reflexivity]. Qed.

(** [(] is no cast when a dollar comes before the next [)], or [)] follows. *)
Lemma paren_lex u v : ~ In cRPAREN u -> lexeme cc T_LPAREN (str "(") (u ++ cDOLLAR :: v).
Proof.
  intros N. apply x_paren. intros w1 word w2 tail k t E B1 L B2 _ _. cbn in E. injection E as E.
  replace ((w1 ++ word ++ w2 ++ [41%N]) ++ tail) with ((w1 ++ word ++ w2) ++ cRPAREN :: tail) in E by (rewrite <- !app_assoc; reflexivity).
  assert (A : forall c, In c (w1 ++ word ++ w2) -> c <> cDOLLAR).
  { intros c Hc ->. rewrite !in_app_iff in Hc. destruct Hc as [Hc|[Hc|Hc]].
    - unfold allBlank in B1. rewrite Forall_forall in B1. specialize (B1 _ Hc). rewrite (ok_space _ OK) in B1 by lia. discriminate.
    - unfold letters in L. rewrite Forall_forall in L. specialize (L _ Hc). rewrite (ok_letter _ OK) in L by lia. discriminate.
    - unfold allBlank in B2. rewrite Forall_forall in B2. specialize (B2 _ Hc). rewrite (ok_space _ OK) in B2 by lia. discriminate. }
  revert E A. generalize (w1 ++ word ++ w2) as m. clear - N. revert N. induction u as [|c u IH]; intros N m E A.
  - destruct m as [|d m]; cbn in E; [discriminate|]. injection E as <- _. exact (A _ (or_introl eq_refl) eq_refl).
  - destruct m as [|d m]; cbn in E; injection E as E1 E; [apply N; left; exact E1|subst d]. apply (IH (fun H => N (or_intror H)) m E). intros x Hx. apply A. now right.
Qed.
Lemma paren_lex0 v : lexeme cc T_LPAREN (str "(") (cRPAREN :: v).
Proof.
  apply x_paren. intros w1 word w2 tail k t E B1 L B2 Hin S. cbn in E. injection E as E. destruct w1 as [|c w1]; cbn in E.
  - destruct word as [|c word].
    + clear - S Hin. cbn in S. repeat (destruct Hin as [Hin|Hin]; [injection Hin as <- _; discriminate S|]). destruct Hin.
    + injection E as <- _. apply Forall_inv in L. cbv beta in L. rewrite (ok_letter _ OK) in L by lia. discriminate.
  - injection E as <- _. apply Forall_inv in B1. cbv beta in B1. rewrite (ok_space _ OK) in B1 by lia. discriminate.
Qed.

(** ** Words *)
Definition wordTok (k : Word) : Tok :=
  match k with WFunction => T_FUNCTION | WPrivate => T_PRIVATE | WPublic => T_PUBLIC | WProtected => T_PROTECTED
             | WStatic => T_STATIC | WAbstract => T_ABSTRACT | WFinal => T_FINAL | WVar => T_VAR | WConst => T_CONST end.
Definition solid (r : qstring) : Prop := exists c x, r = c :: x /\ isSpace cc c = false /\ c <> cCOLON.
Lemma solid_noBlank r : solid r -> noBlank cc r.
Proof. intros (c & x & -> & H & _) d y E. injection E as <- _. exact H. Qed.
Lemma sp_noIdent r : noIdent cc (cSP :: r).
Proof. intros c s E. injection E as <- _. apply (not_ident cc OK); [lia|reflexivity]. Qed.
Lemma word_lex k r : solid r -> lexeme cc (wordTok k) (wordText k) (cSP :: r).
Proof.
  intros H. assert (W : wholeWord cc (wordText k) (cSP :: r)).
  { apply (ascii_word cc OK); [destruct k; reflexivity|]. apply sp_noIdent. }
  destruct k; try (eapply x_keyword; [exact W|apply findWord_in; reflexivity|reflexivity|discriminate]).
  change (cSP :: r) with ([cSP] ++ r). apply x_static; [exact W|reflexivity|exact blank1|apply solid_noBlank; exact H|].
  destruct H as (c & x & -> & _ & H). intros y E. injection E as E _. auto.
Qed.
Lemma word_solid k r : solid (wordText k ++ r).
Proof.
  assert (X : exists c x, wordText k = c :: x /\ asciiLowerLetter c = true) by (destruct k; do 2 eexists; split; reflexivity).
  destruct X as (c & x & -> & L). exists c, (x ++ r). split; [reflexivity|]. unfold asciiLowerLetter in L. split; [|lia].
  rewrite (ok_space _ OK) by lia. unfold asciiSpace. lia.
Qed.
Definition wordToks (ws : list Word) : list (Tok * qstring) := map (fun k => (wordTok k, wordText k)) ws.
Lemma words_spell ws ts r : solid r -> spells cc inCode ts r ->
  spells cc inCode (wordToks ws ++ ts) (flat_map (fun k => wordText k ++ [cSP]) ws ++ r) /\ solid (flat_map (fun k => wordText k ++ [cSP]) ws ++ r).
Proof.
  intros H S. induction ws as [|k ws [IH SO]]; [auto|]. cbn [flat_map wordToks map app]. rewrite <- !app_assoc. split; [|apply word_solid].
  apply tok; [cbn [app]; apply word_lex; exact SO|]. apply blanks; [exact blank1|apply solid_noBlank; exact SO|exact IH].
Qed.

(** ** Parameters *)
Lemma name_lex name r : plainName cc name -> noIdent cc r -> lexeme cc T_STRING name r.
Proof. intros ((A & B & _) & C & D & E) N. apply x_name; try assumption. split; [exact A|split; [exact B|exact N]]. Qed.
Lemma name_solid name r : plainName cc name -> solid (name ++ r).
Proof.
  intros ((A & B & _) & _). destruct A as (c & x & -> & I & S). exists c, (x ++ r). split; [reflexivity|]. split; [exact S|].
  intros ->. destruct I as [I _]. apply (not_ident cc OK) in I; [auto|lia|reflexivity].
Qed.
Lemma first_noIdent c r : (c < 128)%N -> asciiIdent c = false -> noIdent cc (c :: r).
Proof. intros L A d s E. injection E as <- _. apply (not_ident cc OK); assumption. Qed.
Lemma ascii_noBlank c r : (c < 128)%N -> asciiSpace c = false -> noBlank cc (c :: r).
Proof. intros L A d s E. injection E as <- _. rewrite (ok_space _ OK) by exact L. exact A. Qed.

Section P.
Context {Fs : Functions}.
Lemma paramText_flat x : p_ref x = false -> p_variadic x = false ->
  paramText x = typeText (StSpec.p_type x) ++ T_VARIABLE :: optText T_ASSIGN (option_map text (p_default x)).
Proof. intros A B. unfold paramText. rewrite A, B. reflexivity. Qed.

(** What a parameter of the list looks like from the left. *)
Definition paramFront (s : qstring) : Prop := noBlank cc s /\ exists u v, s = u ++ cDOLLAR :: v /\ ~ In cRPAREN u.
Lemma param_spell p d x ts r : paramIs cc p d x -> before cCOMMA r \/ before cRPAREN r -> spells cc inCode ts r ->
  exists toks, map fst toks = paramText x /\
    spells cc inCode (toks ++ ts) (typedName p ++ defaultText d ++ r) /\ paramFront (typedName p ++ defaultText d ++ r).
Proof.
  intros [N (R1 & R2 & _) HT HD] HB S. rewrite (paramText_flat x R1 R2).
  assert (V : exists toks, map fst toks = T_VARIABLE :: optText T_ASSIGN (option_map text (p_default x)) /\
            spells cc inCode (toks ++ ts) (cDOLLAR :: p_name p ++ defaultText d ++ r)).
  { assert (V0 : noIdent cc r -> spells cc inCode ((T_VARIABLE, cDOLLAR :: p_name p) :: ts) (cDOLLAR :: p_name p ++ r)).
    { intros NI. change (cDOLLAR :: p_name p ++ r) with ((cDOLLAR :: p_name p) ++ r). apply tok; [apply x_variable; [exact N|exact NI]|exact S]. }
    assert (NR : noIdent cc r).
    { destruct HB as [(y & ->)|(y & ->)]; apply first_noIdent; reflexivity. }
    destruct d as [[|c d]|].
    - rewrite HD. exists [(T_VARIABLE, cDOLLAR :: p_name p)]. split; [reflexivity|]. cbn [defaultText app]. apply V0. exact NR.
    - destruct HD as (toks & e & -> & E & NB & RD). exists ((T_VARIABLE, cDOLLAR :: p_name p) :: (T_ASSIGN, str "=") :: toks). split; [cbn; now rewrite E|].
      specialize (RD ts r HB S). cbn [defaultText]. change (str " = ") with ([cSP] ++ str "=" ++ [cSP]). rewrite <- !app_assoc.
      change (cDOLLAR :: p_name p ++ ?x) with ((cDOLLAR :: p_name p) ++ x). cbn [app]. 
      change (36%N :: p_name p ++ 32%N :: str "=" ++ 32%N :: c :: d ++ r) with ((cDOLLAR :: p_name p) ++ [cSP] ++ str "=" ++ [cSP] ++ (c :: d) ++ r).
      apply tok; [apply x_variable; [exact N|apply sp_noIdent]|]. apply blanks; [exact blank1|apply ascii_noBlank; [reflexivity|reflexivity]|].
      apply tok; [apply assign_lex|]. apply blanks; [exact blank1| |exact RD]. intros a b E2. injection E2 as <- _. exact (NB c d eq_refl).
    - rewrite HD. exists [(T_VARIABLE, cDOLLAR :: p_name p)]. split; [reflexivity|]. cbn [defaultText app]. apply V0. exact NR. }
  destruct V as (tv & EV & SV). unfold typedName. destruct (HelpModel.p_type p) as [s|].
  - destruct HT as (toks & E & RD & NP & NE & NB). exists (toks ++ tv). split; [rewrite map_app, E, EV; reflexivity|].
    rewrite <- !app_assoc. cbn [app]. split.
    + apply RD; [eexists; reflexivity|]. change (cSP :: ?x) with ([cSP] ++ x).
      apply (blanks [cSP]); [exact blank1|apply ascii_noBlank; [reflexivity|reflexivity]|exact SV].
    + split.
      * destruct s as [|c s]; [congruence|]. intros a b E2. injection E2 as <- _. exact (NB c s eq_refl).
      * exists (s ++ [cSP]), (p_name p ++ defaultText d ++ r). split; [rewrite <- app_assoc; reflexivity|]. rewrite in_app_iff. intros [X|[X|[]]]; [auto|discriminate].
  - rewrite HT. exists tv. split; [exact EV|]. split; [exact SV|]. split.
    + apply ascii_noBlank; [reflexivity|reflexivity].
    + exists [], (p_name p ++ defaultText d ++ r). split; [reflexivity|intros []].
Qed.

Definition oneParam (pd : HelpModel.Param * option qstring) : qstring := typedName (fst pd) ++ defaultText (snd pd).
Lemma params_spell l xs ts r : Forall2 (fun pd x => paramIs cc (fst pd) (snd pd) x) l xs -> spells cc inCode ts (cRPAREN :: r) ->
  exists toks, map fst toks = paramsText xs /\
    spells cc inCode (toks ++ ts) (joinWith (str ", ") (map oneParam l) ++ cRPAREN :: r) /\
    (l = [] \/ paramFront (joinWith (str ", ") (map oneParam l) ++ cRPAREN :: r)).
Proof.
  intros H S. induction H as [|[p d] x l xs H HL IH].
  - exists []. split; [reflexivity|]. split; [exact S|now left].
  - destruct HL as [|q y l xs Hq HL].
    + destruct (param_spell p d x ts (cRPAREN :: r) H (or_intror (ex_intro _ _ eq_refl)) S) as (toks & E & SP & F).
      exists toks. split; [cbn; exact E|]. cbn [map joinWith oneParam fst snd]. unfold oneParam. cbn [fst snd]. rewrite <- app_assoc. auto.
    + destruct IH as (toks & E & SP & [F|F]); [discriminate|].
      assert (B : before cCOMMA (str ", " ++ joinWith (str ", ") (map oneParam (q :: l)) ++ cRPAREN :: r)) by (eexists; reflexivity).
      assert (S2 : spells cc inCode ((T_COMMA, str ",") :: toks ++ ts) (str ", " ++ joinWith (str ", ") (map oneParam (q :: l)) ++ cRPAREN :: r)).
      { change (str ", ") with (str "," ++ [cSP]) at 1. rewrite <- app_assoc. apply tok; [apply comma_lex|]. apply blanks; [exact blank1|apply F|exact SP]. }
      destruct (param_spell p d x _ _ H (or_introl B) S2) as (t1 & E1 & SP1 & F1).
      exists (t1 ++ (T_COMMA, str ",") :: toks). split; [|split; [|right]].
      * rewrite map_app. cbn [map fst]. rewrite E, E1. reflexivity.
      * rewrite <- app_assoc. cbn [app]. cbn [map joinWith]. unfold oneParam at 1. cbn [fst snd]. rewrite <- !app_assoc. exact SP1.
      * cbn [map joinWith]. unfold oneParam at 1. cbn [fst snd]. rewrite <- !app_assoc. exact F1.
Qed.
Lemma open_paren s r ts : s = [] \/ paramFront (s ++ cRPAREN :: r) -> spells cc inCode ts (s ++ cRPAREN :: r) ->
  spells cc inCode ((T_LPAREN, str "(") :: ts) (str "(" ++ s ++ cRPAREN :: r).
Proof.
  intros H S. apply tok; [|exact S]. destruct H as [->|[_ (u & v & -> & N)]]; [apply paren_lex0|apply paren_lex; exact N].
Qed.
Lemma signature_spell ps ds xs ts r : Forall2 (fun pd x => paramIs cc (fst pd) (snd pd) x) (withDefaults ps ds) xs -> spells cc inCode ts r ->
  exists toks, map fst toks = T_LPAREN :: paramsText xs ++ [T_RPAREN] /\ spells cc inCode (toks ++ ts) (signature ps ds ++ r).
Proof.
  intros H S. destruct (params_spell _ _ ((T_RPAREN, str ")") :: ts) r H) as (toks & E & SP & F).
  { change (cRPAREN :: r) with (str ")" ++ r). apply tok; [apply rparen_lex|exact S]. }
  exists ((T_LPAREN, str "(") :: toks ++ [(T_RPAREN, str ")")]). split; [cbn [map fst]; rewrite map_app, E; reflexivity|].
  unfold signature. fold oneParam. cbn [app]. rewrite <- !app_assoc. cbn [app]. change (str ")" ++ r) with (cRPAREN :: r). apply open_paren; [|exact SP].
  destruct F as [->|F]; [now left|now right].
Qed.

(** ** The call *)
Definition varParam (p : HelpModel.Param) : HelpModel.Param := {| p_name := p_name p; HelpModel.p_type := None |}.
Definition varX : param := {| StSpec.p_type := []; p_ref := false; p_variadic := false; p_default := None |}.
Lemma commas_vars n : commas (map text (repeat EVar n)) = paramsText (repeat varX n).
Proof.
  unfold paramsText. induction n as [|[|n] IH]; [reflexivity|reflexivity|].
  cbn [repeat map] in *. cbn [commas joined]. cbn [commas joined] in IH. rewrite <- IH. reflexivity.
Qed.
Lemma parent_name : plainName cc (str "parent").
Proof.
  split; [apply (ascii_word cc OK); [reflexivity|intros; discriminate]|]. split; [|split; apply (not_same cc OK); try reflexivity; discriminate].
  intros k t H. repeat (destruct H as [H|H]; [injection H as <- _; apply (not_same cc OK); [reflexivity|reflexivity|discriminate]|]). destruct H.
Qed.
Lemma call_spell name ps ts r : plainName cc name -> Forall (fun p => ident cc (p_name p)) ps -> spells cc inCode ts r ->
  exists toks, map fst toks = text (ESCall (repeat EVar (List.length ps))) ++ [T_SEMICOLON] /\
    spells cc inCode (toks ++ ts) (parentCall name ps ++ r) /\ solid (parentCall name ps ++ r).
Proof.
  intros HN HP S. set (l := map (fun p => (varParam p, @None qstring)) ps).
  assert (F : Forall2 (fun pd x => paramIs cc (fst pd) (snd pd) x) l (repeat varX (List.length ps))).
  { unfold l. clear - HP. induction HP as [|p ps H _ IH]; [constructor|]. cbn [map repeat List.length]. constructor; [|exact IH].
    constructor; cbn; auto. }
  assert (J : joinWith (str ", ") (map oneParam l) = joinWith (str ", ") (map (fun p => cDOLLAR :: p_name p) ps)).
  { f_equal. unfold l. rewrite map_map. apply map_ext. intros p. unfold oneParam, typedName. cbn. now rewrite app_nil_r. }
  destruct (params_spell _ _ ((T_RPAREN, str ")") :: (T_SEMICOLON, str ";") :: ts) (str ";" ++ r) F) as (toks & E & SP & FR).
  { change (cRPAREN :: ?x) with (str ")" ++ x). apply tok; [apply rparen_lex|]. apply tok; [apply semi_lex|exact S]. }
  rewrite J in SP, FR.
  exists ((T_STRING, str "parent") :: (T_PAAMAYIM_NEKUDOTAYIM, str "::") :: (T_STRING, name) :: (T_LPAREN, str "(") :: toks ++ [(T_RPAREN, str ")"); (T_SEMICOLON, str ";")]).
  split; [|split].
  - cbn [map fst text]. rewrite map_app, E, commas_vars. cbn [app map fst]. rewrite <- app_assoc. reflexivity.
  - unfold parentCall. change (str "parent::") with (str "parent" ++ str "::"). change (str ");") with (str ")" ++ str ";"). rewrite <- !app_assoc. cbn [app].
    apply tok; [apply name_lex; [exact parent_name|apply first_noIdent; reflexivity]|].
    apply tok; [apply colons_lex|]. apply tok; [apply name_lex; [exact HN|apply first_noIdent; reflexivity]|]. rewrite <- app_assoc. cbn [app].
    change (str ")" ++ str ";" ++ r) with (cRPAREN :: str ";" ++ r). apply open_paren; [|exact SP].
    destruct FR as [FR|FR]; [left; unfold l in FR; destruct ps; [reflexivity|discriminate]|now right].
  - unfold parentCall. change (str "parent::") with (str "parent" ++ str "::"). rewrite <- !app_assoc. apply name_solid. exact parent_name.
Qed.
End P.
End S.
