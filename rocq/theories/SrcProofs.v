(** C68, part 1: states of the lexer at the places of a text; pieces of code. *)
From Verif Require Export SrcSpec LexFun7.
Open Scope nat_scope.

Section F.
Variable cc : CharClass.
Hypothesis OK : ascii_ok cc.
Variable content : qstring.

(** ** The identifier of a heredoc changes only in plain code *)
Definition sameId (id : qstring) (x : option Out) := forall o, x = Some o -> o_id o = id.
Ltac ki := repeat (cbv beta zeta;
  match goal with
  | |- sameId _ (simple _ _ _ _) => let o := fresh in let E := fresh in intros o E; injection E as <-; reflexivity
  | |- sameId _ (Some _) => let o := fresh in let E := fresh in intros o E; injection E as <-; reflexivity
  | |- sameId _ None => let o := fresh in let E := fresh in intros o E; discriminate E
  | |- sameId _ (match ?x with _ => _ end) => destruct x
  end).
Lemma less_id q id it : sameId id (lexLess cc (StringVariableCurly :: q) id it).
Proof.
  unfold lexLess. cbn [stateAt nth_error]. destruct (isC it 1 60) as [[|]|]; [|ki|ki].
  replace (isC it 2 60 &&& Some (negb (stIs StringVariableCurly StringVariableCurly))) with (option_map (fun _ => false) (isC it 2 60)) by (destruct (isC it 2 60) as [[|]|]; reflexivity).
  destruct (isC it 2 60); cbn [option_map]; ki.
Qed.
Lemma handler_id s q id b it : s <> DefaultState -> sameId id (handler cc (s :: q) id b it).
Proof.
  intros Hs. unfold handler. cbn [stateAt nth_error].
  assert (HD : s = StringVariableCurly -> sameId id (lexDefault cc (s :: q) id b it)).
  { intros ->. unfold lexDefault. destruct (peek it 0) as [c|]; [|ki]. cbn [stateAt nth_error].
    repeat match goal with
    | |- sameId _ (lexLess _ _ _ _) => apply less_id
    | |- sameId _ (lexNumber _ _ _ _) => unfold lexNumber; ki
    | |- sameId _ (lexParen _ _ _ _) => unfold lexParen; ki
    | |- sameId _ (lexIdent _ _ _ _) => unfold lexIdent; ki
    | |- sameId _ (lexQuestion _ _ _) => unfold lexQuestion; ki
    | |- sameId _ (lexBang _ _ _) => unfold lexBang; ki
    | |- sameId _ (lexGreater _ _ _) => unfold lexGreater; ki
    | |- sameId _ (lexColon _ _ _) => unfold lexColon; ki
    | |- sameId _ (lexArrow _ _ _ _) => unfold lexArrow; ki
    | |- sameId _ (lexOpAssign _ _ _ _ _) => unfold lexOpAssign; ki
    | |- sameId _ (lexSlash _ _ _ _) => unfold lexSlash; ki
    | |- sameId _ (lexHash _ _ _ _) => unfold lexHash; ki
    | |- sameId _ (lexStar _ _ _) => unfold lexStar; ki
    | |- sameId _ (lexDouble _ _ _ _ _ _ _) => unfold lexDouble; ki
    | |- sameId _ (lexDot _ _ _) => unfold lexDot; ki
    | |- sameId _ (lexSQ _ _ _ _) => unfold lexSQ; ki
    | |- sameId _ (lexDQ _ _ _ _ _) => unfold lexDQ; ki
    | |- sameId _ (lexEqual _ _ _) => unfold lexEqual; ki
    | |- sameId _ (simple _ _ _ _) => ki
    | |- sameId _ (Some _) => ki
    | |- sameId _ None => ki
    | |- sameId _ (match ?x with _ => _ end) => destruct x
    end. }
  destruct s; try congruence; try (apply HD; reflexivity).
  - ki.
  - unfold lexHtml; ki.
  - unfold lexString; ki.
  - unfold lexString; ki.
  - unfold lexBracket; ki.
  - unfold lexObjOp; ki.
  - unfold lexVarname; ki.
  - unfold lexString; ki.
  - unfold lexString; ki.
  - unfold lexNowdoc; ki.
Qed.
Lemma next_id l l' t nl s q : nextToken cc content l = Some (l', t, nl) -> lx_st l = s :: q -> s <> DefaultState -> lx_id l' = lx_id l.
Proof.
  unfold nextToken. intros H Hs Hn. destruct (_ <=? _); [injection H as <- _ _; reflexivity|].
  rewrite Hs in H. pose proof (handler_id s q (lx_id l) (rev (firstn (lx_pos l) content)) (skipn (lx_pos l) content) Hn) as HK.
  destruct (handler _ _ _ _ _) as [o|]; [|discriminate]. specialize (HK o eq_refl).
  destruct (_ <? _); [injection H as <- _ _; exact HK|]. destruct (haltStep _ _) as [tk h]. injection H as <- _ _. exact HK.
Qed.
Lemma next_halt l l' t nl : nextToken cc content l = Some (l', t, nl) -> lx_halt l = 0 -> t_kind t <> T_HALT_COMPILER -> lx_halt l' = 0.
Proof.
  unfold nextToken. intros H Hh Hk. destruct (_ <=? _); [injection H as <- _ _; exact Hh|].
  destruct (handler _ _ _ _ _) as [o|]; [|discriminate].
  destruct (_ <? _); [injection H as <- _ _; exact Hh|]. rewrite Hh in H. destruct (haltStep 0 (o_tok o)) as [tk h] eqn:E.
  injection H as <- <- _. cbn in Hk |- *. unfold haltStep in E. cbn in E.
  destruct (o_tok o); injection E as <- <-; try reflexivity; congruence.
Qed.

(** ** The lexer at a place *)
Definition stateOf (p : place) : LState :=
  match p with
  | InHtml => HtmlState | InCode => DefaultState | InBraces => StringVariableCurly | InQuotes => SString
  | InBackticks => StringBacktick | InHeredoc _ => StringHeredoc | BehindVar => StringVariable
  end.
Definition states (st : list place) : list LState := map stateOf st ++ [ErrorState].
(** What stands in front of the lexer, last character first. *)
Definition before (l : LexState) : list N := rev (firstn (lx_pos l) content).
Record stands (st : list place) (rest : qstring) (l : LexState) : Prop := {
  s_reach : exists l0, initial l0 /\ reachable cc content l0 l;
  s_halt : lx_halt l = 0;
  s_rest : remaining content l = rest;
  s_states : lx_st l = states st;
  s_id : forall id, In (InHeredoc id) st -> lx_id l = id /\ docIdent cc id;
  s_before : forall p st', within p st' st -> oddBackslashes (before l) = Some false
}.

Lemma stands_inv st rest l : stands st rest l -> LInv cc content l.
Proof. intros H. destruct (s_reach _ _ _ H) as [l0 [Hi Hr]]. now apply (reachable_inv cc OK content l0). Qed.
Lemma stands_at p st rest l : stands (p :: st) rest l -> at_ cc content (stateOf p) l rest.
Proof.
  intros H. split; [exact (s_reach _ _ _ H)|]. split; [rewrite (s_halt _ _ _ H); discriminate|].
  split; [|exact (s_rest _ _ _ H)]. exists (states st). exact (s_states _ _ _ H).
Qed.
Lemma stands_php st rest l : code st -> stands st rest l -> inPhp cc content l rest.
Proof. intros [st' [-> | ->]] H; [left|right]; exact (stands_at _ _ _ _ H). Qed.
(** Plain code stands in no string. *)
Lemma code_bottom st rest l : stands (InCode :: st) rest l -> st = [InHtml].
Proof.
  intros H. pose proof (inv_wf _ _ _ _ _ (stands_inv _ _ _ H)) as W. rewrite (s_states _ _ _ H) in W. cbn in W.
  destruct st as [|[] [|? ?]]; cbn in W; try discriminate W; auto.
  - destruct p; discriminate.
Qed.

Lemma yields_before l k text r l' : remaining content l = text ++ r -> yields cc content l k text r l' ->
  before l' = rev text ++ before l.
Proof.
  intros H (t & nl & _ & _ & _ & H'). unfold before. rewrite <- rev_app_distr. f_equal. unfold remaining in *.
  assert (E : content = firstn (lx_pos l) content ++ text ++ r) by (rewrite <- H; symmetry; apply firstn_skipn).
  assert (E' : content = firstn (lx_pos l') content ++ r) by (rewrite <- H'; symmetry; apply firstn_skipn).
  rewrite E in E' at 1. rewrite app_assoc in E'. apply app_inv_tail in E'. symmetry. exact E'.
Qed.

Lemma step st st' text r l k l' : stands st (text ++ r) l -> yields cc content l k text r l' -> k <> T_HALT_COMPILER ->
  lx_st l' = states st' ->
  (forall id, In (InHeredoc id) st' -> In (InHeredoc id) st /\ (forall x, st <> InCode :: x) \/ (lx_id l' = id /\ docIdent cc id)) ->
  (forall p x, within p x st' -> oddBackslashes (rev text ++ before l) = Some false) ->
  stands st' r l'.
Proof.
  intros H Y Hk Hs Hid Hb. pose proof (yields_before _ _ _ _ _ (s_rest _ _ _ H) Y) as EB.
  destruct Y as (t & nl & N & K & _ & R). constructor.
  - destruct (s_reach _ _ _ H) as [l0 [Hi Hr]]. exists l0. split; [exact Hi|]. eapply reach_step; eauto.
  - eapply next_halt; [exact N|exact (s_halt _ _ _ H)|congruence].
  - exact R.
  - exact Hs.
  - intros id Hin. destruct (Hid id Hin) as [[Hin' Hn]|G]; [|exact G].
    destruct (s_id _ _ _ H id Hin') as [E D]. split; [|exact D]. rewrite <- E.
    destruct st as [|p st]; [destruct Hin'|]. eapply (next_id l l' t nl (stateOf p) (states st)).
    + exact N.
    + exact (s_states _ _ _ H).
    + destruct p; try discriminate. exfalso. eapply Hn. reflexivity.
  - intros p x W. rewrite EB. eapply Hb. exact W.
Qed.
(** Staying where one is. *)
Lemma step_same st text r l k l' : code st -> stands st (text ++ r) l -> yields cc content l k text r l' -> k <> T_HALT_COMPILER ->
  lx_st l' = lx_st l -> stands st r l'.
Proof.
  intros C H Y Hk Hs. eapply step; [exact H|exact Y|exact Hk|rewrite Hs; exact (s_states _ _ _ H)| |].
  - intros id Hin. left. split; [exact Hin|]. intros x ->. rewrite (code_bottom _ _ _ H) in Hin. destruct Hin as [E|[E|[]]]; discriminate.
  - intros p x [Hp W]. exfalso. destruct C as [y [-> | ->]]; destruct W as [W|W]; injection W as W; subst; try discriminate; destruct Hp.
Qed.

(** ** Sequences of calls; blanks and comments are passed over *)
Definition skipped (k : Tok) : bool := match k with T_WHITESPACE | T_COMMENT | T_DOC_COMMENT => true | _ => false end.
Inductive emits : LexState -> list (Tok * qstring) -> LexState -> Prop :=
| em_nil l : emits l [] l
| em_skip l k text r l' ts l'' : yields cc content l k text r l' -> skipped k = true -> emits l' ts l'' -> emits l ts l''
| em_tok l k text r l' ts l'' : yields cc content l k text r l' -> skipped k = false -> k <> T_EOF -> emits l' ts l'' ->
    emits l ((k, text) :: ts) l''.
Lemma emits_app l ts l' ts' l'' : emits l ts l' -> emits l' ts' l'' -> emits l (ts ++ ts') l''.
Proof. induction 1; intros E; cbn; [exact E|eapply em_skip; eauto|eapply em_tok; eauto]. Qed.
Lemma emits_one l k text r l' : yields cc content l k text r l' -> skipped k = false -> k <> T_EOF -> emits l [(k, text)] l'.
Proof. intros. eapply em_tok; eauto. constructor. Qed.
Lemma emits_skip l k text r l' : yields cc content l k text r l' -> skipped k = true -> emits l [] l'.
Proof. intros. eapply em_skip; eauto. constructor. Qed.

Definition leads (st : list place) (ts : list (Tok * qstring)) (text : qstring) (st' : list place) (r : qstring) : Prop :=
  forall l, stands st (text ++ r) l -> exists l', emits l ts l' /\ stands st' r l'.

(** ** Blanks and comments *)
Lemma firstOcc_end body r : ~ contains (str "*/") (body ++ str "*") -> firstOcc (str "*/") (body ++ str "*/" ++ r) body r.
Proof.
  intros N. split; [reflexivity|]. intros a b E. destruct (Nat.le_gt_cases (List.length body) (List.length a)) as [|H]; [assumption|]. exfalso. apply N.
  exists a. assert (exists x, body = a ++ x) as [x ->].
  { exists (firstn (List.length body - List.length a) (str "*/" ++ b)).
    assert (E' : firstn (List.length body) (body ++ str "*/" ++ r) = firstn (List.length body) (a ++ str "*/" ++ b)) by congruence.
    rewrite firstn_app, Nat.sub_diag, firstn_all, firstn_O, app_nil_r in E'. rewrite firstn_app, (firstn_all2 a) in E' by lia. exact E'. }
  rewrite app_length in H. rewrite <- !app_assoc in E. apply app_inv_head in E. rewrite <- app_assoc. destruct x as [|x1 [|x2 x]]; cbn in H; [lia| |].
  - cbn in E. injection E as -> E. exists []. discriminate E.
  - cbn in E. injection E as -> -> _. eexists. reflexivity.
Qed.
Lemma lineEnd_eq s text r : lineEnd s text r -> s = text ++ r.
Proof. intros H. inversion H; subst; [now rewrite app_nil_r|reflexivity|now rewrite <- app_assoc]. Qed.
Lemma docEnd_eq s text r : docEnd cc s text r -> s = text ++ r.
Proof.
  induction 1; [now rewrite app_nil_r|reflexivity|now rewrite <- app_assoc|].
  rewrite <- !app_assoc. cbn. rewrite <- !app_assoc. cbn. do 2 f_equal. f_equal. do 2 f_equal. exact IHdocEnd.
Qed.
Lemma leads_gap st text r : code st -> gap cc text r -> leads st [] text st r.
Proof.
  intros C G l H. pose proof (stands_php _ _ _ C H) as P.
  assert (G' : exists k l', yields cc content l k text r l' /\ lx_st l' = lx_st l /\ skipped k = true).
  { destruct G as [w r Hn Hb Hr|body r N|s text r L|s text r Hs L|s text r L].
    - destruct (whitespace_token cc OK content l w r P Hn Hb Hr) as (l' & Y & S). exists T_WHITESPACE, l'. auto.
    - rewrite <- !app_assoc in P. destruct (block_closed cc OK content l _ body r P (firstOcc_end _ _ N)) as (l' & k & Y & S & K).
      exists k, l'. split; [exact Y|]. split; [exact S|]. destruct K as [[-> _]|[-> _]]; reflexivity.
    - rewrite <- (lineEnd_eq _ _ _ L) in P. destruct (line_hash cc OK content l s text r P L) as (l' & Y & S). exists T_COMMENT, l'. auto.
    - rewrite <- (lineEnd_eq _ _ _ L) in P. destruct (line_slashes cc OK content l s text r P Hs L) as (l' & Y & S). exists T_COMMENT, l'. auto.
    - rewrite <- (docEnd_eq _ _ _ L) in P. destruct (doc_slashes cc OK content l s text r P L) as (l' & Y & S). exists T_DOC_COMMENT, l'. auto. }
  destruct G' as (k & l' & Y & S & K). exists l'. split; [eapply emits_skip; eauto|].
  eapply step_same; [exact C|exact H|exact Y|destruct k; discriminate|exact S].
Qed.

(** ** Tokens of code *)
Lemma dollar_token l r : inPhp cc content l (36%N :: r) -> (forall c s, r = c :: s -> ~ identStart cc c) ->
  exists l', yields cc content l T_DOLLAR [36%N] r l' /\ lx_st l' = lx_st l.
Proof.
  intros Hp N. destruct (inPhp_state _ OK _ _ _ Hp) as [s [q [Hs Hm]]].
  edestruct (php_split cc OK content l [36%N] r) as [l' [HY [Hst _]]]; [exact Hp|discriminate| | |].
  - rewrite Hs. cbn [app]. unfold lexDefault. cbn [peek stateAt nth_error].
    rewrite (ok_space _ OK), (ok_digit _ OK) by lia. change (asciiSpace 36) with false. change (asciiDigit 36) with false.
    cbv iota. cbn [mOr mAnd]. change (36 =? 46)%N with false. cbn [mAnd]. cbv iota.
    unfold processVariable, isC, test. cbn [peek option_map]. change (36 =? 36)%N with true. cbn [mAnd].
    assert (E : option_map (isIdentStart cc) (peek r 0) = Some false).
    { destruct r as [|c r]; cbn; [now rewrite (isIdentStart_nul cc OK)|]. f_equal. apply not_true_iff_false. rewrite (identStart_spec cc). eapply N. reflexivity. }
    change (peek (36%N :: r) 1) with (peek r 0). rewrite E. reflexivity.
  - left. reflexivity.
  - exists l'. split; [exact HY|congruence].
Qed.
Hypothesis SL : spaceNotLetter cc.
Lemma lexeme_token k text r l : lexeme cc k text r -> inPhp cc content l (text ++ r) ->
  exists l', yields cc content l k text r l' /\ lx_st l' = lx_st l /\ skipped k = false /\ k <> T_EOF /\ k <> T_HALT_COMPILER.
Proof.
  intros X P.
  assert (G : (exists l', yields cc content l k text r l' /\ lx_st l' = lx_st l) /\ skipped k = false /\ k <> T_EOF /\ k <> T_HALT_COMPILER); [|destruct G as [(l' & Y & S) G]; exists l'; auto].
  assert (HF : forall v, skipped (intOrFloat v) = false /\ intOrFloat v <> T_EOF /\ intOrFloat v <> T_HALT_COMPILER).
  { intros v. unfold intOrFloat. destruct (v <=? phpIntMax)%N; repeat split; discriminate. }
  destruct X.
  - split; [eapply keyword_token; eauto|]. split; [|split; [|assumption]].
    + match goal with HIn : In _ phpKeywords |- _ => clear -HIn; cbn in HIn; repeat (destruct HIn as [HIn|HIn]; [injection HIn as _ <-; reflexivity|]); destruct HIn end.
    + match goal with HIn : In _ phpKeywords |- _ => clear -HIn; cbn in HIn; repeat (destruct HIn as [HIn|HIn]; [injection HIn as _ <-; discriminate|]); destruct HIn end.
  - split; [eapply ident_token; eauto|]. repeat split; discriminate.
  - split; [|repeat split; discriminate]. destruct (static_token cc OK content l name w r P) as (l' & k & Y & S & K); auto.
    destruct K as [[_ [x ->]]|[-> _]]; [exfalso; eapply H3; reflexivity|eauto].
  - split; [|repeat split; discriminate]. destruct (static_token cc OK content l name w (str "::" ++ r) P) as (l' & k & Y & S & K); auto.
    { intros c s E. injection E as <- _. rewrite (ok_space _ OK) by lia. reflexivity. }
    destruct K as [[-> _]|[_ N]]; [eauto|exfalso; apply N; eexists; reflexivity].
  - split; [|repeat split; discriminate]. eapply yield_token; eauto.
  - split; [|repeat split; discriminate]. rewrite <- !app_assoc in P. eapply yield_from_token; eauto.
  - split; [|repeat split; discriminate]. destruct H. eapply variable_token; eauto.
  - split; [|repeat split; discriminate]. apply dollar_token; auto.
  - split; [|apply HF]. eapply integer_token; eauto.
  - split; [|repeat split; discriminate]. eapply float_token; eauto.
  - split; [|repeat split; discriminate]. eapply float_exp_token; eauto.
    match goal with HE : [e] = _ \/ _ |- _ => destruct HE as [HE|HE]; injection HE as ->; auto end.
  - split; [|apply HF]. eapply hex_token; eauto.
    + match goal with HE : [x] = _ \/ _ |- _ => destruct HE as [HE|HE]; injection HE as ->; auto end.
    + intros b y ->. match goal with HB : forall y, _ /\ _ |- _ => destruct (HB y) as [H1' H2'] end. split; intros ->; [apply H1'|apply H2']; reflexivity.
  - split; [|repeat split; discriminate].
    match goal with HD : binDigits s ds, HL : List.length s <= 19 |- _ =>
      assert (HL' : List.length ds <= 19) by (destruct HD as [HD' _]; apply (f_equal (@List.length _)) in HD'; rewrite !map_length in HD'; lia);
      destruct (bin_small ds (proj2 HD) HL') as [E1 _] end.
    assert (Hb' : (b = 98 \/ b = 66)%N) by (destruct H as [Hb|Hb]; injection Hb as Hb; subst b; [left|right]; reflexivity).
    destruct (bin_token cc OK content l b s ds r P Hb') as [l' HY]; auto. rewrite E1 in HY. eauto.
  - split; [|repeat split; discriminate]. rewrite <- !app_assoc in P. eapply single_closed; eauto.
  - split; [|repeat split; discriminate]. rewrite <- !app_assoc in P. eapply double_closed; eauto.
  - split.
    + destruct (operator_token cc OK content l (op ++ r) op k r P) as (l' & Y & S); auto. eauto.
    + match goal with HL : longestOp _ _ _ |- _ => destruct HL as [HIn _]; clear -HIn; cbn in HIn; repeat (destruct HIn as [HIn|HIn]; [injection HIn as _ <-; repeat split; discriminate|]); destruct HIn end.
  - split; [|repeat split; discriminate]. eapply paren_token; eauto.
  - split; [eapply cast_token; eauto|].
    match goal with HIn : In _ castTypes |- _ => clear -HIn; cbn in HIn; repeat (destruct HIn as [HIn|HIn]; [injection HIn as _ <-; repeat split; discriminate|]); destruct HIn end.
Qed.
Lemma leads_token st k text r : code st -> lexeme cc k text r -> leads st [(k, text)] text st r.
Proof.
  intros C X l H. destruct (lexeme_token _ _ _ l X (stands_php _ _ _ C H)) as (l' & Y & S & K1 & K2 & K3).
  exists l'. split; [eapply emits_one; eauto|]. eapply step_same; eauto.
Qed.
End F.
