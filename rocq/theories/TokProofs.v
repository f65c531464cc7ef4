(** Proofs for C17 (proof file). *)
From Verif Require Export TokSpec LexRun3.
Open Scope nat_scope.

Section D.
Variable cc : CharClass.
Hypothesis OK : ascii_ok cc.

(** Doc comments are at least two characters long. *)
Definition docLong (e : option Out) : Prop := forall o, e = Some o -> o_tok o = T_DOC_COMMENT -> 2 <= o_len o.

Lemma dl_simple st id k n : k <> T_DOC_COMMENT -> docLong (simple st id k n).
Proof. intros H o E. injection E as <-. cbn. congruence. Qed.
Lemma dl_none : docLong None. Proof. intros o E. discriminate. Qed.
Lemma dl_some o : o_tok o <> T_DOC_COMMENT -> docLong (Some o).
Proof. intros H o' E. injection E as <-. congruence. Qed.

Ltac dl := repeat (
  first [ exact dl_none
        | apply dl_simple; discriminate
        | apply dl_some; cbn [o_tok]; discriminate
        | match goal with
          | |- docLong (match ?x with _ => _ end) => destruct x
          | |- docLong (simple _ _ (match ?x with _ => _ end) _) => destruct x
          end ]).

Lemma dl_html st id it : docLong (lexHtml cc st id it).
Proof. unfold lexHtml. dl. Qed.
Lemma dl_number st id it : docLong (lexNumber cc st id it).
Proof. unfold lexNumber. dl. Qed.
Lemma castTok_kind w : castTok cc w <> T_DOC_COMMENT.
Proof. unfold castTok. repeat match goal with |- context [if ?b then _ else _] => destruct b end; discriminate. Qed.
Lemma dl_paren st id it : docLong (lexParen cc st id it).
Proof.
  unfold lexParen. destruct (skipWhile (isSpace cc) (skipn 1 it) 1) as [p1 it2].
  destruct (skipWhile (isLetter cc) it2 p1) as [p2 it3]. destruct (skipWhile (isSpace cc) it3 p2) as [p3 it4].
  destruct (isC it4 0 41) as [[|]|]; [|dl|dl].
  pose proof (castTok_kind (firstn (p2 - p1) it2)). destruct (castTok cc (firstn (p2 - p1) it2)); try congruence; dl.
Qed.
Lemma dl_hereStart st id it : match lexHereStart cc st id it with Some (_, Some o) => o_tok o <> T_DOC_COMMENT | _ => True end.
Proof.
  unfold lexHereStart.
  repeat match goal with
  | |- match (match ?x with _ => _ end) with _ => _ end => destruct x; cbn [o_tok]; auto
  end; try discriminate; cbn; repeat match goal with |- context [if ?b then _ else _] => destruct b end; discriminate.
Qed.
Lemma dl_less st id it : docLong (lexLess cc st id it).
Proof.
  unfold lexLess. destruct (stateAt st 0); [|dl]. destruct (isC it 1 60) as [[|]|]; [|dl|dl].
  match goal with |- docLong (match (match ?x with _ => _ end) with _ => _ end) => destruct x as [[|]|] end; [|dl|dl].
  pose proof (dl_hereStart st id it) as H. destruct (lexHereStart cc st id it) as [[id' [o|]]|]; [|dl|dl].
  now apply dl_some.
Qed.

Lemma lineComment_len doc skip it i len nl : lineComment cc doc skip it i = Some (len, nl) -> i <= len.
Proof.
  revert skip i len nl. induction it as [|c t IH]; intros skip i len nl; cbn [lineComment].
  - intros H. injection H as <- _. lia.
  - destruct skip as [|k].
    + match goal with |- (match ?x with _ => _ end) = _ -> _ => destruct x as [[|]|]; [| |discriminate] end.
      { intros H. injection H as <- _. lia. }
      destruct (c =? 10)%N.
      * destruct (negb doc). { intros H. injection H as <- _. lia. }
        destruct (skipWhile _ t (S i)) as [j la].
        match goal with |- (match ?x with _ => _ end) = _ -> _ => destruct x as [[|]|]; [| |discriminate] end.
        -- destruct (lineComment cc doc _ t (S i)) as [[a b]|] eqn:E; [|discriminate].
           intros H. injection H as <- _. apply IH in E. lia.
        -- intros H. injection H as <- _. lia.
      * intros E. apply IH in E. lia.
    + intros E. apply IH in E. lia.
Qed.
Lemma blockLoop_len it i j nl : blockLoop it i = Some (j, nl) -> i <= j.
Proof.
  revert i j nl. induction it as [|c t IH]; intros i j nl; cbn [blockLoop].
  - intros H. injection H as <- _. lia.
  - match goal with |- (match ?x with _ => _ end) = _ -> _ => destruct x as [[|]|]; [| |discriminate] end.
    { intros H. injection H as <- _. lia. }
    destruct (blockLoop t (S i)) as [[a b]|] eqn:E; [|discriminate]. intros H. injection H as <- _. apply IH in E. lia.
Qed.

Lemma dl_slash st id r : docLong (lexSlash cc st id (47%N :: r)).
Proof.
  unfold lexSlash. destruct (isC (47%N :: r) 1 61) as [[|]|]; [dl| |dl].
  destruct (isC (47%N :: r) 1 47) as [[|]|] eqn:E1; [| |dl].
  - assert (Hr : exists t, r = 47%N :: t).
    { unfold isC, test in E1. destruct r as [|c t]; [discriminate|]. cbn in E1. injection E1 as E1. apply N.eqb_eq in E1. subst c. eauto. }
    destruct Hr as [t ->]. destruct (isC _ 2 47) as [doc|]; [|dl]. 
    assert (HL : forall len nl, lineComment cc doc 0 (47%N :: 47%N :: t) 0 = Some (len, nl) -> 2 <= len).
    { intros len nl. cbn [lineComment]. change (47 =? 63)%N with false. change (47 =? 10)%N with false. cbn [mAnd].
      destruct t; cbn [mAnd]; apply lineComment_len. }
    destruct (lineComment cc doc 0 (47%N :: 47%N :: t) 0) as [[len nl]|]; [|dl].
    intros o E. injection E as <-. cbn. intros _. eapply HL. reflexivity.
  - destruct (isC (47%N :: r) 1 42) as [[|]|]; [|dl|dl].
    match goal with |- docLong (match ?x with _ => _ end) => destruct x as [doc|]; [|dl] end.
    destruct (blockLoop (skipn 2 (47%N :: r)) 2) as [[j nl]|] eqn:E; [|dl]. apply blockLoop_len in E.
    intros o Eo. injection Eo as <-. cbn. intros _. lia.
Qed.

Lemma findKw_kind name t : findKw cc name = Some (KwTok t) -> t <> T_DOC_COMMENT.
Proof.
  assert (H : Forall (fun p => match snd p with KwTok t => negb (isBlankOrComment t) | _ => true end = true) keywords) by (repeat constructor).
  unfold findKw. intros E. destruct (find _ keywords) as [[k w]|] eqn:F; [|discriminate].
  apply find_some in F as [Hin _]. rewrite Forall_forall in H. specialize (H _ Hin). cbn in E, H. injection E as ->.
  intros ->. discriminate.
Qed.
Lemma dl_ident st id it : docLong (lexIdent cc st id it).
Proof.
  unfold lexIdent. destruct (skipWhile (isIdent cc) it 0) as [n rest].
  destruct (findKw cc (firstn n it)) as [[t| |]|] eqn:E; [|dl|dl|dl].
  apply dl_simple. eapply findKw_kind; eauto.
Qed.
Lemma dl_double st id it c td ta t : td <> T_DOC_COMMENT -> ta <> T_DOC_COMMENT -> t <> T_DOC_COMMENT -> docLong (lexDouble st id it c td ta t).
Proof. intros H1 H2 H3. unfold lexDouble. repeat match goal with |- docLong (match ?x with _ => _ end) => destruct x end; try apply dl_simple; auto; exact dl_none. Qed.
Lemma dl_opAssign st id it t ta : ta <> T_DOC_COMMENT -> t <> T_DOC_COMMENT -> docLong (lexOpAssign st id it t ta).
Proof. intros H1 H2. unfold lexOpAssign. repeat match goal with |- docLong (match ?x with _ => _ end) => destruct x end; try apply dl_simple; auto; exact dl_none. Qed.

Lemma dl_default st id before it : docLong (lexDefault cc st id before it).
Proof.
  unfold lexDefault. destruct (peek it 0) as [c|] eqn:Ec; [|dl]. destruct (stateAt st 0) as [s|]; [|dl].
  destruct (isSpace cc c). { destruct (scanWhile _ it 0). dl. }
  match goal with |- docLong (match ?x with _ => _ end) => destruct x as [[|]|]; [apply dl_number| |dl] end.
  destruct (processVariable cc it) as [[len|]|]; [dl| |dl].
  repeat match goal with
  | |- docLong (if (?a =? ?b)%N then _ else _) => destruct (N.eqb_spec a b) as [->|_]
  | |- docLong (if stIs _ _ then _ else _) => destruct (stIs _ _)
  | |- docLong (lexParen _ _ _ _) => apply dl_paren
  | |- docLong (lexLess _ _ _ _) => apply dl_less
  | |- docLong (lexIdent _ _ _ _) => apply dl_ident
  | |- docLong (lexDouble _ _ _ _ _ _ _) => apply dl_double; discriminate
  | |- docLong (lexOpAssign _ _ _ _ _) => apply dl_opAssign; discriminate
  | |- docLong (lexBang _ _ _) => unfold lexBang; dl
  | |- docLong (lexGreater _ _ _) => unfold lexGreater; dl
  | |- docLong (lexColon _ _ _) => unfold lexColon; dl
  | |- docLong (lexQuestion _ _ _) => unfold lexQuestion; dl
  | |- docLong (lexArrow _ _ _ _) => unfold lexArrow; dl
  | |- docLong (lexHash _ _ _ _) => unfold lexHash; dl
  | |- docLong (lexStar _ _ _) => unfold lexStar; dl
  | |- docLong (lexDot _ _ _) => unfold lexDot; dl
  | |- docLong (lexSQ _ _ _ _) => unfold lexSQ; dl
  | |- docLong (lexDQ _ _ _ _ _) => unfold lexDQ; dl
  | |- docLong (lexEqual _ _ _) => unfold lexEqual; dl
  | |- docLong (lexSlash _ _ _ _) => destruct it as [|c' r]; [discriminate Ec|cbn in Ec; injection Ec as ->; apply dl_slash]
  | |- docLong (simple _ _ _ _) => apply dl_simple; discriminate
  | |- docLong None => exact dl_none
  | |- docLong (match ?x with _ => _ end) => destruct x
  end.
Qed.

Lemma dl_handler st id before it : docLong (handler cc st id before it).
Proof.
  unfold handler. destruct (stateAt st 0) as [[]|]; try apply dl_default; try apply dl_html; try exact dl_none;
    try (apply dl_simple; discriminate).
  all: try (unfold lexString; dl). all: try (unfold lexNowdoc; dl). all: try (unfold lexBracket; dl).
  all: try (unfold lexObjOp; dl). all: unfold lexVarname; dl.
Qed.

Lemma doc_end_pos content l l' t nl : nextToken cc content l = Some (l', t, nl) -> t_kind t = T_DOC_COMMENT -> (0 < t_end t)%Z.
Proof.
  unfold nextToken. destruct (List.length content <=? lx_pos l); [intros H; injection H as _ <- _; discriminate|].
  destruct (handler cc (lx_st l) (lx_id l) _ _) as [o|] eqn:E; [|discriminate].
  destruct (S (List.length content) <? lx_pos l + o_len o); [intros H; injection H as _ <- _; discriminate|].
  destruct (haltStep (lx_halt l) (o_tok o)) as [tk h] eqn:Eh. intros H. injection H as _ <- _. cbn. intros ->.
  assert (o_tok o = T_DOC_COMMENT).
  { unfold haltStep in Eh. destruct (lx_halt l) as [|[|[|[|[|?]]]]]; destruct (o_tok o); cbn in Eh; try discriminate; auto; injection Eh; congruence. }
  pose proof (dl_handler _ _ _ _ _ E H). lia.
Qed.

(** ** The stream *)
Variable content : qstring.

Definition docState (db de : Z) (d : qstring) : Prop :=
  (de = 0%Z /\ d = []) \/ ((0 < de)%Z /\ d = mid content db (de - db + 1)).

Lemma classic_blank t : blankTok t \/ ~ blankTok t.
Proof. unfold blankTok. destruct (t_kind t); (right; intros [|[|]]; discriminate) || (left; auto). Qed.

Lemma docState_comment k b e db de d : docState db de d ->
  docComment content {| p_kind := k; p_begin := b; p_end := e; p_docBegin := db; p_docEnd := de |} = d.
Proof.
  unfold docComment. cbn. intros [[-> ->]|[H ->]]; [reflexivity|]. replace (de =? 0)%Z with false by lia. reflexivity.
Qed.

Lemma lastDoc_snoc_plain ws t d : lastDoc content ws d -> t_kind t <> T_DOC_COMMENT -> lastDoc content (ws ++ [t]) d.
Proof.
  intros [[-> H]|(a & u & b & -> & H1 & H2 & ->)] Ht.
  - left. split; auto. apply Forall_app. auto.
  - right. exists a, u, (b ++ [t]). rewrite <- app_assoc. split; auto. split; auto. split; auto. apply Forall_app. auto.
Qed.
Lemma lastDoc_snoc_doc ws t : t_kind t = T_DOC_COMMENT -> lastDoc content (ws ++ [t]) (symbol content t).
Proof. intros H. right. exists ws, t, []. auto. Qed.

Lemma tokenize_spec fuel : forall l toks nls last ws db de d,
  lexAll cc fuel content l = Some (Done toks nls last) ->
  Forall blankTok ws -> docState db de d -> lastDoc content ws d ->
  exists ps, tokenize cc fuel content l db de = Some (PDone ps) /\ streamOf content (ws ++ toks) ps.
Proof.
  induction fuel as [|f IH]; intros l toks nls last ws db de d H Hws Hd HL; [discriminate|].
  cbn [lexAll] in H. cbn [tokenize]. destruct (nextToken cc content l) as [[[l' t] nl]|] eqn:EN; [|discriminate].
  destruct (isEOF (t_kind t)) eqn:Ek.
  - injection H as <- _ _. assert (Hk : t_kind t = T_EOF) by (destruct (t_kind t); try discriminate; reflexivity).
    rewrite Hk. cbn [isEOF]. eexists. split; [reflexivity|]. rewrite app_nil_r. apply so_end; auto. cbn.
    rewrite (docState_comment _ _ _ _ _ _ Hd). exact HL.
  - destruct (lexAll cc f content l') as [[ts nls' last'|]|] eqn:EA; [|discriminate|discriminate].
    injection H as <- _ _.
    destruct (classic_blank t) as [Hb|Hb].
    + destruct Hb as [Hk|[Hk|Hk]]; rewrite Hk.
      * destruct (IH l' ts nls' last' (ws ++ [t]) db de d EA) as [ps [E1 E2]]; auto.
        -- apply Forall_app. split; auto. constructor; auto. left. exact Hk.
        -- apply lastDoc_snoc_plain; auto. congruence.
        -- exists ps. split; auto. rewrite <- app_assoc in E2. exact E2.
      * destruct (IH l' ts nls' last' (ws ++ [t]) db de d EA) as [ps [E1 E2]]; auto.
        -- apply Forall_app. split; auto. constructor; auto. right. left. exact Hk.
        -- apply lastDoc_snoc_plain; auto. congruence.
        -- exists ps. split; auto. rewrite <- app_assoc in E2. exact E2.
      * destruct (IH l' ts nls' last' (ws ++ [t]) (t_begin t) (t_end t) (symbol content t) EA) as [ps [E1 E2]]; auto.
        -- apply Forall_app. split; auto. constructor; auto. right. right. exact Hk.
        -- right. split; [eapply doc_end_pos; eauto|reflexivity].
        -- now apply lastDoc_snoc_doc.
        -- exists ps. split; auto. rewrite <- app_assoc in E2. exact E2.
    + destruct (IH l' ts nls' last' [] 0%Z 0%Z [] EA) as [ps [E1 E2]]; [constructor|left; auto|left; auto|].
      exists ({| p_kind := t_kind t; p_begin := t_begin t; p_end := t_end t; p_docBegin := db; p_docEnd := de |} :: ps).
      split.
      * rewrite E1. destruct (t_kind t) eqn:Et; try discriminate; try reflexivity; exfalso; apply Hb; unfold blankTok; rewrite Et; auto.
      * apply so_tok; auto. rewrite (docState_comment _ _ _ _ _ _ Hd). exact HL.
Qed.

Lemma tokenize_fuel fuel : forall l db de, lexAll cc fuel content l = Some OutOfFuel ->
  tokenize cc fuel content l db de = Some POutOfFuel.
Proof.
  induction fuel as [|f IH]; intros l db de; [reflexivity|]. cbn [lexAll tokenize].
  destruct (nextToken cc content l) as [[[l' t] nl]|]; [|discriminate].
  destruct (isEOF (t_kind t)) eqn:Ek; [discriminate|].
  destruct (lexAll cc f content l') as [[|]|] eqn:E; try discriminate. intros _.
  destruct (t_kind t); try discriminate; try (apply IH; exact E); rewrite (IH l' _ _ E); reflexivity.
Qed.

Lemma lexAll_noEOF fuel : forall l toks nls last, lexAll cc fuel content l = Some (Done toks nls last) -> Forall (fun t => t_kind t <> T_EOF) toks.
Proof.
  induction fuel as [|f IH]; intros l toks nls last; [discriminate|]. cbn [lexAll].
  destruct (nextToken cc content l) as [[[l' t] nl]|]; [|discriminate].
  destruct (isEOF (t_kind t)) eqn:Ek; [intros H; injection H as <- _ _; constructor|].
  destruct (lexAll cc f content l') as [[ts nls' last'|]|] eqn:E; try discriminate. intros H. injection H as <- _ _.
  constructor; [intros Hk; rewrite Hk in Ek; discriminate|eauto].
Qed.
Lemma stream_one_end toks ps : streamOf content toks ps -> Forall (fun t => t_kind t <> T_EOF) toks ->
  exists init p, ps = init ++ [p] /\ p_kind p = T_EOF /\ Forall (fun q => p_kind q <> T_EOF /\ p_kind q <> T_WHITESPACE /\ p_kind q <> T_COMMENT /\ p_kind q <> T_DOC_COMMENT) init.
Proof.
  induction 1 as [ws p Hw Hp HL|ws t ts p ps Hw Hb Hk H1 H2 H3 HL HS IH]; intros HF.
  - exists [], p. auto.
  - apply Forall_app in HF as [_ HF]. pose proof (Forall_inv HF) as Ht. cbn in Ht. destruct (IH (Forall_inv_tail HF)) as (init & q & -> & Hq & HI).
    exists (p :: init), q. split; [reflexivity|]. split; auto. constructor; auto. rewrite Hk. unfold blankTok in Hb. tauto.
Qed.
End D.
