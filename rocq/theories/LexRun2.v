(** Newlines, closing tags and last tokens of a run (proof file). *)
From Verif Require Export LexRun.
Open Scope nat_scope.

(** * Closing tags *)
Section C.
Variable cc : CharClass.

Ltac crush :=
  repeat (cbv beta iota zeta in *;
    match goal with
    | H : None = Some _ |- _ => discriminate H
    | H : Some _ = Some _ |- _ => injection H as H; subst; cbn [o_tok o_st] in *; try discriminate
    | H : (match ?x with _ => _ end) = Some _ |- _ => destruct x eqn:?
    end).

Definition noClose (x : option Out) := forall o, x = Some o -> o_tok o <> T_CLOSE_TAG.

Lemma simple_noClose st id t n : t <> T_CLOSE_TAG -> noClose (simple st id t n).
Proof. unfold noClose, simple. intros Ht o H. injection H as <-. exact Ht. Qed.
Lemma if_noClose (b : bool) x y : noClose x -> noClose y -> noClose (if b then x else y).
Proof. destruct b; auto. Qed.
Lemma IF_noClose b x y : noClose x -> noClose y -> noClose (IF b THEN x ELSE y).
Proof. destruct b as [[]|]; auto. intros _ _ o H; discriminate. Qed.
Lemma none_noClose : noClose None.
Proof. intros o H; discriminate. Qed.
Lemma some_noClose o : o_tok o <> T_CLOSE_TAG -> noClose (Some o).
Proof. intros H o' E. injection E as <-. exact H. Qed.
Lemma bind_noClose {A} (a : option A) f : (forall x, noClose (f x)) -> noClose (x <- a ;; f x).
Proof. intros H. destruct a; auto. apply none_noClose. Qed.

Ltac nc :=
  repeat (cbv beta zeta;
  match goal with
  | |- noClose (simple _ _ _ _) => apply simple_noClose; try discriminate
  | |- noClose (Some _) => apply some_noClose; cbn [o_tok]; try discriminate
  | |- noClose None => apply none_noClose
  | |- noClose (match ?x with _ => _ end) => destruct x
  | |- (if ?b then _ else _) <> _ => destruct b; discriminate
  end).

Lemma lexHtml_nc st id it : noClose (lexHtml cc st id it).
Proof. unfold lexHtml. nc. Qed.
Lemma lexNumber_nc st id it : noClose (lexNumber cc st id it).
Proof. unfold lexNumber. nc; destruct (toLongOk _ _); discriminate. Qed.
Lemma castTok_nc n : castTok cc n <> T_CLOSE_TAG.
Proof. unfold castTok. repeat match goal with |- context [if ?b then _ else _] => destruct b; [discriminate|] end. discriminate. Qed.
Lemma lexParen_nc st id it : noClose (lexParen cc st id it).
Proof.
  unfold lexParen. cbv zeta.
  destruct (skipWhile _ _ _) as [p1 it2]. destruct (skipWhile _ _ _) as [p2 it3].
  destruct (skipWhile _ _ _) as [p3 it4]. apply IF_noClose; [|nc].
  pose proof (castTok_nc (firstn (p2 - p1) it2)) as H. destruct (castTok _ _); nc; congruence.
Qed.
Lemma lexLess_nc st id it : noClose (lexLess cc st id it).
Proof.
  assert (H : forall id' o, lexHereStart cc st id it = Some (id', Some o) -> o_tok o <> T_CLOSE_TAG).
  { intros id' o. unfold lexHereStart. intros H. cbv zeta in H.
    repeat match type of H with
    | None = _ => discriminate H
    | Some _ = Some _ => injection H as ? H; try discriminate H
    | (match ?x with _ => _ end) = _ => destruct x
    end; subst; cbn; repeat match goal with |- context [if ?b then _ else _] => destruct b end; discriminate. }
  unfold lexLess. destruct (stateAt st 0); [|nc].
  apply IF_noClose; [|nc].
  destruct (isC it 2 60 &&& _) as [[]|]; [| |nc].
  - destruct (lexHereStart cc st id it) as [[id' [o|]]|]; nc. eapply H; eauto.
  - nc.
Qed.
Lemma lexIdent_nc st id it : noClose (lexIdent cc st id it).
Proof.
  unfold lexIdent. destruct (skipWhile _ _ _) as [n rest].
  destruct (findKw cc (firstn n it)) as [[t| |]|] eqn:E; [|nc|nc|nc].
  apply simple_noClose. unfold findKw in E.
  destruct (find _ keywords) as [[k w]|] eqn:Ef; [|discriminate].
  cbn in E. injection E as ->. apply find_some in Ef as [Hin _].
  unfold keywords in Hin. cbn [In] in Hin.
  repeat (destruct Hin as [Hin|Hin]; [injection Hin as _ <-; discriminate|discriminate]). 
  repeat (destruct Hin as [Hin|Hin]; [inversion Hin; subst; discriminate|]). destruct Hin.
Qed.

Definition isQM (it : list N) := exists r, it = (63 :: 62 :: r)%N.
Lemma lexQuestion_close st id r o : lexQuestion st id (63 :: r)%N = Some o -> o_tok o = T_CLOSE_TAG ->
  popToHtml st = Some (o_st o) /\ isQM (63 :: r)%N.
Proof.
  unfold lexQuestion, isC, test. intros H Hk.
  destruct r as [|c r]; cbn [peek option_map] in H.
  - cbn in H. injection H as <-. discriminate.
  - destruct (N.eqb_spec c 62) as [->|].
    + destruct (popToHtml st) as [st'|]; [|discriminate]. injection H as <-. cbn. split; auto. exists r; auto.
    + destruct (c =? 63)%N; injection H as <-; discriminate.
Qed.

Lemma lexDefault_close st id before it o : it <> [] -> lexDefault cc st id before it = Some o ->
  o_tok o = T_CLOSE_TAG -> popToHtml st = Some (o_st o) /\ isQM it.
Proof.
  intros Hne. unfold lexDefault. destruct it as [|c r]; [congruence|].
  cbn [peek]. destruct (stateAt st 0) as [s|]; [|discriminate].
  destruct (N.eqb_spec c 63) as [->|Hc].
  - intros H Hk.
    assert (HX : noClose (Some o) -> popToHtml st = Some (o_st o) /\ isQM (63 :: r)%N)
      by (intros HX; exfalso; exact (HX o eq_refl Hk)).
    destruct (isSpace cc 63).
    { apply HX. rewrite <- H. nc. }
    destruct (Some (isDigit cc 63) ||| _) as [[]|]; [apply HX; rewrite <- H; apply lexNumber_nc| |discriminate].
    destruct (processVariable cc _) as [[n|]|]; [apply HX; rewrite <- H; nc| |discriminate].
    cbn in H. eapply lexQuestion_close; eauto.
  - intros H Hk. exfalso. revert H.
    match goal with |- ?x = _ -> _ => enough (Hnc : noClose x) by (intros H; exact (Hnc _ H Hk)) end.
    apply if_noClose; [nc|]. apply IF_noClose; [apply lexNumber_nc|].
    destruct (processVariable cc _) as [[n|]|]; [nc| |nc].
    repeat match goal with
    | |- noClose (lexParen _ _ _ _) => apply lexParen_nc
    | |- noClose (lexLess _ _ _ _) => apply lexLess_nc
    | |- noClose (lexIdent _ _ _ _) => apply lexIdent_nc
    | |- noClose (lexBang _ _ _) => unfold lexBang; nc
    | |- noClose (lexGreater _ _ _) => unfold lexGreater; nc
    | |- noClose (lexColon _ _ _) => unfold lexColon; nc
    | |- noClose (lexArrow _ _ _ _) => unfold lexArrow; nc
    | |- noClose (lexOpAssign _ _ _ _ _) => unfold lexOpAssign; nc
    | |- noClose (lexSlash _ _ _ _) => unfold lexSlash; nc
    | |- noClose (lexHash _ _ _ _) => unfold lexHash; nc
    | |- noClose (lexStar _ _ _) => unfold lexStar; nc
    | |- noClose (lexDouble _ _ _ _ _ _ _) => unfold lexDouble; nc
    | |- noClose (lexDot _ _ _) => unfold lexDot; nc
    | |- noClose (lexSQ _ _ _ _) => unfold lexSQ; nc
    | |- noClose (lexDQ _ _ _ _ _) => unfold lexDQ; nc
    | |- noClose (lexEqual _ _ _) => unfold lexEqual; nc
    | |- noClose (simple _ _ _ _) => apply simple_noClose; discriminate
    | |- noClose (if (c =? 63)%N then _ else _) => rewrite (proj2 (N.eqb_neq c 63) Hc)
    | |- noClose None => apply none_noClose
    | |- noClose (match ?x with _ => _ end) => destruct x
    end.
Qed.

Lemma handler_close st id before it o : wfS st -> it <> [] -> handler cc st id before it = Some o ->
  o_tok o = T_CLOSE_TAG ->
  o_st o = [HtmlState; ErrorState] /\ isQM it /\
  exists t, st = DefaultState :: t \/ st = StringVariableCurly :: t.
Proof.
  intros Hw Hne H Hk. unfold handler in H. destruct st as [|s t]; [discriminate|]. cbn [stateAt nth_error] in H.
  assert (HD : lexDefault cc (s :: t) id before it = Some o -> o_st o = [HtmlState; ErrorState] /\ isQM it).
  { intros HD. destruct (lexDefault_close _ _ _ _ _ Hne HD Hk) as [HP HQ]. rewrite popToHtml_spec in HP by auto.
    split; congruence. }
  assert (HN : forall x, x = Some o -> noClose x -> False) by (intros x Hx Hn; exact (Hn o Hx Hk)).
  destruct s; try (destruct (HD H); repeat split; eauto; fail); exfalso; apply (HN _ H).
  - nc.
  - apply lexHtml_nc.
  - unfold lexString; nc.
  - unfold lexString; nc.
  - unfold lexBracket; nc.
  - unfold lexObjOp; nc.
  - unfold lexVarname; nc.
  - unfold lexString; nc.
  - unfold lexString; nc.
  - unfold lexNowdoc; nc.
Qed.
End C.
