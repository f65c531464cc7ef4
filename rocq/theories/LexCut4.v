(** Proofs for C13, continued: the string modes and the whole step. *)
From Verif Require Import LexModel LexInv LexSpec LexSpec2 LexHandlers LexRun LexRun2 LexFun LexFun5 LexCut LexCut2 LexCut3.
Open Scope nat_scope.

Section Cut.
Variable cc : CharClass.
Hypothesis OK : ascii_ok cc.
Hint Rewrite (semi_digit cc OK) (semi_letter cc OK) (semi_space cc OK) (semi_lower cc OK) (semi_ident cc OK) (semi_identStart cc OK) : semi.
Ltac semi := repeat (progress (cbn [app skipn peek option_map mAnd mOr mNot negb N.eqb Pos.eqb orb andb fst snd]; autorewrite with semi)).
Ltac gd := unfold isC, test; repeat (semi; try reflexivity;
  match goal with
  | |- context [mAnd (Some ?b) _] => destruct b
  | |- context [mOr (Some ?b) _] => destruct b
  | |- context [if ?b then _ else _] => destruct b
  end).

Lemma stateAt_doc st n s : stateAt st n = Some s -> isDoc s = true -> existsb isDoc st = true.
Proof. unfold stateAt. intros H Hd. apply existsb_exists. exists s. split; [eapply nth_error_In; eauto|auto]. Qed.
Lemma inString_doc st : inString st StringHeredoc = Some true -> existsb isDoc st = true.
Proof.
  unfold inString. destruct (stateAt st 0) as [s|] eqn:E0; [|discriminate]. destruct (stIs s StringHeredoc) eqn:E1.
  - intros _. destruct s; try discriminate. eapply stateAt_doc; eauto.
  - cbn [mOr]. destruct (stateAt st 1) as [s1|] eqn:E2; [|discriminate]. intros H. injection H as H. destruct s1; try discriminate. eapply stateAt_doc; eauto.
Qed.
Lemma existsb_pop st st' : pop st = Some st' -> existsb isDoc st' = true -> existsb isDoc st = true.
Proof. destruct st as [|s t]; [discriminate|]. cbn. intros H. injection H as <-. intros ->. apply orb_true_r. Qed.

Lemma string_stable st id b u x y o : u <> [] -> (existsb isDoc st = true -> id <> []) -> idOK cc id -> lastOK cc u ->
  lexString cc st id b (u ++ 59%N :: x) = Some o -> o_len o <= List.length u ->
  lexString cc st id b (u ++ 59%N :: y) = Some o.
Proof.
  intros Hu Hid HO HL H L. unfold lexString in *. destruct u as [|a u]; [congruence|]. cbn [app peek] in H. cbn [app peek].
  change (a :: u ++ 59%N :: x) with ((a :: u) ++ 59%N :: x) in *. change (a :: u ++ 59%N :: y) with ((a :: u) ++ 59%N :: y).
  destruct (stateAt st 0) as [s|] eqn:Es; [|discriminate].
  destruct (inString st SString &&& Some (a =? 34)%N) as [[|]|]; [exact H| |discriminate].
  destruct (inString st StringBacktick &&& Some (a =? 96)%N) as [[|]|]; [exact H| |discriminate].
  assert (EH : (inString st StringHeredoc &&& isHereNowDocEnd id ((a :: u) ++ 59%N :: y)) = (inString st StringHeredoc &&& isHereNowDocEnd id ((a :: u) ++ 59%N :: x))).
  { destruct (inString st StringHeredoc) as [[|]|] eqn:Ei; [|reflexivity..]. cbn [mAnd]. apply (hereEnd_cut cc OK); auto. apply Hid. now apply inString_doc. }
  rewrite EH. destruct (inString st StringHeredoc &&& _) as [[|]|]; [exact H| |discriminate]. clear EH.
  rewrite (variable_cut cc OK (a :: u) y x Hu). destruct (processVariable cc _) as [[len|]|]; [exact H| |discriminate].
  assert (P1 : forall p, test ((a :: u) ++ 59%N :: y) 1 p = test ((a :: u) ++ 59%N :: x) 1 p) by (intros p; unfold test; destruct u; reflexivity).
  unfold isC at 1. unfold isC at 1 in H. rewrite P1.
  destruct (Some (negb (stIs s StringVariable)) &&& Some (a =? 36)%N &&& _) as [[|]|] eqn:E1; [| |discriminate].
  { destruct u as [|d u]. { exfalso. revert E1. gd; discriminate. }
    replace (test ((a :: d :: u) ++ 59%N :: y) 2 (isIdentStart cc)) with (test ((a :: d :: u) ++ 59%N :: x) 2 (isIdentStart cc)) by (unfold test; destruct u; reflexivity).
    exact H. }
  destruct (stIs s StringVariable && (a =? 91)%N); [exact H|].
  replace (Some (negb (stIs s StringVariable)) &&& Some (a =? 123)%N &&& isC ((a :: u) ++ 59%N :: y) 1 36 &&& (test ((a :: u) ++ 59%N :: y) 2 (isIdentStart cc) ||| isC ((a :: u) ++ 59%N :: y) 2 123))
   with (Some (negb (stIs s StringVariable)) &&& Some (a =? 123)%N &&& isC ((a :: u) ++ 59%N :: x) 1 36 &&& (test ((a :: u) ++ 59%N :: x) 2 (isIdentStart cc) ||| isC ((a :: u) ++ 59%N :: x) 2 123))
   by (destruct u as [|d [|e u]]; gd).
  destruct (_ &&& (_ ||| isC _ 2 123)) as [[|]|]; [exact H| |discriminate].
  replace (Some (stIs s StringVariable) &&& Some (a =? 45)%N &&& isC ((a :: u) ++ 59%N :: y) 1 62 &&& test ((a :: u) ++ 59%N :: y) 2 (isIdentStart cc))
   with (Some (stIs s StringVariable) &&& Some (a =? 45)%N &&& isC ((a :: u) ++ 59%N :: x) 1 62 &&& test ((a :: u) ++ 59%N :: x) 2 (isIdentStart cc))
   by (destruct u as [|d [|e u]]; gd).
  destruct (_ &&& test _ 2 _) as [[|]|]; [exact H| |discriminate].
  destruct (if stIs s StringVariable then pop st else Some st) as [st'|] eqn:Est; [|discriminate].
  destruct (stateAt st' 0) as [s'|] eqn:Es'; [|discriminate].
  destruct (encLoop cc s' id b ((a :: u) ++ 59%N :: x) 0) as [[j nl]|] eqn:E; [|discriminate]. injection H as <-. cbn [o_len] in L.
  assert (Hid' : s' = StringHeredoc -> id <> []).
  { intros ->. apply Hid. pose proof (stateAt_doc _ _ _ Es' eq_refl) as Hd. destruct (stIs s StringVariable); [eapply existsb_pop; eauto|congruence]. }
  rewrite (enc_cut cc OK s' id (a :: u) x y Hid' HO HL _ _ _ _ E) by lia. reflexivity.
Qed.

Lemma nowdoc_stable st id u x y o : u <> [] -> id <> [] -> idOK cc id -> lastOK cc u ->
  lexNowdoc st id (u ++ 59%N :: x) = Some o -> o_len o <= List.length u ->
  lexNowdoc st id (u ++ 59%N :: y) = Some o.
Proof.
  intros Hu Hid HO HL H L. unfold lexNowdoc in *. rewrite (hereEnd_cut cc OK id u y x Hid HO HL).
  destruct (isHereNowDocEnd id (u ++ 59%N :: x)) as [[|]|]; [exact H| |discriminate].
  destruct (nowLoop id (u ++ 59%N :: x) 0) as [[j nl]|] eqn:E; [|discriminate]. injection H as <-. cbn [o_len] in L.
  rewrite (now_cut cc OK id u x y Hid HO HL _ _ _ E) by lia. reflexivity.
Qed.

Lemma bracket_stable st id u x y o : u <> [] -> lexBracket cc st id (u ++ 59%N :: x) = Some o -> o_len o <= List.length u ->
  lexBracket cc st id (u ++ 59%N :: y) = Some o.
Proof.
  intros Hu H L. unfold lexBracket in *. destruct u as [|a u]; [congruence|]. cbn [app peek] in H. cbn [app peek].
  change (a :: u ++ 59%N :: x) with ((a :: u) ++ 59%N :: x) in *. change (a :: u ++ 59%N :: y) with ((a :: u) ++ 59%N :: y).
  destruct (a =? 93)%N; [exact H|]. destruct (isDigit cc a).
  - destruct (skipWhile_cut (isDigit cc) (a :: u) 0 (semi_digit cc OK)) as (n & _ & E). rewrite E in H. rewrite E. exact H.
  - destruct (scanWhile _ ((a :: u) ++ 59%N :: x) 0) as [j nl] eqn:E. injection H as <-. cbn [o_len] in L.
    rewrite (scan_true_cut (fun x : N => negb (x =? 93)%N) (a :: u) x y eq_refl _ _ _ E) by lia. reflexivity.
Qed.
Lemma objop_cut st id : indep (lexObjOp cc st id).
Proof.
  intros u x y Hu. unfold lexObjOp. destruct (skipWhile_cut (isIdent cc) u 0 (semi_ident cc OK)) as (n & _ & E). now rewrite !E.
Qed.
Lemma varname_cut st id : indep (lexVarname cc st id).
Proof.
  intros u x y Hu. unfold lexVarname. destruct (skipWhile_cut (isIdent cc) u 0 (semi_ident cc OK)) as (n & _ & E). now rewrite !E.
Qed.

Lemma handler_stable st id b u x y o : u <> [] -> (existsb isDoc st = true -> id <> []) -> idOK cc id -> lastOK cc u ->
  handler cc st id b (u ++ 59%N :: x) = Some o -> o_len o <= List.length u ->
  (o_tok o = T_YIELD -> farEnough cc u (o_len o)) ->
  ((topIs st DefaultState \/ topIs st StringVariableCurly) -> o_tok o = T_DOUBLE_QUOTE -> forall i,
     dqLoop cc (34%N :: b) (skipn 1 (u ++ 59%N :: x)) 1 = Some (i, true) -> i < List.length u) ->
  handler cc st id b (u ++ 59%N :: y) = Some o.
Proof.
  intros Hu Hid HO HL H L HY HD. unfold handler in *. destruct st as [|s t]; [discriminate|]. cbn [stateAt nth_error] in *.
  destruct s.
  - exact H.
  - eapply html_stable; eauto.
  - eapply default_stable; eauto. constructor; auto. apply HD. left. eexists; reflexivity.
  - eapply string_stable; eauto.
  - eapply string_stable; eauto.
  - eapply bracket_stable; eauto.
  - rewrite (objop_cut (StringVariableObjectOperator :: t) id u y x Hu). exact H.
  - eapply default_stable; eauto. constructor; auto. apply HD. right. eexists; reflexivity.
  - rewrite (varname_cut (StringVarname :: t) id u y x Hu). exact H.
  - eapply string_stable; eauto.
  - eapply string_stable; eauto.
  - eapply nowdoc_stable; eauto.
Qed.

(** * The identifier of a heredoc consists of letters, digits and underscores *)
Lemma hereIdent_ok r : forall acc, idOK cc acc -> idOK cc (fst (hereIdent cc r acc)).
Proof.
  induction r as [|c r IH]; intros acc H; [exact H|]. cbn [hereIdent]. destruct r as [|d r]; [exact H|].
  destruct (isDigit cc c || isLetter cc c || (c =? 95)%N) eqn:E; [|exact H]. apply IH. apply Forall_app. split; [exact H|]. constructor; [exact E|constructor].
Qed.
Definition keepsId (id : qstring) (x : option Out) := forall o, x = Some o -> o_id o = id \/ idOK cc (o_id o).
Lemma hereStart_id st id it id' so : lexHereStart cc st id it = Some (id', so) ->
  (id' = id \/ idOK cc id') /\ (forall o, so = Some o -> o_id o = id').
Proof.
  unfold lexHereStart. cbv zeta. intros H.
  destruct (isC (hereSkip (skipn 3 it)) 0 39) as [nd|]; [|discriminate].
  destruct (_ ||| _) as [q|]; [|discriminate].
  destruct (test _ 0 _) as [[|]|]; [| |discriminate].
  - pose proof (hereIdent_ok (if q then skipn 1 (hereSkip (skipn 3 it)) else hereSkip (skipn 3 it)) [] ltac:(constructor)) as HI.
    destruct (hereIdent cc _ []) as [id2 r3]. cbn [fst] in HI.
    destruct (if q && moreThanOne r3 then _ else _) as [r4|]; [|discriminate].
    destruct (_ &&& _) as [[|]|]; [| |discriminate]; injection H as <- <-; (split; [auto|intros o E; try discriminate; injection E as <-; reflexivity]).
  - injection H as <- <-. split; [auto|discriminate].
Qed.

Ltac ki := repeat (cbv beta zeta;
  match goal with
  | |- keepsId _ (simple _ _ _ _) => let o := fresh in let E := fresh in intros o E; injection E as <-; left; reflexivity
  | |- keepsId _ (Some _) => let o := fresh in let E := fresh in intros o E; injection E as <-; left; reflexivity
  | |- keepsId _ None => let o := fresh in let E := fresh in intros o E; discriminate E
  | |- keepsId _ (match ?x with _ => _ end) => destruct x
  end).
Lemma less_id st id it : keepsId id (lexLess cc st id it).
Proof.
  unfold lexLess. destruct (stateAt st 0); [|ki]. destruct (isC it 1 60) as [[|]|]; [|ki|ki].
  destruct (isC it 2 60 &&& _) as [[]|]; [|ki|ki].
  destruct (lexHereStart cc st id it) as [[id' so]|] eqn:E; [|ki]. destruct (hereStart_id _ _ _ _ _ E) as [H1 H2].
  destruct so as [o|]; [intros o' E'; injection E' as <-; rewrite (H2 o eq_refl); exact H1|].
  destruct (isC it 2 61) as [[|]|]; intros o' E'; try discriminate; injection E' as <-; exact H1.
Qed.
Lemma handler_id st id b it : keepsId id (handler cc st id b it).
Proof.
  unfold handler. destruct (stateAt st 0) as [s|]; [|ki].
  assert (HD : keepsId id (lexDefault cc st id b it)).
  { unfold lexDefault. destruct (peek it 0) as [c|]; [|ki]. destruct (stateAt st 0); [|ki].
    repeat match goal with
    | |- keepsId _ (lexLess _ _ _ _) => apply less_id
    | |- keepsId _ (lexNumber _ _ _ _) => unfold lexNumber; ki
    | |- keepsId _ (lexParen _ _ _ _) => unfold lexParen; ki
    | |- keepsId _ (lexIdent _ _ _ _) => unfold lexIdent; ki
    | |- keepsId _ (lexQuestion _ _ _) => unfold lexQuestion; ki
    | |- keepsId _ (lexBang _ _ _) => unfold lexBang; ki
    | |- keepsId _ (lexGreater _ _ _) => unfold lexGreater; ki
    | |- keepsId _ (lexColon _ _ _) => unfold lexColon; ki
    | |- keepsId _ (lexArrow _ _ _ _) => unfold lexArrow; ki
    | |- keepsId _ (lexOpAssign _ _ _ _ _) => unfold lexOpAssign; ki
    | |- keepsId _ (lexSlash _ _ _ _) => unfold lexSlash; ki
    | |- keepsId _ (lexHash _ _ _ _) => unfold lexHash; ki
    | |- keepsId _ (lexStar _ _ _) => unfold lexStar; ki
    | |- keepsId _ (lexDouble _ _ _ _ _ _ _) => unfold lexDouble; ki
    | |- keepsId _ (lexDot _ _ _) => unfold lexDot; ki
    | |- keepsId _ (lexSQ _ _ _ _) => unfold lexSQ; ki
    | |- keepsId _ (lexDQ _ _ _ _ _) => unfold lexDQ; ki
    | |- keepsId _ (lexEqual _ _ _) => unfold lexEqual; ki
    | |- keepsId _ (simple _ _ _ _) => ki
    | |- keepsId _ (Some _) => ki
    | |- keepsId _ None => ki
    | |- keepsId _ (match ?x with _ => _ end) => destruct x
    end. }
  destruct s; try exact HD.
  - ki.
  - unfold lexHtml; ki.
  - unfold lexString; ki.
  - unfold lexString; ki.
  - unfold lexBracket; ki.
  - unfold lexObjOp; ki.
  - unfold lexVarname; ki.
  - unfold lexString; ki.
  - unfold lexString; ki.
  - unfold lexNowdoc; ki.
Qed.

(** * Where some tokens come from *)
Definition plainTok (t : Tok) : bool :=
  match t with
  | T_WHITESPACE | T_RPAREN | T_SEMICOLON | T_COMMENT | T_DOC_COMMENT | T_DOUBLE_QUOTE | T_HALT_COMPILER | T_YIELD => false
  | _ => true end.
Definition plainOut (x : option Out) := forall o, x = Some o -> plainTok (o_tok o) = true.
Ltac po := repeat (cbv beta zeta;
  match goal with
  | |- plainOut (simple _ _ _ _) => let o := fresh in let E := fresh in intros o E; injection E as <-; reflexivity
  | |- plainOut (Some _) => let o := fresh in let E := fresh in intros o E; injection E as <-; try reflexivity; cbn [o_tok]; match goal with |- context [if ?b then _ else _] => destruct b; reflexivity end
  | |- plainOut None => let o := fresh in let E := fresh in intros o E; discriminate E
  | |- plainOut (match ?x with _ => _ end) => destruct x
  end).
Lemma number_plain st id it : plainOut (lexNumber cc st id it).
Proof. unfold lexNumber. po; intros o E; injection E as <-; cbn; destruct (toLongOk _ _); reflexivity. Qed.
Lemma paren_plain st id it : plainOut (lexParen cc st id it).
Proof.
  unfold lexParen. cbv zeta.
  destruct (skipWhile _ _ _) as [p1 it2]. destruct (skipWhile _ _ _) as [p2 it3]. destruct (skipWhile _ _ _) as [p3 it4].
  destruct (isC it4 0 41) as [[|]|]; [|po|po].
  assert (H : plainTok (castTok cc (firstn (p2 - p1) it2)) = true).
  { unfold castTok. repeat match goal with |- context [if ?b then _ else _] => destruct b; [reflexivity|] end. reflexivity. }
  destruct (castTok _ _); intros o E; injection E as <-; cbn; auto.
Qed.
Lemma less_plain st id it : plainOut (lexLess cc st id it).
Proof.
  unfold lexLess. destruct (stateAt st 0); [|po]. destruct (isC it 1 60) as [[|]|]; [|po|po].
  assert (H : forall id' o, lexHereStart cc st id it = Some (id', Some o) -> plainTok (o_tok o) = true).
  { intros id' o. unfold lexHereStart. cbv zeta. intros H.
    repeat match type of H with
    | None = _ => discriminate H
    | Some _ = Some _ => injection H as ? H; try discriminate H
    | (match ?x with _ => _ end) = _ => destruct x
    end; subst; cbn; repeat match goal with |- context [if ?b then _ else _] => destruct b end; reflexivity. }
  destruct (isC it 2 60 &&& _) as [[]|]; [|po|po].
  destruct (lexHereStart cc st id it) as [[id' [o|]]|]; [|po|po]. intros o' E. injection E as <-. eapply H; eauto.
Qed.

Inductive Source (st : list LState) (id : qstring) (b : list N) (a : N) (r : list N) (o : Out) : Prop :=
| src_space : isSpace cc a = true -> o_len o = fst (scanWhile (isSpace cc) (a :: r) 0) -> o_tok o = T_WHITESPACE -> Source st id b a r o
| src_rparen : a = 41%N -> o_len o = 1 -> o_tok o = T_RPAREN -> Source st id b a r o
| src_semi : a = 59%N -> o_len o = 1 -> o_tok o = T_SEMICOLON -> Source st id b a r o
| src_slash : a = 47%N -> lexSlash cc st id (a :: r) = Some o -> Source st id b a r o
| src_hash : a = 35%N -> lexHash cc st id (a :: r) = Some o -> Source st id b a r o
| src_dq : a = 34%N -> lexDQ cc st id b (a :: r) = Some o -> Source st id b a r o
| src_ident : isSpace cc a = false -> isIdentStart cc a = true -> lexIdent cc st id (a :: r) = Some o -> Source st id b a r o
| src_plain : plainTok (o_tok o) = true -> Source st id b a r o.

Lemma default_source st id b a r o : lexDefault cc st id b (a :: r) = Some o -> Source st id b a r o.
Proof.
  unfold lexDefault. cbn [peek]. destruct (stateAt st 0) as [s|]; [|discriminate].
  destruct (isSpace cc a) eqn:Es.
  { destruct (scanWhile _ _ 0) as [j nl] eqn:E. intros H. injection H as <-. apply src_space; auto. cbn [o_len]. rewrite E. reflexivity. }
  assert (P : forall x, plainOut x -> x = Some o -> Source st id b a r o) by (intros x Hx E; apply src_plain; exact (Hx _ E)).
  destruct (Some (isDigit cc a) ||| _) as [[|]|]; [apply P, number_plain| |discriminate].
  destruct (processVariable cc _) as [[len|]|]; [apply P; po| |discriminate].
  destruct (a =? 36)%N; [apply P; po|].
  destruct (a =? 125)%N; [apply P; po|].
  destruct (a =? 123)%N; [apply P; po|].
  destruct (N.eqb_spec a 41) as [->|_]; [intros H; injection H as <-; apply src_rparen; reflexivity|].
  destruct (a =? 40)%N; [apply P, paren_plain|].
  do 4 (destruct (a =? _)%N; [apply P; po|]).
  destruct (a =? 33)%N; [apply P; unfold lexBang; po|].
  destruct (a =? 60)%N; [apply P, less_plain|].
  destruct (a =? 62)%N; [apply P; unfold lexGreater; po|].
  destruct (a =? 126)%N; [apply P; po|].
  destruct (a =? 58)%N; [apply P; unfold lexColon; po|].
  destruct (a =? 63)%N; [apply P; unfold lexQuestion; po|].
  destruct (Some (a =? 45)%N &&& _) as [[|]|]; [apply P; unfold lexArrow; po| |discriminate].
  destruct (a =? 37)%N; [apply P; unfold lexOpAssign; po|].
  destruct (N.eqb_spec a 47) as [->|_]; [apply src_slash; reflexivity|].
  destruct (N.eqb_spec a 35) as [->|_]; [apply src_hash; reflexivity|].
  destruct (a =? 94)%N; [apply P; unfold lexOpAssign; po|].
  destruct (a =? 42)%N; [apply P; unfold lexStar; po|].
  do 4 (destruct (a =? _)%N; [apply P; unfold lexDouble; po|]).
  destruct (a =? 46)%N; [apply P; unfold lexDot; po|].
  destruct (a =? 92)%N; [apply P; po|]. destruct (N.eqb_spec a 59) as [->|_]; [intros H; injection H as <-; apply src_semi; reflexivity|].
  destruct (a =? 39)%N; [apply P; unfold lexSQ; po|].
  destruct (N.eqb_spec a 34) as [->|_]; [apply src_dq; reflexivity|].
  destruct (a =? 96)%N; [apply P; po|].
  destruct (a =? 61)%N; [apply P; unfold lexEqual; po|].
  destruct (isIdentStart cc a) eqn:Ei; [intros H; apply src_ident; auto|apply P; po].
Qed.

Definition plainButDQ (t : Tok) : bool := match t with T_DOUBLE_QUOTE => true | _ => plainTok t end.
Lemma handler_source st id b a r o : handler cc st id b (a :: r) = Some o ->
  ((topIs st DefaultState \/ topIs st StringVariableCurly) /\ Source st id b a r o) \/
  (~ (topIs st DefaultState \/ topIs st StringVariableCurly) /\ plainButDQ (o_tok o) = true).
Proof.
  unfold handler. destruct st as [|s t]; [discriminate|]. cbn [stateAt nth_error].
  intros H. assert (HX : forall x, (forall o, x = Some o -> plainButDQ (o_tok o) = true) -> x = Some o -> plainButDQ (o_tok o) = true) by (intros x Hx E; auto).
  Ltac pb := repeat (cbv beta zeta;
  match goal with
  | |- forall o, simple _ _ _ _ = Some o -> _ => let o := fresh in let E := fresh in intros o E; injection E as <-; reflexivity
  | |- forall o, Some _ = Some o -> _ => let o := fresh in let E := fresh in intros o E; injection E as <-; reflexivity
  | |- forall o, None = Some o -> _ => let o := fresh in let E := fresh in intros o E; discriminate E
  | |- forall o, (match ?x with _ => _ end) = Some o -> _ => destruct x
  end).
  destruct s;
    try (left; split; [first [left; eexists; reflexivity|right; eexists; reflexivity]|apply default_source; exact H]; fail);
    (right; split; [intros [[q E]|[q E]]; discriminate|]); revert H; apply HX.
  - pb.
  - unfold lexHtml; pb.
  - unfold lexString; pb.
  - unfold lexString; pb.
  - unfold lexBracket; pb.
  - unfold lexObjOp; pb.
  - unfold lexVarname; pb.
  - unfold lexString; pb.
  - unfold lexString; pb.
  - unfold lexNowdoc; pb.
Qed.
End Cut.
