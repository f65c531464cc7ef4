(** Proofs for C13, continued: loops that may run behind the semicolon, and the handlers. *)
From Verif Require Import LexModel LexInv LexSpec LexSpec2 LexHandlers LexRun LexFun LexFun5 LexCut.
Open Scope nat_scope.

Section Cut.
Variable cc : CharClass.
Hypothesis OK : ascii_ok cc.
Hint Rewrite (semi_digit cc OK) (semi_letter cc OK) (semi_space cc OK) (semi_lower cc OK) (semi_ident cc OK) (semi_identStart cc OK) : semi.
Ltac semi := repeat (progress (cbn [app skipn peek option_map mAnd mOr mNot negb N.eqb Pos.eqb orb andb fst snd]; autorewrite with semi)).

(** * Loops *)
Lemma html_ge it : forall i j nl, htmlLoop it i = Some (j, nl) -> i <= j.
Proof.
  induction it as [|c t IH]; intros i j nl; cbn [htmlLoop]; [intros E; injection E as <- <-; lia|].
  destruct (isC (c :: t) 1 60 &&& isC (c :: t) 2 63) as [[|]|]; [intros E; injection E as <- <-; lia| |discriminate].
  destruct (htmlLoop t (S i)) as [[j' nl']|] eqn:E; [|discriminate]. intros H. injection H as <- <-. apply IH in E. lia.
Qed.
Lemma html_loop_cut u x y : forall i j nl, htmlLoop (u ++ 59%N :: x) i = Some (j, nl) -> S j <= i + List.length u ->
  htmlLoop (u ++ 59%N :: y) i = Some (j, nl).
Proof.
  induction u as [|c u IH]; intros i j nl H L.
  - apply html_ge in H. cbn in L. lia.
  - cbn [app htmlLoop] in *. cbn [List.length] in L.
    assert (E : (isC (c :: u ++ 59%N :: y) 1 60 &&& isC (c :: u ++ 59%N :: y) 2 63) = (isC (c :: u ++ 59%N :: x) 1 60 &&& isC (c :: u ++ 59%N :: x) 2 63)).
    { unfold isC, test. destruct u as [|b [|d u]]; semi; try reflexivity. }
    rewrite E. destruct (isC (c :: u ++ 59%N :: x) 1 60 &&& isC (c :: u ++ 59%N :: x) 2 63) as [[|]|]; auto.
    destruct (htmlLoop (u ++ 59%N :: x) (S i)) as [[j' nl']|] eqn:E1; [|discriminate]. injection H as <- <-.
    rewrite (IH _ _ _ E1) by lia. reflexivity.
Qed.

Lemma line_ge doc it : forall sk i j nl, lineComment cc doc sk it i = Some (j, nl) -> i <= j.
Proof.
  induction it as [|c t IH]; intros sk i j nl; cbn [lineComment]; [intros E; injection E as <- <-; lia|].
  destruct sk as [|k]; [|intros H; apply IH in H; lia].
  destruct (Some _ &&& Some (c =? 63)%N &&& isC (c :: t) 1 62) as [[|]|]; [intros E; injection E as <- <-; lia| |discriminate].
  destruct (c =? 10)%N; [|intros H; apply IH in H; lia].
  destruct doc; cbn [negb]; [|intros E; injection E as <- <-; lia].
  destruct (skipWhile _ t (S i)) as [p it2]. destruct (_ &&& isC it2 2 47) as [[|]|]; [|intros E; injection E as <- <-; lia|discriminate].
  destruct (lineComment cc true (p + 2 - S i) t (S i)) as [[j' nl']|] eqn:E; [|discriminate].
  intros H. injection H as <- <-. apply IH in E. lia.
Qed.
Lemma line_cut doc u x y : forall sk i j nl, lineComment cc doc sk (u ++ 59%N :: x) i = Some (j, nl) -> j <= i + List.length u ->
  lineComment cc doc sk (u ++ 59%N :: y) i = Some (j, nl).
Proof.
  induction u as [|c u IH]; intros sk i j nl H L.
  - exfalso. cbn [app lineComment] in H. cbn in L. destruct sk as [|k]; [|apply line_ge in H; lia].
    cbn [N.eqb Pos.eqb] in H. replace (Some (match x with [] => false | _ => true end) &&& Some false &&& isC (59%N :: x) 1 62) with (Some false) in H by (destruct x; reflexivity).
    apply line_ge in H; lia.
  - cbn [app lineComment] in *. cbn [List.length] in L. destruct sk as [|k]; [|apply IH; [exact H|lia]].
    assert (E : forall z, (Some (match u ++ 59%N :: z with [] => false | _ => true end) &&& Some (c =? 63)%N &&& isC (c :: u ++ 59%N :: z) 1 62)
       = Some ((c =? 63)%N && match u with b :: _ => (b =? 62)%N | [] => false end)).
    { intros z. unfold isC, test. destruct u; semi; destruct (c =? 63)%N; reflexivity. }
    rewrite E in H. rewrite E. destruct (_ && _); [exact H|]. clear E.
    destruct (c =? 10)%N; [|apply IH; [exact H|lia]].
    destruct doc; cbn [negb] in *; [|exact H].
    destruct (skipWhile_cut (fun x => isSpace cc x && negb (x =? 10)%N) u (S i)) as (n & Hn & E); [semi; reflexivity|].
    rewrite E in H. rewrite E.
    assert (E2 : forall z, (isC (skipn n u ++ 59%N :: z) 0 47 &&& isC (skipn n u ++ 59%N :: z) 1 47 &&& isC (skipn n u ++ 59%N :: z) 2 47) =
       Some (match skipn n u with a :: b :: d :: _ => (a =? 47)%N && (b =? 47)%N && (d =? 47)%N | _ => false end)).
    { intros z. generalize (skipn n u). intros w. unfold isC, test. destruct w as [|a [|b [|d w]]]; semi.
      - reflexivity.
      - destruct (a =? 47)%N; reflexivity.
      - destruct (a =? 47)%N; [|reflexivity]. semi. destruct (b =? 47)%N; reflexivity.
      - destruct (a =? 47)%N; [|reflexivity]. semi. destruct (b =? 47)%N; reflexivity. }
    rewrite E2 in H. rewrite E2.
    destruct (match skipn n u with a :: b :: d :: _ => _ | _ => _ end); [|exact H].
    destruct (lineComment cc true (S i + n + 2 - S i) (u ++ 59%N :: x) (S i)) as [[j' nl']|] eqn:E3; [|discriminate].
    injection H as <- <-. rewrite (IH _ _ _ _ E3) by lia. reflexivity.
Qed.

Lemma block_ge it : forall i j nl, blockLoop it i = Some (j, nl) -> i <= j.
Proof.
  induction it as [|c t IH]; intros i j nl; cbn [blockLoop]; [intros E; injection E as <- <-; lia|].
  destruct (Some (c =? 42)%N &&& isC (c :: t) 1 47) as [[|]|]; [intros E; injection E as <- <-; lia| |discriminate].
  destruct (blockLoop t (S i)) as [[j' nl']|] eqn:E; [|discriminate]. intros H. injection H as <- <-. apply IH in E. lia.
Qed.
Lemma block_cut u x y : forall i j nl, blockLoop (u ++ 59%N :: x) i = Some (j, nl) -> S j <= i + List.length u ->
  blockLoop (u ++ 59%N :: y) i = Some (j, nl).
Proof.
  induction u as [|c u IH]; intros i j nl H L.
  - apply block_ge in H. cbn in L. lia.
  - cbn [app blockLoop] in *. cbn [List.length] in L.
    assert (E : isC (c :: u ++ 59%N :: y) 1 47 = isC (c :: u ++ 59%N :: x) 1 47) by (unfold isC, test; destruct u; reflexivity).
    rewrite E. destruct (Some (c =? 42)%N &&& isC (c :: u ++ 59%N :: x) 1 47) as [[|]|]; auto.
    destruct (blockLoop (u ++ 59%N :: x) (S i)) as [[j' nl']|] eqn:E1; [|discriminate]. injection H as <- <-.
    rewrite (IH _ _ _ E1) by lia. reflexivity.
Qed.

Lemma sq_ge it : forall b i j nl, sqLoop b it i = Some (j, nl) -> i <= j.
Proof.
  induction it as [|c t IH]; intros b i j nl; cbn [sqLoop]; [intros E; injection E as <- <-; lia|].
  destruct (Some (c =? 39)%N &&& _) as [[|]|]; [intros E; injection E as <- <-; lia| |discriminate].
  destruct (sqLoop (c :: b) t (S i)) as [[j' nl']|] eqn:E; [|discriminate]. intros H. injection H as <- <-. apply IH in E. lia.
Qed.
Lemma sq_cut u x y : forall b i j nl, sqLoop b (u ++ 59%N :: x) i = Some (j, nl) -> S j <= i + List.length u ->
  sqLoop b (u ++ 59%N :: y) i = Some (j, nl).
Proof.
  induction u as [|c u IH]; intros b i j nl H L.
  - apply sq_ge in H. cbn in L. lia.
  - cbn [app sqLoop] in *. cbn [List.length] in L.
    destruct (Some (c =? 39)%N &&& _) as [[|]|]; auto.
    destruct (sqLoop (c :: b) (u ++ 59%N :: x) (S i)) as [[j' nl']|] eqn:E1; [|discriminate]. injection H as <- <-.
    rewrite (IH _ _ _ _ E1) by lia. reflexivity.
Qed.

Lemma dq_ge it : forall b i j v, dqLoop cc b it i = Some (j, v) -> i <= j.
Proof.
  induction it as [|c t IH]; intros b i j v; cbn [dqLoop]; [intros E; injection E as <- <-; lia|].
  destruct (Some (c =? 34)%N &&& _) as [[|]|]; [intros E; injection E as <- <-; lia| |discriminate].
  destruct (_ &&& _) as [[|]|]; [intros E; injection E as <- <-; lia| |discriminate].
  intros E. apply IH in E. lia.
Qed.
Lemma dq_cut u x y : forall b i j v, dqLoop cc b (u ++ 59%N :: x) i = Some (j, v) -> S j <= i + List.length u ->
  dqLoop cc b (u ++ 59%N :: y) i = Some (j, v).
Proof.
  induction u as [|c u IH]; intros b i j v H L.
  - apply dq_ge in H. cbn in L. lia.
  - cbn [app dqLoop] in *. cbn [List.length] in L.
    destruct (Some (c =? 34)%N &&& _) as [[|]|]; auto.
    assert (E : (isC (c :: u ++ 59%N :: y) 1 123 ||| test (c :: u ++ 59%N :: y) 1 (isIdentStart cc)) =
                (isC (c :: u ++ 59%N :: x) 1 123 ||| test (c :: u ++ 59%N :: x) 1 (isIdentStart cc))) by (unfold isC, test; destruct u; reflexivity).
    rewrite E. destruct (_ &&& (_ ||| _)) as [[|]|]; auto. apply IH; [exact H|lia].
Qed.

Lemma scan_true_cut p u x y : p 59%N = true -> forall i j nl, scanWhile p (u ++ 59%N :: x) i = (j, nl) -> j <= i + List.length u ->
  scanWhile p (u ++ 59%N :: y) i = (j, nl).
Proof.
  intros Hp. induction u as [|c u IH]; intros i j nl H L.
  - exfalso. cbn [app scanWhile] in H. rewrite Hp in H. destruct (scanWhile_spec p x (S i)) as (n & E & _). rewrite E in H.
    injection H as <- _. cbn in L. lia.
  - cbn [app scanWhile] in *. cbn [List.length] in L. destruct (p c); [|exact H].
    destruct (scanWhile p (u ++ 59%N :: x) (S i)) as [j' nl'] eqn:E. injection H as <- <-. rewrite (IH _ _ _ E) by lia. reflexivity.
Qed.

(** * Heredoc ends *)
Definition hereC (c : N) : bool := isDigit cc c || isLetter cc c || (c =? 95)%N.
Definition idOK (id : qstring) : Prop := Forall (fun c => hereC c = true) id.
Definition lastOK (u : list N) : Prop := forall a c, u = a ++ [c] -> hereC c = false.
Lemma lastOK_tail c u : lastOK (c :: u) -> lastOK u.
Proof. intros H a d ->. apply (H (c :: a) d). reflexivity. Qed.
Lemma hereC_semi : hereC 59 = false. Proof. unfold hereC. semi. reflexivity. Qed.

Lemma hereEnd_cut id u x y : id <> [] -> idOK id -> lastOK u ->
  isHereNowDocEnd id (u ++ 59%N :: x) = isHereNowDocEnd id (u ++ 59%N :: y).
Proof.
  intros Hne HO HL. unfold isHereNowDocEnd. destruct (Nat.lt_ge_cases (List.length id) (List.length u)) as [H|H].
  - rewrite !firstn_app. replace (List.length id - List.length u) with 0 by lia. cbn [firstn].
    unfold isC, test. rewrite (peek_cut u x y (List.length id)), (peek_cut u x y (S (List.length id))) by lia. reflexivity.
  - assert (E : forall z, eqs (firstn (List.length id) (u ++ 59%N :: z)) id = false).
    { intros z. destruct (eqs (firstn (List.length id) (u ++ 59%N :: z)) id) eqn:E; [|reflexivity]. exfalso. apply eqs_eq in E.
      rewrite firstn_app in E. rewrite firstn_all2 in E by lia.
      destruct (List.length id - List.length u) as [|k] eqn:Ek.
      - cbn [firstn] in E. rewrite app_nil_r in E. subst u. destruct (exists_last Hne) as (a & c & Ea).
        pose proof (HL a c Ea) as H1. unfold idOK in HO. rewrite Ea in HO. apply Forall_app in HO as [_ HO]. inversion HO; subst. congruence.
      - cbn [firstn] in E. rewrite <- E in HO. unfold idOK in HO. apply Forall_app in HO as [_ HO]. inversion HO; subst. rewrite hereC_semi in *. discriminate. }
    rewrite !E. reflexivity.
Qed.
Lemma hereEnd_some id it : exists b, isHereNowDocEnd id it = Some b.
Proof. destruct (docEnd_test id it) as (v & H & _). eauto. Qed.

Lemma enc_ge s id it : forall b i j nl, encLoop cc s id b it i = Some (j, nl) -> i <= j.
Proof.
  induction it as [|c t IH]; intros b i j nl; cbn [encLoop]; [intros E; injection E as <- <-; lia|].
  destruct (mOr _ _) as [[|]|]; [intros E; injection E as <- <-; lia| |discriminate].
  destruct (_ &&& isHereNowDocEnd id t) as [[|]|]; [intros E; injection E as <- <-; lia| |discriminate].
  destruct (encLoop cc s id (c :: b) t (S i)) as [[j' nl']|] eqn:E; [|discriminate]. intros H. injection H as <- <-. apply IH in E. lia.
Qed.
Lemma enc_cut s id u x y : (s = StringHeredoc -> id <> []) -> idOK id -> lastOK u -> forall b i j nl,
  encLoop cc s id b (u ++ 59%N :: x) i = Some (j, nl) -> j <= i + List.length u ->
  encLoop cc s id b (u ++ 59%N :: y) i = Some (j, nl).
Proof.
  intros Hid HO. induction u as [|c u IH]; intros HL b i j nl H L.
  - exfalso. cbn [app encLoop] in H. cbn [N.eqb Pos.eqb] in H.
    destruct (isEscaped b (0 <? i)) as [e|]; cbn [mNot option_map mAnd mOr] in H; [|discriminate].
    assert (Hs : (Some (stIs s SString) &&& Some false &&& Some (negb e)) = Some false) by (destruct (stIs s SString); reflexivity).
    assert (Hs2 : (Some (stIs s StringBacktick) &&& Some false &&& Some (negb e)) = Some false) by (destruct (stIs s StringBacktick); reflexivity).
    assert (Hs3 : (Some (stIs s StringHeredoc) &&& Some false &&& isHereNowDocEnd id x) = Some false) by (destruct (stIs s StringHeredoc); reflexivity).
    destruct e; cbn [negb mAnd mOr] in *; rewrite Hs in H; cbn [mOr] in H; rewrite Hs2, Hs3 in H;
      (destruct (encLoop cc s id (59%N :: b) x (S i)) as [[j' nl']|] eqn:E; [|discriminate]; injection H as <- _; apply enc_ge in E; cbn in L; lia).
  - pose proof (lastOK_tail _ _ HL) as HL'. cbn [app encLoop] in *. cbn [List.length] in L.
    assert (E : forall (q : bool), (Some (c =? 36)%N &&& isC (c :: u ++ 59%N :: y) 1 123
                   ||| (Some (c =? 123)%N &&& isC (c :: u ++ 59%N :: y) 1 36 &&& test (c :: u ++ 59%N :: y) 2 (isIdent cc))
                   ||| (Some (c =? 36)%N &&& test (c :: u ++ 59%N :: y) 1 (isIdentStart cc))) =
        (Some (c =? 36)%N &&& isC (c :: u ++ 59%N :: x) 1 123
                   ||| (Some (c =? 123)%N &&& isC (c :: u ++ 59%N :: x) 1 36 &&& test (c :: u ++ 59%N :: x) 2 (isIdent cc))
                   ||| (Some (c =? 36)%N &&& test (c :: u ++ 59%N :: x) 1 (isIdentStart cc)))).
    { intros _. unfold isC, test. destruct u as [|d [|e u]]; semi; [|reflexivity..]. destruct (c =? 123)%N; semi; reflexivity. }
    rewrite (E true). destruct (mOr _ _) as [[|]|]; auto. clear E.
    assert (E : (Some (stIs s StringHeredoc) &&& Some (c =? 10)%N &&& isHereNowDocEnd id (u ++ 59%N :: y)) =
                (Some (stIs s StringHeredoc) &&& Some (c =? 10)%N &&& isHereNowDocEnd id (u ++ 59%N :: x))).
    { destruct (stIs s StringHeredoc) eqn:Es; [|reflexivity]. destruct (c =? 10)%N; [|reflexivity]. cbn [mAnd].
      apply hereEnd_cut; auto. apply Hid. unfold stIs in Es. destruct s; try discriminate. reflexivity. }
    rewrite E. destruct (Some (stIs s StringHeredoc) &&& Some (c =? 10)%N &&& isHereNowDocEnd id (u ++ 59%N :: x)) as [[|]|]; auto.
    destruct (encLoop cc s id (c :: b) (u ++ 59%N :: x) (S i)) as [[j' nl']|] eqn:E1; [|discriminate]. injection H as <- <-.
    rewrite (IH HL' _ _ _ _ E1) by lia. reflexivity.
Qed.

Lemma now_ge id it : forall i j nl, nowLoop id it i = Some (j, nl) -> i <= j.
Proof.
  induction it as [|c t IH]; intros i j nl; cbn [nowLoop]; [intros E; injection E as <- <-; lia|].
  destruct (_ &&& isHereNowDocEnd id t) as [[|]|]; [intros E; injection E as <- <-; lia| |discriminate].
  destruct (nowLoop id t (S i)) as [[j' nl']|] eqn:E; [|discriminate]. intros H. injection H as <- <-. apply IH in E. lia.
Qed.
Lemma now_cut id u x y : id <> [] -> idOK id -> lastOK u -> forall i j nl,
  nowLoop id (u ++ 59%N :: x) i = Some (j, nl) -> j <= i + List.length u ->
  nowLoop id (u ++ 59%N :: y) i = Some (j, nl).
Proof.
  intros Hid HO. induction u as [|c u IH]; intros HL i j nl H L.
  - exfalso. cbn [app nowLoop N.eqb Pos.eqb mAnd] in H. destruct (nowLoop id x (S i)) as [[j' nl']|] eqn:E; [|discriminate].
    injection H as <- _. apply now_ge in E. cbn in L. lia.
  - pose proof (lastOK_tail _ _ HL) as HL'. cbn [app nowLoop] in *. cbn [List.length] in L.
    rewrite (hereEnd_cut id u y x Hid HO HL').
    destruct (Some (c =? 10)%N &&& isHereNowDocEnd id (u ++ 59%N :: x)) as [[|]|]; auto.
    destruct (nowLoop id (u ++ 59%N :: x) (S i)) as [[j' nl']|] eqn:E1; [|discriminate]. injection H as <- <-.
    rewrite (IH HL' _ _ _ E1) by lia. reflexivity.
Qed.
End Cut.
