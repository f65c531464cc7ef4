(** Proofs for C13: what the lexer hands out up to a ";" token does not depend on the text
    behind it.  Proof file. *)
From Verif Require Import LexModel LexInv LexSpec LexSpec2 LexHandlers LexRun LexFun LexFun5.
Open Scope nat_scope.

Section Cut.
Variable cc : CharClass.
Hypothesis OK : ascii_ok cc.
Notation S59 := (59%N) (only parsing).

Lemma semi_digit : isDigit cc 59 = false. Proof. rewrite (ok_digit _ OK) by lia. reflexivity. Qed.
Lemma semi_letter : isLetter cc 59 = false. Proof. rewrite (ok_letter _ OK) by lia. reflexivity. Qed.
Lemma semi_space : isSpace cc 59 = false. Proof. rewrite (ok_space _ OK) by lia. reflexivity. Qed.
Lemma semi_lower : toLower cc 59 = 59%N. Proof. rewrite (ok_lower _ OK) by lia. reflexivity. Qed.
Lemma semi_ident : isIdent cc 59 = false. Proof. unfold isIdent. rewrite semi_letter, semi_digit. reflexivity. Qed.
Lemma semi_identStart : isIdentStart cc 59 = false. Proof. unfold isIdentStart. now rewrite semi_ident. Qed.
Hint Rewrite semi_digit semi_letter semi_space semi_lower semi_ident semi_identStart : semi.

(** The result does not depend on the text behind the semicolon. *)
Definition indep {A} (f : list N -> A) : Prop := forall u x y, u <> [] -> f (u ++ 59%N :: x) = f (u ++ 59%N :: y).

Lemma skipWhile_cut p u i : p 59%N = false ->
  exists n, n <= List.length u /\ forall x, skipWhile p (u ++ 59%N :: x) i = (i + n, skipn n u ++ 59%N :: x).
Proof.
  intros Hp. revert i; induction u as [|c u IH]; intros i; cbn [app skipWhile].
  - exists 0. split; [lia|]. intros x. rewrite Hp, Nat.add_0_r. reflexivity.
  - destruct (p c).
    + destruct (IH (S i)) as (n & Hn & H). exists (S n). split; [cbn; lia|]. intros x. rewrite H. cbn. f_equal. lia.
    + exists 0. split; [lia|]. intros x. rewrite Nat.add_0_r. reflexivity.
Qed.
Lemma scanWhile_cut p u i : p 59%N = false -> forall x y, scanWhile p (u ++ 59%N :: x) i = scanWhile p (u ++ 59%N :: y) i.
Proof.
  intros Hp. revert i; induction u as [|c u IH]; intros i x y; cbn [app scanWhile].
  - now rewrite Hp.
  - destruct (p c); [|reflexivity]. now rewrite (IH (S i) x y).
Qed.
Lemma numLoop_cut h b u : forall hp i num, exists n hp' num', n <= List.length u /\
  forall x, numLoop cc h b hp (u ++ 59%N :: x) i num = (i + n, skipn n u ++ 59%N :: x, hp', num').
Proof.
  induction u as [|c u IH]; intros hp i num; cbn [app numLoop].
  - exists 0, hp, num. split; [lia|]. intros x. unfold numChar. autorewrite with semi. rewrite Nat.add_0_r.
    destruct h, b, hp; reflexivity.
  - destruct (numChar cc h b hp c).
    + destruct (IH (if (c =? 46)%N then true else hp) (S i) (num ++ [c])) as (n & hp' & num' & Hn & H).
      exists (S n), hp', num'. split; [cbn; lia|]. intros x. rewrite H. cbn. do 3 f_equal. lia.
    + exists 0, hp, num. split; [lia|]. intros x. rewrite Nat.add_0_r. reflexivity.
Qed.

Ltac semi := repeat (progress (cbn [app skipn peek option_map mAnd mOr mNot negb N.eqb Pos.eqb orb andb fst snd]; autorewrite with semi)).
Ltac open_it := unfold isC, test, simple.

Lemma bang_cut st id : indep (lexBang st id).
Proof. intros [|a [|b [|c u]]] x y H; [congruence|..]; unfold lexBang; open_it; semi; reflexivity. Qed.
Lemma greater_cut st id : indep (lexGreater st id).
Proof. intros [|a [|b [|c u]]] x y H; [congruence|..]; unfold lexGreater; open_it; semi; reflexivity. Qed.
Lemma colon_cut st id : indep (lexColon st id).
Proof. intros [|a [|b [|c u]]] x y H; [congruence|..]; unfold lexColon; open_it; semi; reflexivity. Qed.
Lemma question_cut st id : indep (lexQuestion st id).
Proof. intros [|a [|b [|c u]]] x y H; [congruence|..]; unfold lexQuestion; open_it; semi; reflexivity. Qed.
Lemma star_cut st id : indep (lexStar st id).
Proof. intros [|a [|b [|c u]]] x y H; [congruence|..]; unfold lexStar; open_it; semi; reflexivity. Qed.
Lemma dot_cut st id : indep (lexDot st id).
Proof. intros [|a [|b [|c u]]] x y H; [congruence|..]; unfold lexDot; open_it; semi; reflexivity. Qed.
Lemma equal_cut st id : indep (lexEqual st id).
Proof. intros [|a [|b [|c u]]] x y H; [congruence|..]; unfold lexEqual; open_it; semi; reflexivity. Qed.
Lemma op_cut st id t ta : indep (fun it => lexOpAssign st id it t ta).
Proof. intros [|a [|b [|c u]]] x y H; [congruence|..]; unfold lexOpAssign; open_it; semi; reflexivity. Qed.
Lemma double_cut st id k td ta t : k <> 59%N -> indep (fun it => lexDouble st id it k td ta t).
Proof.
  intros Hk. intros [|a [|b [|c u]]] x y H; [congruence|..]; unfold lexDouble; open_it; semi; try reflexivity.
Qed.
Lemma peek_cut u x y k : k <= List.length u -> peek (u ++ 59%N :: x) k = peek (u ++ 59%N :: y) k.
Proof. revert k; induction u as [|c u IH]; intros [|k] H; cbn in *; auto; [lia|apply IH; lia]. Qed.

Lemma arrow_cut st id a u x y : lexArrow cc st id (a :: 62%N :: u ++ 59%N :: x) = lexArrow cc st id (a :: 62%N :: u ++ 59%N :: y).
Proof. unfold lexArrow; open_it. destruct u; semi; reflexivity. Qed.
Lemma variable_cut : indep (processVariable cc).
Proof.
  intros [|a [|b u]] x y H; [congruence|..]; unfold processVariable; open_it; semi; (destruct (a =? 36)%N; [|reflexivity]); semi; [reflexivity|].
  destruct (isIdentStart cc b); [|reflexivity].
  destruct (skipWhile_cut (isIdent cc) (b :: u) 1 semi_ident) as (n & _ & Hn). cbn [app] in Hn. now rewrite !Hn.
Qed.

Lemma number_cut st id : indep (lexNumber cc st id).
Proof.
  intros u x y H. unfold lexNumber. open_it.
  assert (H1 : exists h v i, forall x, (hex <- mAnd (option_map (fun x => (x =? 48)%N) (peek (u ++ 59%N :: x) 0)) (option_map (fun c => (toLower cc c =? 120)%N) (peek (u ++ 59%N :: x) 1)) ;;
      Some (hex, if hex : bool then (skipn 2 (u ++ 59%N :: x), 2) else (u ++ 59%N :: x, 0))) = Some (h, (v ++ 59%N :: x, i))).
  { destruct u as [|a [|b u]]; [congruence|..]; semi.
    - destruct (a =? 48)%N; semi; exists false, [a], 0; reflexivity.
    - destruct (a =? 48)%N; semi; [destruct (toLower cc b =? 120)%N; [exists true, u, 2|exists false, (a :: b :: u), 0]; reflexivity|].
      exists false, (a :: b :: u), 0; reflexivity. }
  destruct H1 as (h & v & i & H1).
  assert (H2 : exists b w j, forall x, (bin <- mAnd (option_map (fun x => (x =? 48)%N) (peek (v ++ 59%N :: x) 0)) (option_map (fun c => (toLower cc c =? 98)%N) (peek (v ++ 59%N :: x) 1)) ;;
      Some (bin, if bin : bool then (skipn 2 (v ++ 59%N :: x), i + 2) else (v ++ 59%N :: x, i))) = Some (b, (w ++ 59%N :: x, j))).
  { destruct v as [|a [|b v]]; semi.
    - exists false, [], i; reflexivity.
    - destruct (a =? 48)%N; semi; exists false, [a], i; reflexivity.
    - destruct (a =? 48)%N; semi; [destruct (toLower cc b =? 98)%N; [exists true, v, (i + 2)|exists false, (a :: b :: v), i]; reflexivity|].
      exists false, (a :: b :: v), i; reflexivity. }
  destruct H2 as (b & w & j & H2).
  destruct (numLoop_cut h b w false j []) as (n & hp & num & Hn & H3).
  assert (E : forall x, lexNumber cc st id (u ++ 59%N :: x) = 
     let it3 := skipn n w ++ 59%N :: x in
     expo <- (Some (negb h && negb b) &&& test it3 0 (fun c => toLower cc c =? 101)%N
           &&& (test it3 1 (isDigit cc)
                ||| ((isC it3 1 cMINUS ||| isC it3 1 cPLUS) &&& test it3 2 (isDigit cc)))) ;;
     if expo : bool then
      let it4 := skipn 1 it3 in
      sgn <- (isC it4 0 cMINUS ||| isC it4 0 cPLUS) ;;
      let '(it5, i5) := if sgn : bool then (skipn 1 it4, (j + n + 2)%nat) else (it4, (j + n + 1)%nat) in
      let '(i6, _) := skipWhile (isDigit cc) it5 i5 in
      simple st id T_DNUMBER i6
     else if hp then simple st id T_DNUMBER (j + n)
     else simple st id (if toLongOk num (if h then 16 else 10)%N then T_LNUMBER else T_DNUMBER) (j + n)).
  { intros z. unfold lexNumber, isC, test. specialize (H1 z).
    destruct (mAnd (option_map (fun x => (x =? 48)%N) (peek (u ++ 59%N :: z) 0)) _) as [h1|]; [|discriminate].
    injection H1 as -> H1. cbn [skipn] in H1 |- *. rewrite H1. specialize (H2 z).
    destruct (mAnd (option_map (fun x => (x =? 48)%N) (peek (v ++ 59%N :: z) 0)) _) as [b1|]; [|discriminate].
    injection H2 as -> H2. cbn [skipn] in H2 |- *. rewrite H2. rewrite H3. reflexivity. }
  fold (lexNumber cc st id). clear H1 H2 H3.
  change (lexNumber cc st id (u ++ 59%N :: x) = lexNumber cc st id (u ++ 59%N :: y)). rewrite !E.
  cbv zeta. generalize (skipn n w). intros r. generalize (negb h && negb b). intros q. unfold isC, test.
  destruct q; semi; [|reflexivity].
  destruct r as [|a [|d [|e r]]]; semi; try reflexivity.
  - destruct (toLower cc a =? 101)%N; reflexivity.
  - destruct (toLower cc a =? 101)%N; semi; [|reflexivity]. destruct (isDigit cc d) eqn:Ed; semi.
    + destruct (d =? 45)%N eqn:E1; semi. { destruct (N.eqb_spec d 45); [|discriminate]. subst d. rewrite (ok_digit _ OK) in Ed by lia. discriminate. }
      destruct (d =? 43)%N eqn:E2; semi. { destruct (N.eqb_spec d 43); [|discriminate]. subst d. rewrite (ok_digit _ OK) in Ed by lia. discriminate. }
      destruct (skipWhile_cut (isDigit cc) [d] (j + n + 1) semi_digit) as (m & _ & Hm). cbn [app] in Hm. rewrite !Hm. reflexivity.
    + destruct (d =? 45)%N; semi; [reflexivity|]. destruct (d =? 43)%N; semi; reflexivity.
  - destruct (toLower cc a =? 101)%N; semi; [|reflexivity]. destruct (isDigit cc d) eqn:Ed; semi.
    + destruct (d =? 45)%N eqn:E1; semi. { destruct (N.eqb_spec d 45); [|discriminate]. subst d. rewrite (ok_digit _ OK) in Ed by lia. discriminate. }
      destruct (d =? 43)%N eqn:E2; semi. { destruct (N.eqb_spec d 43); [|discriminate]. subst d. rewrite (ok_digit _ OK) in Ed by lia. discriminate. }
      destruct (skipWhile_cut (isDigit cc) (d :: e :: r) (j + n + 1) semi_digit) as (m & _ & Hm). cbn [app] in Hm. rewrite !Hm. reflexivity.
    + destruct (skipWhile_cut (isDigit cc) (e :: r) (j + n + 2) semi_digit) as (m & _ & Hm). cbn [app] in Hm.
      destruct (d =? 45)%N; semi; [destruct (isDigit cc e); [rewrite !Hm|]; reflexivity|].
      destruct (d =? 43)%N; semi; [destruct (isDigit cc e); [rewrite !Hm|]; reflexivity|reflexivity].
Qed.

Lemma paren_cut st id : indep (lexParen cc st id).
Proof.
  intros [|a u] x y H; [congruence|]. unfold lexParen. cbn [app skipn].
  destruct (skipWhile_cut (isSpace cc) u 1 semi_space) as (n1 & L1 & H1). rewrite !H1.
  destruct (skipWhile_cut (isLetter cc) (skipn n1 u) (1 + n1) semi_letter) as (n2 & L2 & H2). rewrite !H2.
  destruct (skipWhile_cut (isSpace cc) (skipn n2 (skipn n1 u)) (1 + n1 + n2) semi_space) as (n3 & L3 & H3). rewrite !H3.
  replace (1 + n1 + n2 - (1 + n1)) with n2 by lia.
  rewrite !firstn_app. replace (n2 - List.length (skipn n1 u)) with 0 by lia.
  unfold isC, test. rewrite (peek_cut _ x y 0) by lia. reflexivity.
Qed.

(** * Heredoc start *)
Lemma hereSkip_cut u : exists n, n <= List.length u /\ forall x, hereSkip (u ++ 59%N :: x) = skipn n u ++ 59%N :: x.
Proof.
  induction u as [|c u IH].
  - exists 0. split; [lia|]. intros [|z x]; reflexivity.
  - destruct ((c =? 32) || (c =? 9))%N eqn:E.
    + destruct IH as (n & Hn & H). exists (S n). split; [cbn; lia|]. intros x. cbn [skipn]. rewrite <- H. cbn [app hereSkip].
      destruct (u ++ 59%N :: x) eqn:E2; [destruct u; discriminate|]. rewrite E. reflexivity.
    + exists 0. split; [lia|]. intros x. cbn [app hereSkip skipn]. destruct (u ++ 59%N :: x) eqn:E2; [reflexivity|]. now rewrite E.
Qed.
Lemma hereIdent_cut u : forall acc, exists n id, n <= List.length u /\ forall x, hereIdent cc (u ++ 59%N :: x) acc = (id, skipn n u ++ 59%N :: x).
Proof.
  induction u as [|c u IH]; intros acc.
  - exists 0, acc. split; [lia|]. intros [|z x]; cbn [app hereIdent skipn]; autorewrite with semi; reflexivity.
  - destruct (isDigit cc c || isLetter cc c || (c =? 95)%N) eqn:E.
    + destruct (IH (acc ++ [c])) as (n & id & Hn & H). exists (S n), id. split; [cbn; lia|]. intros x. cbn [skipn]. rewrite <- H. cbn [app hereIdent].
      destruct (u ++ 59%N :: x) eqn:E2; [destruct u; discriminate|]. rewrite E. reflexivity.
    + exists 0, acc. split; [lia|]. intros x. cbn [app hereIdent skipn]. destruct (u ++ 59%N :: x) eqn:E2; [reflexivity|]. now rewrite E.
Qed.

Lemma hereStart_cut st id u x y : 3 <= List.length u -> lexHereStart cc st id (u ++ 59%N :: x) = lexHereStart cc st id (u ++ 59%N :: y).
Proof.
  intros H3. unfold lexHereStart. rewrite !skipn_app. replace (3 - List.length u) with 0 by lia. rewrite !(skipn_O (A:=N)).
  destruct (hereSkip_cut (skipn 3 u)) as (n1 & L1 & H1). rewrite !H1. clear H1.
  assert (L : List.length (skipn n1 (skipn 3 u)) <= List.length u) by (rewrite !skipn_length; lia).
  revert L. generalize (skipn n1 (skipn 3 u)). intros r1 L. unfold isC, test. cbv zeta. rewrite (peek_cut r1 x y 0) by lia.
  destruct (option_map _ (peek (r1 ++ 59%N :: y) 0)) as [nd|] eqn:End; [|reflexivity].
  destruct (Some nd ||| option_map (fun z => (z =? 34)%N) (peek (r1 ++ 59%N :: y) 0)) as [q|] eqn:Eq; [|reflexivity].
  assert (H2 : exists r2, List.length r2 <= List.length u /\ forall x, (if q then skipn 1 (r1 ++ 59%N :: x) else r1 ++ 59%N :: x) = r2 ++ 59%N :: x).
  { destruct q; [|exists r1; auto]. destruct r1 as [|a r1].
    - cbn in End, Eq. injection End as <-. discriminate.
    - exists r1. split; [cbn in L; lia|reflexivity]. }
  destruct H2 as (r2 & L2 & H2). rewrite !H2. rewrite (peek_cut r2 x y 0) by lia.
  destruct (option_map _ (peek (r2 ++ 59%N :: y) 0)) as [[|]|]; [|reflexivity..].
  destruct (hereIdent_cut r2 []) as (n3 & id' & L3 & H4). rewrite !H4.
  assert (L4 : List.length (skipn n3 r2) <= List.length u) by (rewrite skipn_length; lia).
  revert L4. generalize (skipn n3 r2). intros r3 L4.
  assert (H5 : exists r4, List.length r4 <= List.length u /\ forall x,
     (if q && moreThanOne (r3 ++ 59%N :: x) then
             IF Some nd &&& option_map (fun x0 => (x0 =? 39)%N) (peek (r3 ++ 59%N :: x) 0) THEN Some (skipn 1 (r3 ++ 59%N :: x))
             ELSE IF option_map (fun x0 => (x0 =? 34)%N) (peek (r3 ++ 59%N :: x) 0) THEN Some (skipn 1 (r3 ++ 59%N :: x)) ELSE Some (r3 ++ 59%N :: x)
           else Some (r3 ++ 59%N :: x)) = Some (r4 ++ 59%N :: x)).
  { destruct r3 as [|a r3].
    - exists []. split; [cbn; lia|]. intros z. destruct q; [|reflexivity]. cbn [app moreThanOne andb peek option_map]. destruct z; [reflexivity|].
      destruct nd; reflexivity.
    - cbn [app peek option_map skipn]. destruct q; cbn [andb]; [|exists (a :: r3); auto].
      assert (M : forall x, moreThanOne (a :: r3 ++ 59%N :: x) = true) by (intros z; destruct r3; reflexivity).
      destruct (Some nd &&& Some (a =? 39)%N) as [[|]|] eqn:E1.
      + exists r3. split; [cbn in L4; lia|]. intros z. rewrite M. reflexivity.
      + destruct (a =? 34)%N; [exists r3|exists (a :: r3)]; (split; [cbn in *; lia|intros z; rewrite M; reflexivity]).
      + destruct nd; discriminate. }
  destruct H5 as (r4 & L5 & H5). rewrite !H5. clear H5.
  assert (H6 : forall x, (Some (moreThanOne (r4 ++ 59%N :: x)) &&& option_map (fun x0 => (x0 =? 10)%N) (peek (r4 ++ 59%N :: x) 0)) =
    Some (match r4 with c :: _ => (c =? 10)%N | [] => false end)).
  { intros z. destruct r4 as [|a [|b r4]]; cbn [app moreThanOne peek option_map mAnd]; [destruct z; reflexivity|reflexivity..]. }
  rewrite !H6. destruct (match r4 with c :: _ => (c =? 10)%N | [] => false end); [|reflexivity].
  rewrite !app_length. cbn [List.length].
  replace (List.length u + S (List.length x) - (List.length r4 + S (List.length x))) with
    (List.length u + S (List.length y) - (List.length r4 + S (List.length y))) by lia. reflexivity.
Qed.

Lemma less_cut st id : indep (lexLess cc st id).
Proof.
  intros u x y H. unfold lexLess. destruct (stateAt st 0); [|reflexivity].
  destruct u as [|a [|b [|d u]]]; [congruence|..].
  - open_it; semi; reflexivity.
  - open_it; semi. destruct (b =? 60)%N; semi; reflexivity.
  - open_it. semi. pose proof (hereStart_cut st id (a :: b :: d :: u) x y ltac:(cbn; lia)) as HH. cbn [app] in HH. rewrite HH. reflexivity.
Qed.
End Cut.
