(** Proofs for C13, continued: the handlers. *)
From Verif Require Import LexModel LexInv LexSpec LexSpec2 LexHandlers LexRun LexFun LexFun5 LexCut LexCut2.
Open Scope nat_scope.

Section Cut.
Variable cc : CharClass.
Hypothesis OK : ascii_ok cc.
Hint Rewrite (semi_digit cc OK) (semi_letter cc OK) (semi_space cc OK) (semi_lower cc OK) (semi_ident cc OK) (semi_identStart cc OK) : semi.
Ltac semi := repeat (progress (cbn [app skipn peek option_map mAnd mOr mNot negb N.eqb Pos.eqb orb andb fst snd]; autorewrite with semi)).
Ltac gd := unfold isC, test; repeat (semi; try reflexivity;
  match goal with
  | |- context [mAnd (Some ?b) _] => destruct b
  | |- context [mOr (Some ?b) _] => destruct b
  | |- context [if ?b then _ else _] => destruct b
  end).

Lemma html_stable st id u x y o : u <> [] -> lexHtml cc st id (u ++ 59%N :: x) = Some o -> o_len o <= List.length u ->
  lexHtml cc st id (u ++ 59%N :: y) = Some o.
Proof.
  intros Hu H L. unfold lexHtml in *.
  set (C1 := fun it => isC it 0 60 &&& isC it 1 63
     &&& mNot (test it 2 (fun c => toLower cc c =? 120)%N &&& test it 3 (fun c => toLower cc c =? 109)%N &&& test it 4 (fun c => toLower cc c =? 108)%N)).
  assert (E1 : C1 (u ++ 59%N :: y) = C1 (u ++ 59%N :: x)).
  { unfold C1. destruct u as [|a [|b [|c [|d [|e u]]]]]; [congruence|..]; gd. }
  assert (N1 : C1 (u ++ 59%N :: x) = Some true -> 2 <= List.length u).
  { unfold C1, isC, test. destruct u as [|a [|b u]]; [congruence| |cbn; lia]. semi. destruct (a =? 60)%N; semi; discriminate. }
  fold (C1 (u ++ 59%N :: x)) in H. fold (C1 (u ++ 59%N :: y)). rewrite E1. destruct (C1 (u ++ 59%N :: x)) as [[|]|]; [..|discriminate].
  - specialize (N1 eq_refl). clear E1 C1. destruct u as [|a [|b u]]; [cbn in N1; lia..|].
    assert (E2 : isC ((a :: b :: u) ++ 59%N :: y) 2 61 = isC ((a :: b :: u) ++ 59%N :: x) 2 61) by (unfold isC, test; destruct u; reflexivity).
    rewrite E2. destruct (isC _ 2 61) as [[|]|]; [exact H| |discriminate].
    set (C3 := fun it => test it 2 (fun c => toLower cc c =? 112)%N &&& test it 3 (fun c => toLower cc c =? 104)%N &&& test it 4 (fun c => toLower cc c =? 112)%N &&& test it 5 (isSpace cc)).
    assert (E3 : C3 ((a :: b :: u) ++ 59%N :: y) = C3 ((a :: b :: u) ++ 59%N :: x)).
    { unfold C3. destruct u as [|c [|d [|e [|f u]]]]; gd. }
    fold (C3 ((a :: b :: u) ++ 59%N :: x)) in H. fold (C3 ((a :: b :: u) ++ 59%N :: y)). rewrite E3.
    destruct (C3 _) as [[|]|]; [|exact H|discriminate].
    destruct (isC ((a :: b :: u) ++ 59%N :: x) 5 10) as [nl|] eqn:E5; [|discriminate]. injection H as <-. cbn [o_len] in L.
    replace (isC ((a :: b :: u) ++ 59%N :: y) 5 10) with (Some nl); [reflexivity|]. rewrite <- E5. unfold isC, test. f_equal. apply peek_cut. lia.
  - destruct (htmlLoop (u ++ 59%N :: x) 0) as [[j nl]|] eqn:E; [|discriminate]. injection H as <-. cbn [o_len] in L.
    rewrite (html_loop_cut u x y _ _ _ E) by lia. reflexivity.
Qed.

Lemma slash_stable st id u x y o : u <> [] -> lexSlash cc st id (u ++ 59%N :: x) = Some o -> o_len o <= List.length u ->
  lexSlash cc st id (u ++ 59%N :: y) = Some o.
Proof.
  intros Hu H L. unfold lexSlash in *. destruct u as [|a u]; [congruence|].
  assert (P1 : forall k, isC ((a :: u) ++ 59%N :: y) 1 k = isC ((a :: u) ++ 59%N :: x) 1 k) by (intros k; unfold isC, test; destruct u; reflexivity).
  rewrite !P1. destruct (isC ((a :: u) ++ 59%N :: x) 1 61) as [[|]|]; [exact H| |discriminate].
  destruct (isC ((a :: u) ++ 59%N :: x) 1 47) as [[|]|] eqn:E1; [..|discriminate].
  - destruct u as [|b u]; [discriminate E1|].
    replace (isC ((a :: b :: u) ++ 59%N :: y) 2 47) with (isC ((a :: b :: u) ++ 59%N :: x) 2 47) by (unfold isC, test; destruct u; reflexivity).
    destruct (isC _ 2 47) as [doc|]; [|discriminate].
    destruct (lineComment cc doc 0 ((a :: b :: u) ++ 59%N :: x) 0) as [[len nl]|] eqn:E; [|discriminate]. injection H as <-. cbn [o_len] in L.
    rewrite (line_cut cc OK doc _ x y _ _ _ _ E) by (cbn in *; lia). reflexivity.
  - destruct (isC ((a :: u) ++ 59%N :: x) 1 42) as [[|]|] eqn:E2; [|exact H|discriminate].
    destruct u as [|b u]; [discriminate E2|].
    replace (isC ((a :: b :: u) ++ 59%N :: y) 2 42 &&& test ((a :: b :: u) ++ 59%N :: y) 3 (isSpace cc)) with
      (isC ((a :: b :: u) ++ 59%N :: x) 2 42 &&& test ((a :: b :: u) ++ 59%N :: x) 3 (isSpace cc)) by (destruct u as [|c [|d u]]; gd).
    destruct (_ &&& _) as [doc|]; [|discriminate]. cbn [app skipn] in *.
    destruct (blockLoop (u ++ 59%N :: x) 2) as [[j nl]|] eqn:E; [|discriminate]. injection H as <-. cbn [o_len] in L.
    rewrite (block_cut u x y _ _ _ E) by (cbn in L; lia). reflexivity.
Qed.
Lemma hash_stable st id u x y o : u <> [] -> lexHash cc st id (u ++ 59%N :: x) = Some o -> o_len o <= List.length u ->
  lexHash cc st id (u ++ 59%N :: y) = Some o.
Proof.
  intros Hu H L. unfold lexHash in *.
  destruct (lineComment cc false 0 (u ++ 59%N :: x) 0) as [[len nl]|] eqn:E; [|discriminate]. injection H as <-. cbn [o_len] in L.
  rewrite (line_cut cc OK false _ x y _ _ _ _ E) by lia. reflexivity.
Qed.
Lemma sq_stable st id b u x y o : u <> [] -> lexSQ st id b (u ++ 59%N :: x) = Some o -> o_len o <= List.length u ->
  lexSQ st id b (u ++ 59%N :: y) = Some o.
Proof.
  intros Hu H L. unfold lexSQ in *. destruct u as [|a u]; [congruence|]. cbn [app skipn] in *.
  destruct (sqLoop (39%N :: b) (u ++ 59%N :: x) 1) as [[j nl]|] eqn:E; [|discriminate]. injection H as <-. cbn [o_len] in L.
  cbn [List.length] in *. rewrite app_length in L. cbn [List.length] in L.
  destruct (Nat.eqb_spec j (S (List.length u + S (List.length x)))); [lia|].
  rewrite (sq_cut u x y _ _ _ _ E) by lia. rewrite app_length. cbn [List.length].
  destruct (Nat.eqb_spec j (S (List.length u + S (List.length y)))); [lia|]. rewrite app_length. cbn [List.length].
  destruct (Nat.eqb_spec j (S (List.length u + S (List.length x)))); [lia|]. reflexivity.
Qed.
Lemma dq_stable st id b u x y o : u <> [] -> lexDQ cc st id b (u ++ 59%N :: x) = Some o -> o_len o <= List.length u ->
  (forall i, dqLoop cc (34%N :: b) (skipn 1 (u ++ 59%N :: x)) 1 = Some (i, true) -> i < List.length u) ->
  lexDQ cc st id b (u ++ 59%N :: y) = Some o.
Proof.
  intros Hu H L HV. unfold lexDQ in *. destruct u as [|a u]; [congruence|]. cbn [app skipn List.length] in *.
  destruct (dqLoop cc (34%N :: b) (u ++ 59%N :: x) 1) as [[i [|]]|] eqn:E; [..|discriminate].
  - specialize (HV _ eq_refl). rewrite (dq_cut cc u x y _ _ _ _ E) by lia. exact H.
  - pose proof (dq_ge _ _ _ _ _ _ E) as Hge. rewrite app_length in H. cbn [List.length] in H.
    assert (Hi : i <> S (List.length u + S (List.length x))).
    { intros ->. rewrite Nat.eqb_refl in H. injection H as <-. cbn [o_len] in L. lia. }
    destruct (Nat.eqb_spec i (S (List.length u + S (List.length x)))); [lia|]. injection H as <-. cbn [o_len] in L.
    rewrite (dq_cut cc u x y _ _ _ _ E) by lia. rewrite app_length. cbn [List.length].
    destruct (Nat.eqb_spec i (S (List.length u + S (List.length y)))); [lia|].
    rewrite !firstn_app. replace (i - 1 - List.length u) with 0 by lia. reflexivity.
Qed.

(** The blanks behind [yield] end early enough in [u]. *)
Definition farEnough (u : list N) (n : nat) : Prop :=
  exists k c, n <= k /\ k + 3 <= List.length u /\ nth_error u k = Some c /\ isSpace cc c = false.

Lemma ident_stable st id u x y o : u <> [] -> lexIdent cc st id (u ++ 59%N :: x) = Some o -> o_len o <= List.length u ->
  (o_tok o = T_YIELD -> farEnough u (o_len o)) ->
  lexIdent cc st id (u ++ 59%N :: y) = Some o.
Proof.
  intros Hu H L HY. unfold lexIdent in *.
  destruct (skipWhile_cut (isIdent cc) u 0 (semi_ident cc OK)) as (n & Ln & E). rewrite E in H. rewrite E. cbn [Nat.add] in *.
  rewrite firstn_app in H. rewrite firstn_app. replace (n - List.length u) with 0 in * by lia. cbn [firstn] in *.
  destruct (findKw cc (firstn n u ++ [])) as [[t| |]|]; [exact H| | |exact H].
  - destruct (skipWhile_cut (isSpace cc) (skipn n u) n (semi_space cc OK)) as (m & Lm & E2). rewrite E2 in H. rewrite E2.
    revert H. generalize (skipn m (skipn n u)). intros w H.
    replace (Some match w ++ 59%N :: y with [] => false | _ => true end &&& isC (w ++ 59%N :: y) 0 58 &&& isC (w ++ 59%N :: y) 1 58) with
      (Some match w ++ 59%N :: x with [] => false | _ => true end &&& isC (w ++ 59%N :: x) 0 58 &&& isC (w ++ 59%N :: x) 1 58); [exact H|].
    destruct w as [|a [|b w]]; gd.
  - destruct (skipWhile_cut (isSpace cc) (skipn n u) n (semi_space cc OK)) as (m & Lm & E2). rewrite E2 in H. rewrite E2.
    assert (W : 3 <= List.length (skipn m (skipn n u))).
    { assert (HF : farEnough u n \/ n + m + 4 <= List.length u).
      { destruct (peek _ 0) as [a|]; [|discriminate]. destruct (peek _ 1) as [b|]; [|discriminate].
        destruct (peek _ 2) as [c|]; [|discriminate]. destruct (peek _ 3) as [d|]; [|discriminate].
        destruct (_ && _); injection H as <-; cbn [o_tok o_len] in *; [right; lia|left; auto]. }
      rewrite !skipn_length. rewrite skipn_length in Lm. destruct HF as [(k & c & H1 & H2 & H3 & H4)|HF]; [|lia].
      destruct (Nat.le_gt_cases (n + m) k) as [?|Hlt]; [lia|exfalso].
      destruct (skipWhile_spec (isSpace cc) (skipn n u ++ [59%N]) n) as (q & E3 & _ & HF & _).
      specialize (E2 []). rewrite E2 in E3. injection E3 as E3 _. assert (q = m) by lia. subst q.
      rewrite firstn_app in HF. apply Forall_app in HF as [HF _].
      assert (Hc : nth_error (firstn m (skipn n u)) (k - n) = Some c).
      { clear -H1 Hlt H3. revert k m H1 Hlt H3. revert u. induction n as [|n IH]; intros u k m H1 Hlt H3.
        - cbn [skipn]. rewrite Nat.sub_0_r. clear -Hlt H3. revert u k Hlt H3. induction m as [|m IH]; intros u k Hlt H3; [lia|].
          destruct u as [|z u]; [destruct k; discriminate|]. destruct k; [exact H3|]. cbn in *. apply IH; [lia|exact H3].
        - destruct u as [|z u]; [destruct k; discriminate|]. destruct k as [|k]; [lia|]. cbn in H3 |- *. apply (IH u k m); [lia|lia|exact H3]. }
      apply nth_error_In in Hc. rewrite Forall_forall in HF. specialize (HF _ Hc). cbn in HF. congruence. }
    revert H W. generalize (skipn m (skipn n u)). intros w H W.
    rewrite (peek_cut w y x 0), (peek_cut w y x 1), (peek_cut w y x 2), (peek_cut w y x 3) by lia.
    rewrite app_length in *. cbn [List.length] in *.
    replace (4 <=? List.length w + S (List.length y)) with true by (symmetry; apply Nat.leb_le; lia).
    replace (4 <=? List.length w + S (List.length x)) with true in H by (symmetry; apply Nat.leb_le; lia). exact H.
Qed.

(** The conditions under which a step does not depend on the text behind the semicolon. *)
Record StepCond (u x before : list N) (o : Out) : Prop := {
  sc_len : o_len o <= List.length u;
  sc_yield : o_tok o = T_YIELD -> farEnough u (o_len o);
  sc_dq : o_tok o = T_DOUBLE_QUOTE -> forall i,
     dqLoop cc (34%N :: before) (skipn 1 (u ++ 59%N :: x)) 1 = Some (i, true) -> i < List.length u
}.

Lemma default_stable st id b u x y o : u <> [] -> lexDefault cc st id b (u ++ 59%N :: x) = Some o ->
  StepCond u x b o -> lexDefault cc st id b (u ++ 59%N :: y) = Some o.
Proof.
  intros Hu H [L HY HD]. unfold lexDefault in *. destruct u as [|a u]; [congruence|].
  cbn [app peek] in H. cbn [app peek]. change (a :: u ++ 59%N :: x) with ((a :: u) ++ 59%N :: x) in *. change (a :: u ++ 59%N :: y) with ((a :: u) ++ 59%N :: y).
  destruct (stateAt st 0) as [s|]; [|discriminate].
  destruct (isSpace cc a). { rewrite (scanWhile_cut (isSpace cc) (a :: u) 0 (semi_space cc OK) y x). exact H. }
  assert (P1 : forall p, test ((a :: u) ++ 59%N :: y) 1 p = test ((a :: u) ++ 59%N :: x) 1 p) by (intros p; unfold test; destruct u; reflexivity).
  rewrite P1. destruct (Some (isDigit cc a) ||| _) as [[|]|]; [rewrite (number_cut cc OK st id (a :: u) y x Hu); exact H| |discriminate].
  rewrite (variable_cut cc OK (a :: u) y x Hu). destruct (processVariable cc _) as [[len|]|]; [exact H| |discriminate].
  do 4 (destruct (a =? _)%N; [exact H|]).
  destruct (a =? 40)%N; [rewrite (paren_cut cc OK st id (a :: u) y x Hu); exact H|].
  do 4 (destruct (a =? _)%N; [exact H|]).
  destruct (a =? 33)%N; [rewrite (bang_cut st id (a :: u) y x Hu); exact H|].
  destruct (a =? 60)%N; [rewrite (less_cut cc OK st id (a :: u) y x Hu); exact H|].
  destruct (a =? 62)%N; [rewrite (greater_cut st id (a :: u) y x Hu); exact H|].
  destruct (a =? 126)%N; [exact H|].
  destruct (a =? 58)%N; [rewrite (colon_cut st id (a :: u) y x Hu); exact H|].
  destruct (a =? 63)%N; [rewrite (question_cut st id (a :: u) y x Hu); exact H|].
  unfold isC at 1. unfold isC at 1 in H. rewrite P1.
  destruct (Some (a =? 45)%N &&& _) as [[|]|] eqn:EA; [| |discriminate].
  { destruct (a =? 45)%N; [|discriminate]. destruct u as [|b' u]; [cbn in EA; discriminate|]. cbn in EA. destruct (N.eqb_spec b' 62); [|discriminate]. subst b'.
    cbn [app]. rewrite (arrow_cut cc OK st id a u y x). exact H. }
  clear EA.
  destruct (a =? 37)%N; [rewrite (op_cut st id _ _ (a :: u) y x Hu); exact H|].
  destruct (a =? 47)%N; [eapply slash_stable; eauto|].
  destruct (a =? 35)%N; [eapply hash_stable; eauto|].
  destruct (a =? 94)%N; [rewrite (op_cut st id _ _ (a :: u) y x Hu); exact H|].
  destruct (a =? 42)%N; [rewrite (star_cut st id (a :: u) y x Hu); exact H|].
  destruct (a =? 124)%N; [rewrite (double_cut st id 124 _ _ _ ltac:(discriminate) (a :: u) y x Hu); exact H|].
  destruct (a =? 38)%N; [rewrite (double_cut st id 38 _ _ _ ltac:(discriminate) (a :: u) y x Hu); exact H|].
  destruct (a =? 43)%N; [rewrite (double_cut st id 43 _ _ _ ltac:(discriminate) (a :: u) y x Hu); exact H|].
  destruct (a =? 45)%N; [rewrite (double_cut st id 45 _ _ _ ltac:(discriminate) (a :: u) y x Hu); exact H|].
  destruct (a =? 46)%N; [rewrite (dot_cut st id (a :: u) y x Hu); exact H|].
  destruct (a =? 92)%N; [exact H|]. destruct (a =? 59)%N; [exact H|].
  destruct (a =? 39)%N; [eapply sq_stable; eauto|].
  destruct (a =? 34)%N.
  { eapply dq_stable; eauto. intros i Hi. apply HD; [|exact Hi]. unfold lexDQ in H. rewrite Hi in H. injection H as <-. reflexivity. }
  destruct (a =? 96)%N; [exact H|].
  destruct (a =? 61)%N; [rewrite (equal_cut st id (a :: u) y x Hu); exact H|].
  destruct (isIdentStart cc a); [eapply ident_stable; eauto|exact H].
Qed.
End Cut.
