(** Proofs about single tokens, part 4: static, yield, casts, variables, HTML (proof file). *)
From Verif Require Export LexFun3.
Open Scope nat_scope.

Section F.
Variable cc : CharClass.
Hypothesis OK : ascii_ok cc.
Variable content : qstring.

Lemma static_token l name w r :
  inPhp cc content l (name ++ w ++ r) -> wholeWord cc name (w ++ r) -> sameWord cc name (str "static") ->
  allBlank cc w -> (forall c s, r = c :: s -> isSpace cc c = false) ->
  exists l' k, yields cc content l k name (w ++ r) l' /\ lx_st l' = lx_st l /\
    ((k = T_STRING /\ exists x, r = str "::" ++ x) \/ (k = T_STATIC /\ ~ exists x, r = str "::" ++ x)).
Proof.
  intros Hp HW HS Hw Hr. destruct (inPhp_state _ OK _ _ _ Hp) as [s [q [Hs Hm]]].
  pose proof (wholeWord_lex cc OK name (w ++ r) s q (lx_id l) (rev (firstn (lx_pos l) content)) HW) as E.
  rewrite (findKw_static cc OK _ HS), skipWhile_app in E by auto.
  assert (HX : Some (match r with [] => false | _ => true end) &&& isC r 0 58%N &&& isC r 1 58%N = Some (startsWith [58;58]%N r)).
  { rewrite <- (starts2 r 58 58) by discriminate. destruct r; reflexivity. }
  rewrite HX in E. destruct (startsWith [58;58]%N r) eqn:ES.
  - apply startsWith_spec in ES. destruct (word_yield cc OK content l name (w ++ r) T_STRING (List.length name) Hp HW) as [l' [HY Hst]]; [rewrite Hs; exact E|auto|].
    exists l', T_STRING. auto.
  - destruct (word_yield cc OK content l name (w ++ r) T_STATIC (List.length name) Hp HW) as [l' [HY Hst]]; [rewrite Hs; exact E|auto|].
    exists l', T_STATIC. split; auto. split; auto. right. split; auto. intros [x ->]. discriminate.
Qed.

Lemma yield_from_token l name w r :
  inPhp cc content l (name ++ w ++ str "from" ++ r) -> wholeWord cc name (w ++ str "from" ++ r) ->
  sameWord cc name (str "yield") -> allBlank cc w ->
  exists l', yields cc content l T_YIELD_FROM (name ++ w ++ str "from") r l' /\ lx_st l' = lx_st l.
Proof.
  intros Hp HW HS Hw. destruct (inPhp_state _ OK _ _ _ Hp) as [s [q [Hs Hm]]].
  pose proof (wholeWord_lex cc OK name _ s q (lx_id l) (rev (firstn (lx_pos l) content)) HW) as E.
  rewrite (findKw_yield' cc OK _ HS), skipWhile_app in E; auto.
  - cbn -[Nat.add] in E. rewrite <- Hs in E.
    change (102%N :: 114%N :: 111%N :: 109%N :: r) with (str "from" ++ r) in E.
    assert (E1 : name ++ w ++ str "from" ++ r = (name ++ w ++ str "from") ++ r) by (now rewrite <- !app_assoc).
    rewrite E1 in *. edestruct php_split as [l' [HY [Hst _]]]; [exact OK|exact Hp| |exact E| |eauto].
    + destruct HW as [[c [n' [-> _]]] _]. discriminate.
    + left. rewrite !app_length. cbn. lia.
  - intros c x Ec. injection Ec as <- _. rewrite (ok_space _ OK) by lia. reflexivity.
Qed.

Lemma yield_token l name w r :
  inPhp cc content l (name ++ w ++ r) -> wholeWord cc name (w ++ r) ->
  sameWord cc name (str "yield") -> allBlank cc w -> (forall c s, r = c :: s -> isSpace cc c = false) ->
  3 <= List.length r -> (forall x, r <> str "from" ++ x) ->
  exists l', yields cc content l T_YIELD name (w ++ r) l' /\ lx_st l' = lx_st l.
Proof.
  intros Hp HW HS Hw Hr Hlen Hno. destruct (inPhp_state _ OK _ _ _ Hp) as [s [q [Hs Hm]]].
  pose proof (wholeWord_lex cc OK name _ s q (lx_id l) (rev (firstn (lx_pos l) content)) HW) as E.
  rewrite (findKw_yield' cc OK _ HS), skipWhile_app in E; auto.
  destruct r as [|a [|b [|c r]]]; try (cbn in Hlen; lia).
  apply (word_yield cc OK content l name _ T_YIELD (List.length name)); [exact Hp|exact HW| |reflexivity]. rewrite Hs, E. cbn [peek].
  destruct r as [|d r]; [reflexivity|]. cbn [peek].
  destruct (eqs [a; b; c; d] (str "from")) eqn:Eq.
  - apply eqs_eq in Eq. injection Eq as -> -> -> ->. exfalso. apply (Hno r). reflexivity.
  - rewrite andb_false_r. reflexivity.
Qed.

(** ** Casts *)
Lemma castTok_table word k t : In (k, t) castTypes -> sameWord cc word k -> castTok cc word = t.
Proof.
  intros Hin HS. unfold castTok, eqsCI, sameWord in *.
  assert (HF : forall s, lowerAscii s = true -> map (foldCase cc) s = s) by apply (fold_lower cc OK).
  assert (Hk : map (foldCase cc) word = k).
  { rewrite HS. apply HF. cbn in Hin. repeat (destruct Hin as [E|Hin]; [injection E as <- <-; reflexivity|]). destruct Hin. }
  rewrite Hk. rewrite !HF by reflexivity.
  cbn in Hin. repeat (destruct Hin as [E|Hin]; [injection E as <- <-; reflexivity|]). destruct Hin.
Qed.
Lemma castTok_inv word : castTok cc word = T_LPAREN \/ exists k, In (k, castTok cc word) castTypes /\ sameWord cc word k.
Proof.
  unfold castTok, eqsCI, sameWord.
  repeat match goal with |- context [eqs (map ?f word) (map ?f ?k)] =>
    let E := fresh "E" in destruct (eqs (map f word) (map f k)) eqn:E;
    [apply eqs_eq in E; right; exists k; split; [cbn; tauto|exact E]|cbn [orb]] end.
  left. reflexivity.
Qed.

Lemma lexDefault_paren s q id before r :
  lexDefault cc (s :: q) id before (40%N :: r) = lexParen cc (s :: q) id (40%N :: r).
Proof.
  unfold lexDefault. cbn [peek stateAt nth_error].
  destruct (punct_tests cc OK 40%N r eq_refl) as [-> [-> [-> [-> _]]]]. reflexivity.
Qed.

Notation letters := (letters cc).
Hypothesis SL : forall c, isSpace cc c = true -> isLetter cc c = false.

Lemma rparen_class : isSpace cc 41%N = false /\ isLetter cc 41%N = false.
Proof. rewrite (ok_space _ OK), (ok_letter _ OK) by lia. auto. Qed.

Lemma cast_token l w1 word w2 r k t :
  inPhp cc content l (castShape cc w1 word w2 ++ r) ->
  allBlank cc w1 -> letters word -> allBlank cc w2 -> In (k, t) castTypes -> sameWord cc word k ->
  exists l', yields cc content l t (castShape cc w1 word w2) r l' /\ lx_st l' = lx_st l.
Proof.
  intros Hp H1 H2 H3 Hin HS. destruct (inPhp_state _ OK _ _ _ Hp) as [s [q [Hs Hm]]].
  destruct rparen_class as [Hr1 Hr2].
  assert (Hwne : exists c x, word = c :: x).
  { destruct word; eauto. unfold sameWord in HS. exfalso. cbn in Hin.
    repeat (destruct Hin as [E|Hin]; [injection E as <- <-; discriminate|]). destruct Hin. }
  assert (E : lexParen cc (s :: q) (lx_id l) (castShape cc w1 word w2 ++ r) =
     simple (s :: q) (lx_id l) t (List.length (castShape cc w1 word w2))).
  { unfold lexParen, castShape. cbn [str app]. change (N_of_ascii "(") with 40%N. change (N_of_ascii ")") with 41%N.
    rewrite <- !app_assoc. cbn [skipn].
    assert (Ea : skipWhile (isSpace cc) (w1 ++ word ++ w2 ++ [41%N] ++ r) 1 = (1 + List.length w1, word ++ w2 ++ [41%N] ++ r)).
    { apply skipWhile_app; auto. intros c x Ex. destruct Hwne as [c' [x' ->]]. injection Ex as <- _.
      inversion H2 as [|? ? Hl _]; subst. destruct (isSpace cc c') eqn:Es; auto. rewrite (SL _ Es) in Hl. discriminate. }
    rewrite Ea.
    assert (Eb : skipWhile (isLetter cc) (word ++ w2 ++ [41%N] ++ r) (1 + List.length w1) = (1 + List.length w1 + List.length word, w2 ++ [41%N] ++ r)).
    { apply skipWhile_app; auto. intros c x Ex. destruct w2 as [|c' w2]; injection Ex as <- _; auto.
      inversion H3 as [|? ? Hl _]; subst. auto. }
    rewrite Eb.
    assert (Ec : skipWhile (isSpace cc) (w2 ++ [41%N] ++ r) (1 + List.length w1 + List.length word) = (1 + List.length w1 + List.length word + List.length w2, [41%N] ++ r)).
    { apply skipWhile_app; auto. intros c x Ex. injection Ex as <- _. auto. }
    rewrite Ec. change (isC ([41%N] ++ r) 0 41%N) with (Some true). cbv iota.
    replace (1 + List.length w1 + List.length word - (1 + List.length w1)) with (List.length word) by lia.
    replace (firstn (List.length word) (word ++ w2 ++ [41%N] ++ r)) with word
      by (rewrite firstn_app, Nat.sub_diag, firstn_all, firstn_O, app_nil_r; reflexivity).
    rewrite (castTok_table word k t Hin HS).
    replace (List.length (40%N :: w1 ++ word ++ w2 ++ [41%N])) with (S (1 + List.length w1 + List.length word + List.length w2))
      by (cbn; rewrite !app_length; cbn; lia).
    assert (Ht : t <> T_LPAREN).
    { clear -Hin. intros ->. cbn in Hin. repeat (destruct Hin as [E|Hin]; [discriminate|]). destruct Hin. }
    destruct t; auto; congruence. }
  edestruct php_split as [l' [HY [Hst _]]]; [exact OK|exact Hp|discriminate| |left; reflexivity|].
  - rewrite Hs. change (castShape cc w1 word w2 ++ r) with (40%N :: (w1 ++ word ++ w2 ++ str ")") ++ r) in *.
    rewrite lexDefault_paren. exact E.
  - exists l'. split; [exact HY|congruence].
Qed.

Lemma paren_token l r :
  inPhp cc content l (40%N :: r) ->
  (forall w1 word w2 tail k t, 40%N :: r = castShape cc w1 word w2 ++ tail -> allBlank cc w1 -> letters word -> allBlank cc w2 ->
     In (k, t) castTypes -> ~ sameWord cc word k) ->
  exists l', yields cc content l T_LPAREN [40%N] r l' /\ lx_st l' = lx_st l.
Proof.
  intros Hp Hno. destruct (inPhp_state _ OK _ _ _ Hp) as [s [q [Hs Hm]]].
  assert (E : lexParen cc (s :: q) (lx_id l) (40%N :: r) = simple (s :: q) (lx_id l) T_LPAREN 1).
  { unfold lexParen. cbn [skipn].
    destruct (skipWhile_split (isSpace cc) r 1) as [w1 [x1 [-> [H1 [_ ->]]]]].
    destruct (skipWhile_split (isLetter cc) x1 (1 + List.length w1)) as [word [x2 [-> [H2 [_ ->]]]]].
    destruct (skipWhile_split (isSpace cc) x2 (1 + List.length w1 + List.length word)) as [w2 [x3 [-> [H3 [_ ->]]]]].
    replace (1 + List.length w1 + List.length word - (1 + List.length w1)) with (List.length word) by lia.
    replace (firstn (List.length word) (word ++ w2 ++ x3)) with word
      by (rewrite firstn_app, Nat.sub_diag, firstn_all, firstn_O, app_nil_r; reflexivity).
    unfold isC, test. rewrite peek0. cbn [option_map].
    destruct (N.eqb_spec (hd 0%N x3) 41) as [Eh|_]; [|reflexivity].
    destruct x3 as [|c x3]; [discriminate|]. cbn in Eh. subst c.
    destruct (castTok_inv word) as [->|[k [Hin HS]]]; [reflexivity|].
    exfalso. eapply (Hno w1 word w2 x3); eauto. unfold castShape. cbn. now rewrite <- !app_assoc. }
  edestruct (php_split cc OK content l [40%N] r) as [l' [HY [Hst _]]]; [exact Hp|discriminate| |left; reflexivity|].
  - rewrite Hs. cbn [app]. rewrite lexDefault_paren. exact E.
  - exists l'. split; [exact HY|congruence].
Qed.

(** ** Variables *)
Lemma variable_token l name r :
  inPhp cc content l (36%N :: name ++ r) ->
  (exists c s, name = c :: s /\ identStart cc c) -> Forall (identChar cc) name ->
  (forall c s, r = c :: s -> ~ identChar cc c) ->
  exists l', yields cc content l T_VARIABLE (36%N :: name) r l' /\ lx_st l' = lx_st l.
Proof. clear SL.
  intros Hp [c [n' [-> Hc]]] H1 H2. destruct (inPhp_state _ OK _ _ _ Hp) as [s [q [Hs Hm]]].
  edestruct (php_split cc OK content l (36%N :: c :: n') r) as [l' [HY [Hst _]]]; [exact Hp|discriminate| | |].
  - rewrite Hs. cbn [app]. unfold lexDefault. cbn [peek stateAt nth_error].
    rewrite (ok_space _ OK), (ok_digit _ OK) by lia. change (asciiSpace 36) with false. change (asciiDigit 36) with false.
    cbv iota. cbn [mOr mAnd]. change (36 =? 46)%N with false. cbn [mAnd]. cbv iota.
    unfold processVariable, isC, test. cbn [peek option_map]. change (36 =? 36)%N with true. cbn [mAnd].
    replace (isIdentStart cc c) with true by (symmetry; now apply identStart_spec). cbv iota.
    change (skipn 1 (36%N :: c :: n' ++ r)) with ((c :: n') ++ r).
    rewrite skipWhile_app.
    + reflexivity.
    + eapply Forall_impl; [|exact H1]. intros a Ha. now apply identChar_spec.
    + intros a x E. apply not_true_iff_false. rewrite identChar_spec. eauto.
  - left. reflexivity.
  - exists l'. split; [exact HY|congruence].
Qed.

(** Blanks *)
Lemma whitespace_token l w r :
  inPhp cc content l (w ++ r) -> w <> [] -> allBlank cc w -> (forall c s, r = c :: s -> isSpace cc c = false) ->
  exists l', yields cc content l T_WHITESPACE w r l' /\ lx_st l' = lx_st l.
Proof. clear SL.
  intros Hp Hne Hw Hr. destruct (inPhp_state _ OK _ _ _ Hp) as [s [q [Hs Hm]]].
  assert (E : exists nl, scanWhile (isSpace cc) (w ++ r) 0 = (List.length w, nl)).
  { destruct (scanWhile_spec (isSpace cc) (w ++ r) 0) as [n [E [Hl [Hf Hx]]]]. rewrite E. cbn [Nat.add]. 
    assert (n = List.length w); [|subst; eauto].
    destruct (Nat.lt_trichotomy n (List.length w)) as [H|[H|H]]; auto; exfalso.
    - destruct (nth_error w n) as [c|] eqn:En; [|apply nth_error_None in En; lia].
      specialize (Hx c). rewrite nth_error_app1, En in Hx by lia. specialize (Hx eq_refl).
      unfold allBlank in Hw. rewrite Forall_forall in Hw. rewrite (Hw c (nth_error_In _ _ En)) in Hx. discriminate.
    - destruct r as [|c r]; [rewrite app_nil_r in Hl; lia|].
      rewrite Forall_forall in Hf. specialize (Hf c). rewrite (Hr c r eq_refl) in Hf.
      rewrite firstn_app in Hf. destruct (n - List.length w) as [|m] eqn:Em; [lia|].
      assert (false = true); [|discriminate]. apply Hf. apply in_or_app. right. left. reflexivity. }
  destruct E as [nl E]. destruct w as [|c w]; [congruence|].
  edestruct (php_split cc OK content l (c :: w) r) as [l' [HY [Hst _]]]; [exact Hp|discriminate| | |].
  - rewrite Hs. cbn [app] in *. unfold lexDefault. cbn [peek stateAt nth_error].
    pose proof (Forall_inv Hw) as Hc. cbv beta in Hc. rewrite Hc, E. reflexivity.
  - left. reflexivity.
  - exists l'. split; [exact HY|congruence].
Qed.
End F.
