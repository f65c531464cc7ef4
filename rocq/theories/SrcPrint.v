(** C68, part 6: every list of plain tokens has a spelling. *)
From Verif Require Export SrcSpec.
From Verif Require Import LexFun7 ParseModel ParseProofs.
Open Scope nat_scope.

Definition asciiIdent (c : N) : bool := asciiLetter c || asciiDigit c || (c =? 95)%N.
(** A word of ASCII letters, digits and underscores. *)
Definition asciiWord (w : qstring) : bool :=
  match w with [] => false | c :: _ => negb (asciiDigit c) end && forallb (fun c => (c <? 128)%N && asciiIdent c) w.
Definition gapText : qstring := str " /**/".
Definition aName : qstring := str "x".
Fixpoint findWord (l : list (qstring * Tok)) (k : Tok) : option qstring :=
  match l with [] => None | (w, k') :: l' => if teq k' k then Some w else findWord l' k end.
Lemma findWord_in l k w : findWord l k = Some w -> In (w, k) l.
Proof. induction l as [|[w' k'] l IH]; cbn; [discriminate|]. destruct (teq k' k) eqn:T; [intros E; injection E as ->; apply teq_eq in T; subst; auto|auto]. Qed.
(** A spelling of each token. *)
Definition spelling (k : Tok) : qstring :=
  match k with
  | T_STRING => aName
  | T_STATIC => str "static" | T_YIELD => str "yield" | T_YIELD_FROM => str "yield from"
  | T_VARIABLE => str "$x" | T_DOLLAR => str "$"
  | T_LNUMBER => str "1" | T_DNUMBER => str "1.5"
  | T_CONSTANT_ENCAPSED_STRING => str "'a'"
  | T_LPAREN => str "("
  | T_INT_CAST => str "(int)" | T_DOUBLE_CAST => str "(float)" | T_STRING_CAST => str "(string)" | T_ARRAY_CAST => str "(array)"
  | T_OBJECT_CAST => str "(object)" | T_BOOL_CAST => str "(bool)" | T_UNSET_CAST => str "(unset)"
  | _ => match findWord phpKeywords k with Some w => w | None => match findWord operators k with Some w => w | None => [] end end
  end.

Section F.
Variable cc : CharClass.
Hypothesis OK : ascii_ok cc.

Lemma identChar_ascii c : (c < 128)%N -> identChar cc c <-> asciiIdent c = true.
Proof.
  intros H. unfold identChar, asciiIdent. rewrite (ok_letter _ OK c H), (ok_digit _ OK c H), !orb_true_iff, N.eqb_eq.
  split; intros X; [|]; repeat match goal with H : _ \/ _ |- _ => destruct H end; auto.
  all: try (exfalso; lia).
Qed.
Lemma not_ident c : (c < 128)%N -> asciiIdent c = false -> ~ identChar cc c.
Proof. intros H E X. apply identChar_ascii in X; [congruence|exact H]. Qed.
Lemma gap_ident r : forall c s, gapText ++ r = c :: s -> ~ identChar cc c.
Proof. intros c s E. injection E as <- _. apply not_ident; [lia|reflexivity]. Qed.
Lemma ascii_letters w : forallb (fun c => (c <? 128)%N && asciiLetter c) w = true -> letters cc w.
Proof.
  intros H. apply Forall_forall. intros c Hc. rewrite forallb_forall in H. specialize (H c Hc). apply andb_true_iff in H. destruct H as [H1 H2].
  rewrite (ok_letter _ OK) by lia. exact H2.
Qed.
Lemma ascii_word w r : asciiWord w = true -> (forall c s, r = c :: s -> ~ identChar cc c) -> wholeWord cc w r.
Proof.
  intros H Hr. destruct w as [|c w]; [discriminate|]. unfold asciiWord in H. apply andb_true_iff in H. destruct H as [H1 H].
  split; [|split; [|exact Hr]].
  - exists c, w. pose proof H as H'. cbn [forallb] in H'. apply andb_true_iff in H'. destruct H' as [H' _]. apply andb_true_iff in H'. destruct H' as [A B].
    split; [reflexivity|]. split; [split; [apply identChar_ascii; [lia|exact B]|rewrite (ok_digit _ OK) by lia; now apply negb_true_iff]|].
    rewrite (ok_space _ OK) by lia. unfold asciiIdent, asciiLetter, asciiUpper, asciiLowerLetter, asciiDigit, asciiSpace in *. lia.
  - apply Forall_forall. intros d Hd. rewrite forallb_forall in H. specialize (H d Hd). apply andb_true_iff in H. destruct H as [A B].
    apply identChar_ascii; [lia|exact B].
Qed.
Lemma kw_lexeme w k r : In (w, k) phpKeywords -> asciiWord w = true -> k <> T_HALT_COMPILER -> lexeme cc k w (gapText ++ r).
Proof. intros H1 H2 H3. eapply x_keyword; [|exact H1|reflexivity|exact H3]. apply ascii_word; [exact H2|apply gap_ident]. Qed.
Lemma fold_ascii a : forallb (fun c => (c <? 128)%N) a = true -> map (foldCase cc) a = map asciiToLower a.
Proof.
  intros H. apply map_ext_in. intros c Hc. rewrite forallb_forall in H. specialize (H c Hc). apply (ok_fold _ OK). lia.
Qed.
Lemma not_same a b : forallb (fun c => (c <? 128)%N) a = true -> forallb (fun c => (c <? 128)%N) b = true ->
  map asciiToLower a <> map asciiToLower b -> ~ sameWord cc a b.
Proof. intros A B N. unfold sameWord. rewrite !fold_ascii by assumption. exact N. Qed.
Lemma op_lexeme op k r : In (op, k) operators -> modeOp k = false -> lexeme cc k op (gapText ++ r).
Proof.
  intros H M. apply x_operator; [|exact M|].
  - split; [exact H|]. split; [eauto|]. intros op2 k2 r2 H2 E.
    assert (HS : forall x y, In (x, y) operators -> ~ In 32%N x).
    { intros x y Hin. repeat (destruct Hin as [Hin|Hin]; [injection Hin as <- _; cbn; intuition discriminate|]). destruct Hin. }
    specialize (HS _ _ H2). destruct (le_lt_dec (List.length op2) (List.length op)) as [L|L]; [exact L|exfalso].
    apply HS. assert (E2 : nth_error (op ++ gapText ++ r) (List.length op) = Some 32%N).
    { rewrite nth_error_app2 by lia. rewrite Nat.sub_diag. reflexivity. }
    rewrite E, nth_error_app1 in E2 by exact L. eapply nth_error_In. exact E2.
  - intros N. destruct N as [[x N]|(d & x & E & D)].
    + repeat (destruct H as [H|H]; [injection H as <- <-; cbn in M, N; try discriminate M; destruct N as [N|[N|N]]; discriminate N|]). destruct H.
    + repeat (destruct H as [H|H]; [injection H as <- <-; cbn in M, E; try discriminate M; try discriminate E; try (injection E as <- _; rewrite (ok_digit _ OK) in D by lia; discriminate D)|]). destruct H.
Qed.
Lemma blank_ok : allBlank cc [32%N].
Proof. constructor; [rewrite (ok_space _ OK) by lia; reflexivity|constructor]. Qed.
Lemma comment_noBlank r : noBlank cc (str "/**/" ++ r).
Proof. intros c s E. injection E as <- _. rewrite (ok_space _ OK) by lia. reflexivity. Qed.
Lemma digits_ascii c : (c < 128)%N -> asciiDigit c = false -> isDigit cc c = false.
Proof. intros H E. rewrite (ok_digit _ OK) by exact H. exact E. Qed.
Lemma name_free : forall k t, In (k, t) phpKeywords -> ~ sameWord cc aName k.
Proof.
  intros k t H. repeat (destruct H as [H|H]; [injection H as <- _; apply not_same; [reflexivity|reflexivity|discriminate]|]). destruct H.
Qed.
Lemma ident_x : ident cc aName.
Proof.
  split; [exists 120%N, []; split; [reflexivity|split; [apply identChar_ascii; [lia|reflexivity]|apply digits_ascii; [lia|reflexivity]]]|].
  change aName with [120%N]. constructor; [apply identChar_ascii; [lia|reflexivity]|constructor].
Qed.
Lemma dec1 : decDigits (str "1") [1]%N. Proof. repeat constructor. Qed.
Lemma dec5 : decDigits (str "5") [5]%N. Proof. repeat constructor. Qed.
Lemma gap_first (P : N -> Prop) r : P 32%N -> forall c s, gapText ++ r = c :: s -> P c.
Proof. intros H c s E. injection E as <- _. exact H. Qed.
Lemma gap_exp r : ~ expStart cc (gapText ++ r).
Proof. intros (e & x & E & H & _). injection E as <- _. rewrite (ok_lower _ OK) in H by lia. discriminate. Qed.
Lemma gap_digit r : noDigit cc (gapText ++ r).
Proof. unfold noDigit. refine (gap_first (fun c => isDigit cc c = false) r _). apply digits_ascii; [lia|reflexivity]. Qed.
Lemma cast_lexeme word k r : In (word, k) castTypes -> forallb (fun c => (c <? 128)%N && asciiLetter c) word = true -> lexeme cc k (castShape cc [] word []) (gapText ++ r).
Proof. intros H L. eapply x_cast; [constructor|apply ascii_letters; exact L|constructor|exact H|reflexivity]. Qed.
Lemma spelling_lexeme k r : plainTok k = true -> modeOp k = false -> lexeme cc k (spelling k) (gapText ++ r).
Proof.
  intros P M.
  destruct k; try discriminate P; try discriminate M;
    try (apply kw_lexeme; [apply findWord_in; reflexivity|reflexivity|discriminate]);
    try (apply op_lexeme; [apply findWord_in; reflexivity|reflexivity]).
  - (* T_LNUMBER *) change T_LNUMBER with (intOrFloat (value 10 [1]%N)). apply x_integer; [discriminate|exact dec1|discriminate|apply gap_digit|discriminate|apply gap_exp].
  - (* T_DNUMBER *) apply (x_float cc (str "1") [1]%N (str "5") [5]%N); [exact dec1|exact dec5|discriminate|apply gap_digit|apply gap_exp].
  - (* T_VARIABLE *) apply (x_variable cc aName); [exact ident_x|exact (gap_ident r)].
  - (* T_DOLLAR *) apply x_dollar. intros c s E [H _]. exact (gap_ident r c s E H).
  - (* T_LPAREN *) apply x_paren. intros w1 word w2 tail k t E B1 L B2 Hin S. cbn in E. injection E as E.
    destruct w1 as [|c w1]; cbn in E.
    + destruct word as [|c word].
      * clear - S Hin. cbn in S. repeat (destruct Hin as [Hin|Hin]; [injection Hin as <- _; discriminate S|]). destruct Hin.
      * injection E as <- _. apply Forall_inv in L. cbv beta in L. rewrite (ok_letter _ OK) in L by lia. discriminate.
    + injection E as <- E. destruct w1 as [|c w1]; cbn in E.
      * destruct word as [|c word].
        -- clear - S Hin. cbn in S. repeat (destruct Hin as [Hin|Hin]; [injection Hin as <- _; discriminate S|]). destruct Hin.
        -- injection E as <- _. apply Forall_inv in L. cbv beta in L. rewrite (ok_letter _ OK) in L by lia. discriminate.
      * injection E as <- _. apply Forall_inv_tail, Forall_inv in B1. cbv beta in B1. rewrite (ok_space _ OK) in B1 by lia. discriminate.
  - apply (cast_lexeme (str "int")); [cbn; tauto|reflexivity].
  - apply (cast_lexeme (str "float")); [cbn; tauto|reflexivity].
  - apply (cast_lexeme (str "string")); [cbn; tauto|reflexivity].
  - apply (cast_lexeme (str "array")); [cbn; tauto|reflexivity].
  - apply (cast_lexeme (str "object")); [cbn; tauto|reflexivity].
  - apply (cast_lexeme (str "bool")); [cbn; tauto|reflexivity].
  - apply (cast_lexeme (str "unset")); [cbn; tauto|reflexivity].
  - (* T_CONSTANT_ENCAPSED_STRING *) apply (x_single cc (str "a")). constructor; [discriminate|discriminate|constructor].
  - (* T_STRING *) apply x_name; [apply ascii_word; [reflexivity|apply gap_ident]|exact name_free|apply not_same; [reflexivity|reflexivity|discriminate]|apply not_same; [reflexivity|reflexivity|discriminate]].
  - (* T_STATIC *) apply (x_static cc (str "static") [32%N] (str "/**/" ++ r)); [apply ascii_word; [reflexivity|apply gap_ident]|reflexivity|exact blank_ok|apply comment_noBlank|discriminate].
  - (* T_YIELD *) apply (x_yield cc (str "yield") [32%N] (str "/**/" ++ r)); [apply ascii_word; [reflexivity|apply gap_ident]|reflexivity|exact blank_ok|apply comment_noBlank|cbn; lia|discriminate].
  - (* T_YIELD_FROM *) apply (x_yield_from cc (str "yield") [32%N] (gapText ++ r)); [apply ascii_word; [reflexivity|]|reflexivity|exact blank_ok].
    intros c s E. injection E as <- _. apply not_ident; [lia|reflexivity].
Qed.
Lemma gap_spells st ts r : code st -> spells cc st ts r -> spells cc st ts (gapText ++ r).
Proof.
  intros H S. change (gapText ++ r) with ([32%N] ++ str "/**/" ++ r). apply (sp_piece cc st [] [32%N] st (str "/**/" ++ r) ts).
  - apply p_gap; [exact H|]. apply g_blanks; [discriminate|exact blank_ok|apply comment_noBlank].
  - apply (sp_piece cc st [] (str "/**/") st r ts); [|exact S]. apply p_gap; [exact H|]. apply (g_block cc [] r).
    intros (a & b & E). destruct a as [|x [|y a]]; discriminate.
Qed.
Definition placeOf (m : mode) : list place := match m with Php => [InCode; InHtml] | _ => [InHtml] end.
Definition htmlText : qstring := str "x".
Fixpoint printed (m : mode) (ts : list Tok) : list (Tok * qstring) * qstring :=
  match ts with
  | [] => ([], [])
  | k :: ts' =>
      let '(txt, tail, m') :=
        match m, k with
        | Php, T_CLOSE_TAG => (str "?>", [], Html)
        | Php, _ => (spelling k, gapText, Php)
        | _, T_INLINE_HTML => (htmlText, [], HtmlSeen)
        | _, T_OPEN_TAG => (str "<?php ", [], Php)
        | _, _ => (str "<?=", [], Php)
        end in
      let '(us, r) := printed m' ts' in ((k, txt) :: us, txt ++ tail ++ r)
  end.
Lemma front ts us r : writable HtmlSeen ts = true -> printed HtmlSeen ts = (us, r) -> r = [] \/ exists x, r = str "<?" ++ x.
Proof.
  intros W E. destruct ts as [|k ts]; [injection E as _ <-; auto|]. right.
  destruct k; try discriminate W; cbn [printed] in E; destruct (printed Php ts) as [us' r']; injection E as _ <-; eexists; reflexivity.
Qed.
Lemma printed_spells ts : forall m us text, writable m ts = true -> printed m ts = (us, text) ->
  map fst us = ts /\ spells cc (placeOf m) us text.
Proof.
  induction ts as [|k ts IH]; intros m us text W E.
  - injection E as <- <-. split; [reflexivity|]. destruct m; constructor.
  - assert (CODE : code [InCode; InHtml]) by (exists [InHtml]; auto).
    assert (PHP : plainTok k = true -> modeOp k = false \/ k = T_OBJECT_OPERATOR \/ k = T_LBRACE \/ k = T_RBRACE).
    { destruct k; cbn; auto; discriminate. }
    destruct m.
    + (* Html *)
      destruct k; try discriminate W; cbn [printed] in E.
      * destruct (printed Php ts) as [us' r] eqn:EP. injection E as <- <-. destruct (IH Php us' r W EP) as [IM IS]. split; [cbn; now rewrite IM|].
        apply (sp_piece cc [InHtml] [(T_OPEN_TAG, str "<?php ")] (str "<?php ") [InCode; InHtml] r us'); [|exact IS]. apply p_open.
        exists 112%N, 104%N, 112%N, 32%N. split; [reflexivity|]. split; [cbn [map]; rewrite !(ok_lower _ OK) by lia; reflexivity|rewrite (ok_space _ OK) by lia; reflexivity].
      * destruct (printed Php ts) as [us' r] eqn:EP. injection E as <- <-. destruct (IH Php us' r W EP) as [IM IS]. split; [cbn; now rewrite IM|].
        apply (sp_piece cc [InHtml] [(T_OPEN_TAG_WITH_ECHO, str "<?=")] (str "<?=") [InCode; InHtml] r us'); [|exact IS]. apply p_open_echo.
      * destruct (printed HtmlSeen ts) as [us' r] eqn:EP. injection E as <- <-. destruct (IH HtmlSeen us' r W EP) as [IM IS]. split; [cbn; now rewrite IM|].
        apply (sp_piece cc [InHtml] [(T_INLINE_HTML, htmlText)] htmlText [InHtml] r us'); [|exact IS].
        destruct (front ts us' r W EP) as [->|[x ->]].
        -- apply (p_html_rest cc 120%N []); [discriminate|]. intros (a & b & X). destruct a; discriminate.
        -- apply (p_html cc 120%N [] x); [discriminate|]. split; [reflexivity|]. intros a b _. cbn. lia.
    + destruct k; try discriminate W; cbn [printed] in E.
      * destruct (printed Php ts) as [us' r] eqn:EP. injection E as <- <-. destruct (IH Php us' r W EP) as [IM IS]. split; [cbn; now rewrite IM|].
        apply (sp_piece cc [InHtml] [(T_OPEN_TAG, str "<?php ")] (str "<?php ") [InCode; InHtml] r us'); [|exact IS]. apply p_open.
        exists 112%N, 104%N, 112%N, 32%N. split; [reflexivity|]. split; [cbn [map]; rewrite !(ok_lower _ OK) by lia; reflexivity|rewrite (ok_space _ OK) by lia; reflexivity].
      * destruct (printed Php ts) as [us' r] eqn:EP. injection E as <- <-. destruct (IH Php us' r W EP) as [IM IS]. split; [cbn; now rewrite IM|].
        apply (sp_piece cc [InHtml] [(T_OPEN_TAG_WITH_ECHO, str "<?=")] (str "<?=") [InCode; InHtml] r us'); [|exact IS]. apply p_open_echo.
    + assert (D : (k = T_CLOSE_TAG /\ writable Html ts = true) \/ (k <> T_CLOSE_TAG /\ plainTok k = true /\ writable Php ts = true)).
      { destruct k; cbn [writable] in W; auto; right; (split; [discriminate|]); apply andb_true_iff in W; exact W. }
      destruct D as [[-> W']|(NC & PL & W')].
      * cbn [printed] in E. destruct (printed Html ts) as [us' r] eqn:EP. injection E as <- <-. destruct (IH Html us' r W' EP) as [IM IS]. split; [cbn; now rewrite IM|].
        apply (sp_piece cc [InCode; InHtml] [(T_CLOSE_TAG, str "?>")] (str "?>") [InHtml] r us'); [apply p_close|exact IS].
      * assert (E' : printed Php (k :: ts) = (let '(us, r) := printed Php ts in ((k, spelling k) :: us, spelling k ++ gapText ++ r))) by (destruct k; try discriminate PL; reflexivity).
        rewrite E' in E. destruct (printed Php ts) as [us' r] eqn:EP. injection E as <- <-. destruct (IH Php us' r W' EP) as [IM IS]. split; [cbn; now rewrite IM|].
        apply (sp_piece cc [InCode; InHtml] [(k, spelling k)] (spelling k) [InCode; InHtml] (gapText ++ r) us'); [|apply gap_spells; [exact CODE|exact IS]].
        destruct (PHP PL) as [M|[->|[->| ->]]].
        -- apply p_token; [exact CODE|]. apply spelling_lexeme; assumption.
        -- apply p_arrow; [exact CODE|]. intros c s X. exact (gap_ident r c s X).
        -- apply p_lbrace.
        -- apply p_rbrace.
Qed.
End F.
Lemma every_spelled cc ts : ascii_ok cc -> writable Html ts = true -> exists us text, map fst us = ts /\ spells cc [InHtml] us text.
Proof.
  intros OK W. destruct (printed Html ts) as [us text] eqn:E. exists us, text. exact (printed_spells cc OK ts Html us text W E).
Qed.
