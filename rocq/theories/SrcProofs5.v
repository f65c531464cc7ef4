(** C68, part 5: a spelled text is split into the tokens it spells. *)
From Verif Require Export SrcProofs4.
Open Scope nat_scope.

Section F.
Variable cc : CharClass.
Hypothesis OK : ascii_ok cc.
Hypothesis SL : spaceNotLetter cc.
Variable content : qstring.

Lemma piece_leads st ts text st' r : piece cc st ts text st' r -> leads cc content st ts text st' r.
Proof.
  intros H. destruct H.
  - apply (leads_html cc OK); assumption.
  - apply (leads_html_rest cc OK); assumption.
  - apply (leads_open_php cc OK); assumption.
  - apply (leads_open_short cc OK); assumption.
  - apply (leads_open_echo cc OK).
  - apply (leads_gap cc OK); assumption.
  - apply (leads_token cc OK); assumption.
  - apply (leads_arrow cc OK); assumption.
  - apply (leads_member cc OK); assumption.
  - apply (leads_lbrace cc OK).
  - apply (leads_rbrace cc OK).
  - apply (leads_lbrace_in cc OK).
  - apply (leads_rbrace_in cc OK).
  - apply (leads_close cc OK).
  - apply (leads_quote cc OK); assumption.
  - apply (leads_backtick cc OK); assumption.
  - apply (leads_heredoc cc OK); assumption.
  - apply (leads_nowdoc cc OK); assumption.
  - apply (leads_text cc OK); assumption.
  - apply (leads_var cc OK); assumption.
  - apply (leads_number cc OK); assumption.
  - apply (leads_index cc OK); assumption.
  - apply (leads_prop cc OK); assumption.
  - apply (leads_curly cc OK); assumption.
  - apply (leads_dollar_curly cc OK); assumption.
  - apply (leads_unquote cc OK); assumption.
  - apply (leads_unbacktick cc OK); assumption.
  - apply (leads_end_heredoc cc OK); assumption.
Qed.
Lemma spells_emits st ts text : spells cc st ts text -> forall l, stands cc content st text l ->
  exists l', emits cc content l ts l' /\ remaining content l' = [].
Proof.
  induction 1 as [| |st ts text st' r ts' P S IH]; intros l H.
  - exists l. split; [constructor|exact (s_rest _ _ _ _ _ H)].
  - exists l. split; [constructor|exact (s_rest _ _ _ _ _ H)].
  - destruct (piece_leads _ _ _ _ _ P l H) as (l1 & E1 & H1). destruct (IH l1 H1) as (l2 & E2 & R).
    exists l2. split; [eapply emits_app; eauto|exact R].
Qed.
Lemma starts : stands cc content [InHtml] content initHtml.
Proof.
  constructor; try reflexivity.
  - exists initHtml. split; [left; reflexivity|constructor].
  - intros id [E|[]]; discriminate.
  - intros p st W. destruct W as [Hp [E|E]]; [|discriminate]. injection E as <- _. destruct Hp.
Qed.

Definition tokenText (p : PTok) : Tok * qstring := (p_kind p, psymbol content p).
Lemma emits_tokens l ts l' : emits cc content l ts l' -> remaining content l' = [] -> forall db de,
  exists n, forall f, n <= f -> exists ps e, tokenize cc f content l db de = Some (PDone (ps ++ [e])) /\
    p_kind e = T_EOF /\ map tokenText ps = ts.
Proof.
  induction 1 as [l|l k text r l' ts l'' Y K E IH|l k text r l' ts l'' Y K NE E IH]; intros R db de.
  - exists 1. intros [|f] Hf; [lia|]. cbn [tokenize]. unfold nextToken.
    assert (HL : List.length content <= lx_pos l).
    { unfold remaining in R. apply (f_equal (@List.length N)) in R. rewrite skipn_length in R. cbn in R. lia. }
    rewrite (proj2 (Nat.leb_le _ _) HL). cbn. exists [], {| p_kind := T_EOF; p_begin := (-1)%Z; p_end := (-1)%Z; p_docBegin := db; p_docEnd := de |}.
    split; [|auto]. reflexivity.
  - destruct Y as (t & nl & EN & Hk & Ht & Hr). assert (Hn : exists db' de', forall f, tokenize cc (S f) content l db de = tokenize cc f content l' db' de').
    { unfold skipped in K. destruct k; try discriminate K.
      - exists db, de. intros f. cbn [tokenize]. rewrite EN, Hk. reflexivity.
      - exists db, de. intros f. cbn [tokenize]. rewrite EN, Hk. reflexivity.
      - exists (t_begin t), (t_end t). intros f. cbn [tokenize]. rewrite EN, Hk. reflexivity. }
    destruct Hn as (db' & de' & Hn). destruct (IH R db' de') as [n Hf]. exists (S n). intros [|f] Hle; [lia|]. rewrite Hn. apply Hf. lia.
  - destruct Y as (t & nl & EN & Hk & Ht & Hr). destruct (IH R 0%Z 0%Z) as [n Hf]. exists (S n). intros [|f] Hle; [lia|].
    destruct (Hf f ltac:(lia)) as (ps & e & ET & He & Hm).
    exists ({| p_kind := k; p_begin := t_begin t; p_end := t_end t; p_docBegin := db; p_docEnd := de |} :: ps), e.
    split; [|split; [exact He|]].
    + cbn [tokenize]. rewrite EN, Hk. unfold skipped in K. destruct k; try discriminate K; try congruence; cbn [isEOF]; rewrite ET; reflexivity.
    + cbn [map]. rewrite Hm. f_equal. unfold tokenText. cbn [p_kind]. f_equal. exact Ht.
Qed.
End F.

Lemma text_tokens cc doc ts : ascii_ok cc -> spaceNotLetter cc -> spells cc [InHtml] ts doc ->
  exists n, forall f, n <= f -> exists ps e, tokenize cc f doc initHtml 0 0 = Some (PDone (ps ++ [e])) /\
    p_kind e = T_EOF /\ map (fun p => (p_kind p, psymbol doc p)) ps = ts.
Proof.
  intros OK SL H. destruct (spells_emits cc OK SL doc [InHtml] ts doc H initHtml (starts cc doc)) as (l' & E & R).
  exact (emits_tokens cc doc initHtml ts l' E R 0%Z 0%Z).
Qed.
