(** Proofs for C13, continued: whole runs. *)
From Verif Require Import LexModel LexInv LexSpec LexSpec2 LexHandlers LexHandlers2 LexRun LexRun2 LexRun3 LexFun LexFun5 LexCut LexCut2 LexCut3 LexCut4.
Open Scope nat_scope.

Section Cut.
Variable cc : CharClass.
Hypothesis OK : ascii_ok cc.

(** One token: the step of the model behind it. *)
Definition tokenStep (content : list N) (l l1 : LexState) (t : Token) (nl : list nat) (o : Out) : Prop :=
  lx_pos l < List.length content /\
  handler cc (lx_st l) (lx_id l) (rev (firstn (lx_pos l) content)) (skipn (lx_pos l) content) = Some o /\
  lx_pos l + o_len o <= S (List.length content) /\
  haltStep (lx_halt l) (o_tok o) = (t_kind t, lx_halt l1) /\
  l1 = {| lx_pos := lx_pos l + o_len o; lx_st := o_st o; lx_id := o_id o; lx_halt := lx_halt l1 |} /\
  t = {| t_kind := t_kind t; t_begin := Z.of_nat (lx_pos l); t_end := Z.of_nat (lx_pos l + o_len o) - 1 |} /\
  nl = map (Nat.add (lx_pos l)) (o_nl o).

Lemma nextToken_inv content l l1 t nl : nextToken cc content l = Some (l1, t, nl) -> t_kind t <> T_EOF -> exists o, tokenStep content l l1 t nl o.
Proof.
  unfold nextToken. destruct (Nat.leb_spec (List.length content) (lx_pos l)) as [H|H]; [intros E; injection E as <- <- <-; cbn; congruence|].
  destruct (handler _ _ _ _ _) as [o|] eqn:EH; [|discriminate].
  destruct (Nat.ltb_spec (S (List.length content)) (lx_pos l + o_len o)) as [H2|H2]; [intros E; injection E as <- <- <-; cbn; congruence|].
  destruct (haltStep (lx_halt l) (o_tok o)) as [tk h] eqn:Es. intros E Hk. injection E as <- <- <-. cbn in Hk. exists o.
  unfold tokenStep. cbn [t_kind lx_halt lx_pos]. repeat split; auto.
Qed.
Lemma tokenStep_next content l l1 t nl o : tokenStep content l l1 t nl o -> nextToken cc content l = Some (l1, t, nl).
Proof.
  intros (H1 & H2 & H3 & H4 & H5 & H6 & H7). unfold nextToken.
  destruct (Nat.leb_spec (List.length content) (lx_pos l)); [lia|]. rewrite H2.
  destruct (Nat.ltb_spec (S (List.length content)) (lx_pos l + o_len o)); [lia|]. rewrite H4. rewrite H5, H6, H7. reflexivity.
Qed.
Lemma tokenStep_kind content l l1 t nl o : tokenStep content l l1 t nl o -> t_kind t <> T_EOF -> t_kind t = o_tok o.
Proof. intros (_ & _ & _ & H & _) Hk. eapply haltStep_kind; eauto. Qed.
Lemma tokenStep_pos content l l1 t nl o : tokenStep content l l1 t nl o -> lx_pos l1 = lx_pos l + o_len o.
Proof. intros (_ & _ & _ & _ & -> & _). reflexivity. Qed.

Inductive runs (content : list N) : LexState -> list Token -> LexState -> Prop :=
| r_nil l : runs content l [] l
| r_cons l l1 t nl ts l2 : nextToken cc content l = Some (l1, t, nl) -> t_kind t <> T_EOF -> runs content l1 ts l2 -> runs content l (t :: ts) l2.

Lemma runs_app content l a b l2 : runs content l (a ++ b) l2 <-> exists m, runs content l a m /\ runs content m b l2.
Proof.
  revert l; induction a as [|t a IH]; intros l; cbn [app].
  - split; [intros H; exists l; split; [constructor|exact H]|intros (m & H & H2); inversion H; subst; exact H2].
  - split.
    + intros H. inversion H as [|? l1 ? nl ? ? E K R]; subst. apply IH in R. destruct R as (m & R1 & R2). exists m. split; [econstructor; eauto|exact R2].
    + intros (m & H & R2). inversion H as [|? l1 ? nl ? ? E K R]; subst. econstructor; eauto. apply IH. eauto.
Qed.
Lemma handsOut_runs content l0 toks l : handsOut cc content l0 toks l <-> runs content l0 toks l.
Proof.
  split.
  - intros H. induction H as [|toks l t nl l' H IH E K]; [constructor|]. apply runs_app. exists l. split; [exact IH|]. econstructor; eauto. constructor.
  - revert l. induction toks as [|t toks IH] using rev_ind; intros l H; [inversion H; subst; constructor|].
    apply runs_app in H as (m & R1 & R2). inversion R2 as [|? l1 ? nl ? ? E K R]; subst. inversion R; subst. econstructor; eauto.
Qed.
Lemma runs_reach content l0 l toks l2 : reachable cc content l0 l -> runs content l toks l2 -> reachable cc content l0 l2.
Proof. intros H R. induction R; auto. apply IHR. eapply reach_step; eauto. Qed.
Lemma runs_mono content l toks l2 : runs content l toks l2 -> lx_pos l <= lx_pos l2.
Proof.
  intros R. induction R as [|l l1 t nl ts l2 E K R IH]; [lia|]. destruct (nextToken_inv _ _ _ _ _ E K) as (o & HS).
  pose proof (tokenStep_pos _ _ _ _ _ _ HS). lia.
Qed.
Lemma runs_idOK content l toks l2 : idOK cc (lx_id l) -> runs content l toks l2 -> idOK cc (lx_id l2).
Proof.
  intros H R. induction R as [|l l1 t nl ts l2 E K R IH]; [exact H|]. apply IH. destruct (nextToken_inv _ _ _ _ _ E K) as (o & HS).
  destruct HS as (_ & HH & _ & _ & E1 & _). rewrite E1. cbn. destruct (handler_id cc _ _ _ _ _ HH) as [->|H1]; auto.
Qed.

(** * Facts about single tokens *)
Lemma kw_facts name t : findKw cc name = Some (KwTok t) ->
  (t = T_HALT_COMPILER -> List.length name = 15) /\ t <> T_WHITESPACE /\ t <> T_RPAREN /\ t <> T_COMMENT /\ t <> T_DOC_COMMENT /\ t <> T_SEMICOLON /\ t <> T_DOUBLE_QUOTE.
Proof.
  unfold findKw. intros H. destruct (find _ keywords) as [[k w]|] eqn:E; [|discriminate].
  cbn in H. inversion H; subst w. apply find_some in E as [Hin He].
  assert (Hk : (t = T_HALT_COMPILER -> k = str "__halt_compiler") /\ t <> T_WHITESPACE /\ t <> T_RPAREN /\ t <> T_COMMENT /\ t <> T_DOC_COMMENT /\ t <> T_SEMICOLON /\ t <> T_DOUBLE_QUOTE).
  { unfold keywords in Hin. cbn [In] in Hin.
    repeat (destruct Hin as [Hin|Hin]; [inversion Hin; subst; (split; [first [reflexivity|intros X; discriminate X]|repeat split; discriminate])|]). destruct Hin. }
  destruct Hk as [Hk HR]. split; [|exact HR]. intros ->. specialize (Hk eq_refl). subst k. cbn [fst] in He. unfold eqsCI in He. apply eqs_eq in He.
  apply (f_equal (@List.length N)) in He. rewrite !map_length in He. rewrite He. reflexivity.
Qed.
Lemma ident_kinds st id it o : lexIdent cc st id it = Some o ->
  (o_tok o = T_HALT_COMPILER -> o_len o = 15) /\ o_tok o <> T_WHITESPACE /\ o_tok o <> T_RPAREN /\ o_tok o <> T_COMMENT /\ o_tok o <> T_DOC_COMMENT /\ o_tok o <> T_SEMICOLON /\ o_tok o <> T_DOUBLE_QUOTE.
Proof.
  unfold lexIdent. destruct (skipWhile_spec (isIdent cc) it 0) as (n & E & Hn & _ & _). rewrite E. cbn [Nat.add].
  destruct (findKw cc (firstn n it)) as [[t| |]|] eqn:EK.
  - intros H. injection H as <-. cbn. destruct (kw_facts _ _ EK) as [H1 H2]. split; [|exact H2]. intros Ht. specialize (H1 Ht). rewrite firstn_length in H1. lia.
  - destruct (skipWhile _ _ n) as [p la]. destruct (_ &&& _) as [[|]|]; intros H; try discriminate; injection H as <-; cbn; repeat split; discriminate.
  - destruct (skipWhile _ _ n) as [p la]. destruct (peek la 0); [|discriminate]. destruct (peek la 1); [|discriminate].
    destruct (peek la 2); [|discriminate]. destruct (peek la 3); [|discriminate].
    destruct (_ && _); intros H; injection H as <-; cbn; repeat split; discriminate.
  - intros H. injection H as <-. cbn. repeat split; discriminate.
Qed.
Lemma slash_kinds st id it o : lexSlash cc st id it = Some o -> o_tok o = T_COMMENT \/ o_tok o = T_DOC_COMMENT \/ plainTok (o_tok o) = true.
Proof.
  unfold lexSlash. destruct (isC it 1 61) as [[|]|]; [intros H; injection H as <-; auto| |discriminate].
  destruct (isC it 1 47) as [[|]|]; [| |discriminate].
  - destruct (isC it 2 47) as [[|]|]; [| |discriminate]; (destruct (lineComment _ _ _ _ _) as [[len nl]|]; [|discriminate]); intros H; injection H as <-; auto.
  - destruct (isC it 1 42) as [[|]|]; [|intros H; injection H as <-; auto|discriminate].
    destruct (_ &&& _) as [[|]|]; [| |discriminate]; (destruct (blockLoop _ _) as [[len nl]|]; [|discriminate]); intros H; injection H as <-; auto.
Qed.
Lemma hash_kinds st id it o : lexHash cc st id it = Some o -> o_tok o = T_COMMENT.
Proof. unfold lexHash. destruct (lineComment _ _ _ _ _) as [[len nl]|]; [|discriminate]. intros H; injection H as <-; auto. Qed.
Lemma dq_kinds st id b it o : lexDQ cc st id b it = Some o -> o_tok o = T_DOUBLE_QUOTE \/ plainTok (o_tok o) = true.
Proof. unfold lexDQ. destruct (dqLoop _ _ _ _) as [[i [|]]|]; [| |discriminate]; intros H; injection H as <-; auto. Qed.

Lemma halt_source st id b a r o : handler cc st id b (a :: r) = Some o -> o_tok o = T_HALT_COMPILER ->
  (topIs st DefaultState \/ topIs st StringVariableCurly) /\ isSpace cc a = false /\ o_len o = 15.
Proof.
  intros H Hk. destruct (handler_source cc _ _ _ _ _ _ H) as [[Ht HS]|[_ HP]]; [|rewrite Hk in HP; discriminate].
  split; [exact Ht|]. destruct HS as [H1 H2 H3|H1 H2 H3|H1 H2 H3|H1 H2|H1 H2|H1 H2|H1 H2 H3|H1]; try congruence.
  - apply slash_kinds in H2. rewrite Hk in H2. destruct H2 as [?|[?|?]]; discriminate.
  - apply hash_kinds in H2. congruence.
  - apply dq_kinds in H2. rewrite Hk in H2. destruct H2; discriminate.
  - apply ident_kinds in H3. destruct H3 as [H3 _]. auto.
  - rewrite Hk in H1. discriminate.
Qed.
Lemma semi_source st id b a r o : handler cc st id b (a :: r) = Some o -> o_tok o = T_SEMICOLON ->
  (topIs st DefaultState \/ topIs st StringVariableCurly) /\ a = 59%N /\ o_len o = 1.
Proof.
  intros H Hk. destruct (handler_source cc _ _ _ _ _ _ H) as [[Ht HS]|[_ HP]]; [|rewrite Hk in HP; discriminate].
  split; [exact Ht|]. destruct HS as [H1 H2 H3|H1 H2 H3|H1 H2 H3|H1 H2|H1 H2|H1 H2|H1 H2 H3|H1]; try congruence; auto.
  - apply slash_kinds in H2. rewrite Hk in H2. destruct H2 as [?|[?|?]]; discriminate.
  - apply hash_kinds in H2. congruence.
  - apply dq_kinds in H2. rewrite Hk in H2. destruct H2; discriminate.
  - apply ident_kinds in H3. tauto.
  - rewrite Hk in H1. discriminate.
Qed.

(** * The character before the semicolon *)
Lemma line_last doc it : forall sk i j nl, lineComment cc doc sk it i = Some (j, nl) ->
  nth_error it (j - i) = Some 63%N \/ j = S (i + List.length it) \/ exists k, j = S (i + k) /\ nth_error it k = Some 10%N.
Proof.
  induction it as [|c t IH]; intros sk i j nl; cbn [lineComment]; [intros E; injection E as <- <-; cbn; right; left; lia|].
  assert (HR : forall sk j nl, lineComment cc doc sk t (S i) = Some (j, nl) -> nth_error (c :: t) (j - i) = Some 63%N \/ j = S (i + List.length (c :: t)) \/ exists k, j = S (i + k) /\ nth_error (c :: t) k = Some 10%N).
  { clear sk j nl. intros sk j nl H. pose proof (line_ge _ _ _ _ _ _ _ H) as Hge. apply IH in H. destruct H as [H|[H|(k & H & H2)]].
    - left. replace (j - i) with (S (j - S i)) by lia. exact H.
    - right. left. cbn. lia.
    - right. right. exists (S k). split; [lia|exact H2]. }
  destruct sk as [|k]; [|apply HR].
  destruct (Some _ &&& Some (c =? 63)%N &&& isC (c :: t) 1 62) as [[|]|] eqn:EC; [intros E; injection E as <- <-| |discriminate].
  { left. rewrite Nat.sub_diag. cbn. destruct t; cbn in EC; [discriminate|]. destruct (N.eqb_spec c 63); [subst; reflexivity|discriminate]. }
  destruct (N.eqb_spec c 10) as [->|_]; [|apply HR].
  assert (HN : nth_error (10%N :: t) (S i - i) = Some 63%N \/ S i = S (i + List.length (10%N :: t)) \/ (exists k, S i = S (i + k) /\ nth_error (10%N :: t) k = Some 10%N)).
  { right. right. exists 0. split; [lia|reflexivity]. }
  destruct doc; cbn [negb]; [|intros E; injection E as <- <-; exact HN].
  destruct (skipWhile _ t (S i)) as [p it2]. destruct (_ &&& isC it2 2 47) as [[|]|]; [|intros E; injection E as <- <-; exact HN|discriminate].
  destruct (lineComment cc true (p + 2 - S i) t (S i)) as [[j' nl']|] eqn:E; [|discriminate].
  intros H. injection H as <- <-. eapply HR; eauto.
Qed.
Lemma block_last it : forall i j nl, blockLoop it i = Some (j, nl) -> j = i + List.length it \/ nth_error it (j - i + 1) = Some 47%N.
Proof.
  induction it as [|c t IH]; intros i j nl; cbn [blockLoop]; [intros E; injection E as <- <-; cbn; left; lia|].
  destruct (Some (c =? 42)%N &&& isC (c :: t) 1 47) as [[|]|] eqn:EC; [intros E; injection E as <- <-| |discriminate].
  { right. rewrite Nat.sub_diag. cbn. destruct (c =? 42)%N; [|discriminate]. unfold isC, test in EC. cbn [mAnd peek] in EC. destruct t as [|d t]; cbn in EC; [discriminate|].
    cbn. destruct (N.eqb_spec d 47); [subst; reflexivity|discriminate]. }
  destruct (blockLoop t (S i)) as [[j' nl']|] eqn:E; [|discriminate]. intros H. injection H as <- <-.
  pose proof (block_ge _ _ _ _ E) as Hge. apply IH in E. destruct E as [E|E]; [left; cbn; lia|right].
  replace (j' - i + 1) with (S (j' - S i + 1)) by lia. exact E.
Qed.

Definition isFiller (k : Tok) : bool := match k with T_RPAREN | T_WHITESPACE | T_COMMENT | T_DOC_COMMENT => true | _ => false end.
Definition spaceOK : Prop := forall c, isSpace cc c = true -> hereC cc c = false.
Lemma filler_last st id b a r o x : spaceOK -> handler cc st id b (a :: r) = Some o -> isFiller (o_tok o) = true ->
  skipn (o_len o) (a :: r) = 59%N :: x -> 0 < o_len o /\ forall c, nth_error (a :: r) (o_len o - 1) = Some c -> hereC cc c = false.
Proof.
  intros HSP H Hk Hx. destruct (handler_source cc _ _ _ _ _ _ H) as [[Ht HS]|[_ HP]]; [|destruct (o_tok o); discriminate].
  assert (Hlen : o_len o <= List.length r).
  { apply (f_equal (@List.length N)) in Hx. rewrite skipn_length in Hx. cbn [List.length] in Hx. lia. }
  assert (Hn : nth_error (a :: r) (o_len o) = Some 59%N).
  { rewrite <- (firstn_skipn (o_len o) (a :: r)). rewrite Hx. rewrite nth_error_app2 by (rewrite firstn_length; cbn; lia).
    rewrite firstn_length. cbn [List.length]. replace (o_len o - Nat.min (o_len o) (S (List.length r))) with 0 by lia. reflexivity. }
  destruct HS as [H1 H2 H3|H1 H2 H3|H1 H2 H3|H1 H2|H1 H2|H1 H2|H1 H2 H3|H1].
  - destruct (scanWhile_spec (isSpace cc) (a :: r) 0) as (n & E & Hn1 & HF & HN). rewrite E in H2. cbn [fst Nat.add] in H2. subst n.
    assert (Hp : 0 < o_len o). { destruct (o_len o) as [|k]; [|lia]. specialize (HN a eq_refl). congruence. }
    split; [exact Hp|]. intros c Hc. apply HSP. rewrite Forall_forall in HF. apply HF. apply (nth_error_In _ (o_len o - 1)).
    rewrite <- (firstn_skipn (o_len o) (a :: r)), nth_error_app1 in Hc; [exact Hc|]. rewrite firstn_length. cbn [List.length]. lia.
  - rewrite H2. split; [lia|]. cbn. intros c E. injection E as <-. subst a. unfold hereC. rewrite (ok_digit _ OK), (ok_letter _ OK) by lia. reflexivity.
  - rewrite H3 in Hk. discriminate.
  - unfold lexSlash in H2. destruct (isC (a :: r) 1 61) as [[|]|]; [injection H2 as <-; discriminate| |discriminate].
    destruct (isC (a :: r) 1 47) as [[|]|] eqn:E1; [| |discriminate].
    + destruct (isC (a :: r) 2 47) as [doc|]; [|discriminate]. destruct (lineComment cc doc 0 (a :: r) 0) as [[len nl]|] eqn:EL; [|discriminate].
      injection H2 as <-. cbn [o_len o_tok] in *. apply line_last in EL. rewrite Nat.sub_0_r in EL. destruct EL as [EL|[EL|(k & -> & EL)]]; [congruence|cbn in EL; lia|].
      split; [lia|]. intros c Hc. replace (S (0 + k) - 1) with k in Hc by lia. rewrite EL in Hc. injection Hc as <-. apply HSP. rewrite (ok_space _ OK) by lia. reflexivity.
    + destruct (isC (a :: r) 1 42) as [[|]|] eqn:E2; [|injection H2 as <-; discriminate|discriminate].
      destruct (_ &&& _) as [doc|]; [|discriminate]. destruct (blockLoop (skipn 2 (a :: r)) 2) as [[j nl]|] eqn:EL; [|discriminate].
      injection H2 as <-. cbn [o_len o_tok] in *. split; [lia|]. intros c Hc. pose proof (block_ge _ _ _ _ EL) as Hge. apply block_last in EL.
      destruct EL as [EL|EL]; [rewrite skipn_length in EL; cbn in EL; lia|].
      assert (nth_error (a :: r) (j + 2 - 1) = Some 47%N).
      { destruct r as [|a2 r]; [cbn in Hlen; lia|]. cbn [skipn] in EL. replace (j + 2 - 1) with (S (S (j - 2 + 1))) by lia. exact EL. }
      assert (c = 47%N) by congruence. subst c. unfold hereC. rewrite (ok_digit _ OK), (ok_letter _ OK) by lia. reflexivity.
  - unfold lexHash in H2. destruct (lineComment cc false 0 (a :: r) 0) as [[len nl]|] eqn:EL; [|discriminate].
    injection H2 as <-. cbn [o_len o_tok] in *. apply line_last in EL. rewrite Nat.sub_0_r in EL. destruct EL as [EL|[EL|(k & -> & EL)]]; [congruence|cbn in EL; lia|].
    split; [lia|]. intros c Hc. replace (S (0 + k) - 1) with k in Hc by lia. rewrite EL in Hc. injection Hc as <-. apply HSP. rewrite (ok_space _ OK) by lia. reflexivity.
  - apply dq_kinds in H2. destruct H2 as [H2|H2]; [rewrite H2 in Hk; discriminate|destruct (o_tok o); discriminate].
  - apply ident_kinds in H3. destruct H3 as (_ & A & B & C & D & _). destruct (o_tok o); try discriminate; congruence.
  - destruct (o_tok o); discriminate.
Qed.

(** * Strings with variables *)
Lemma enc_dq id it : forall b m k n nl, dqLoop cc b it (S k) = Some (m, true) -> encLoop cc SString id b it k = Some (n, nl) ->
  m <= n + 2 \/ (k <= n /\ digitCurly cc (skipn (n - k) it)).
Proof.
  induction it as [|c t IH]; intros b m k n nl; cbn [dqLoop encLoop]; [discriminate|].
  replace (1 <? S k) with (0 <? k) by reflexivity.
  destruct (isEscaped b (0 <? k)) as [e|] eqn:Ee.
  2:{ cbn [mNot option_map mAnd mOr]. intros _ H. discriminate. }
  cbn [mNot option_map].
  intros HD HE. pose proof HE as HE0. change (stIs SString SString) with true in HE. change (stIs SString StringBacktick) with false in HE. change (stIs SString StringHeredoc) with false in HE.
  cbn [mAnd] in HE.
  destruct (N.eqb_spec c 34) as [->|N34].
  { cbn [mAnd N.eqb Pos.eqb] in HD, HE. destruct e; cbn [negb mAnd mOr] in HD, HE; [|discriminate].
    destruct (encLoop cc SString id (34%N :: b) t (S k)) as [[j nl']|] eqn:EE; [|discriminate]. injection HE as <- _.
    pose proof (enc_ge _ _ _ _ _ _ _ _ EE) as Hge. destruct (IH _ _ _ _ _ HD EE) as [H|[H1 H2]]; [left; exact H|right].
    split; [lia|]. replace (j - k) with (S (j - S k)) by lia. exact H2. }
  cbn [mAnd] in HD, HE.
  assert (REC : forall HDD : dqLoop cc (c :: b) t (S (S k)) = Some (m, true), forall EEE : (' (j, nl) <- encLoop cc SString id (c :: b) t (S k);; Some (j, if (c =? 10)%N then k :: nl else nl)) = Some (n, nl), m <= n + 2 \/ k <= n /\ digitCurly cc (skipn (n - k) (c :: t))).
  { intros HDD EEE. destruct (encLoop cc SString id (c :: b) t (S k)) as [[j nl']|] eqn:EE; [|discriminate]. injection EEE as <- _.
    pose proof (enc_ge _ _ _ _ _ _ _ _ EE) as Hge. destruct (IH _ _ _ _ _ HDD EE) as [H|[H1 H2]]; [left; exact H|right].
    split; [lia|]. replace (j - k) with (S (j - S k)) by lia. exact H2. }
  destruct (N.eqb_spec c 36) as [->|N36].
  - destruct e; cbn [negb mAnd mOr N.eqb Pos.eqb] in HD, HE; [apply REC; [exact HD|exact HE]|].
    destruct (isC (36%N :: t) 1 123) as [[|]|] eqn:E1; cbn [mAnd mOr] in HD, HE; [| |discriminate].
    + injection HD as <-. injection HE as <- _. left; lia.
    + destruct (test (36%N :: t) 1 (isIdentStart cc)) as [[|]|]; cbn [mAnd mOr] in HD, HE; [| |discriminate].
      * injection HD as <-. injection HE as <- _. left; lia.
      * apply REC; [exact HD|exact HE].
  - cbn [mAnd] in HD.
    destruct (N.eqb_spec c 123) as [->|N123].
    + destruct e; cbn [negb mAnd mOr N.eqb Pos.eqb] in HD, HE; [apply REC; [exact HD|exact HE]|].
      destruct (isC (123%N :: t) 1 36) as [[|]|] eqn:E1; cbn [mAnd mOr] in HE; [| |discriminate].
      * destruct (test (123%N :: t) 2 (isIdent cc)) as [[|]|] eqn:E2; cbn [mAnd mOr] in HE; [| |discriminate].
        -- injection HE as <- _. unfold isC, test in E1, E2. cbn [peek] in E1, E2. destruct t as [|d t]; [discriminate|]. cbn [peek option_map] in E1, E2.
           destruct (N.eqb_spec d 36) as [->|]; [|discriminate]. destruct t as [|f t]; [cbn in E2; rewrite (isIdent_nul cc OK) in E2; discriminate|].
           cbn in E2. injection E2 as E2. destruct (isDigit cc f) eqn:Ed.
           ++ right. split; [lia|]. rewrite Nat.sub_diag. exists f, t. split; [reflexivity|exact Ed].
           ++ left. cbn [dqLoop N.eqb Pos.eqb mAnd] in HD. assert (Hs : isEscaped (123%N :: b) (1 <? S (S k)) = Some false) by reflexivity.
              rewrite Hs in HD. cbn [mNot option_map negb mAnd] in HD. unfold isC, test in HD. cbn [peek option_map] in HD.
              destruct (f =? 123)%N; cbn [mOr] in HD; [injection HD as <-; lia|].
              unfold isIdentStart in HD. rewrite E2, Ed in HD. cbn in HD. injection HD as <-. lia.
        -- apply REC; [exact HD|exact HE].
      * apply REC; [exact HD|exact HE].
    + apply REC; [exact HD|]. destruct e; cbn [negb mAnd mOr] in HE; exact HE.
Qed.
End Cut.
