(** C68, part 4: strings, the rest. *)
From Verif Require Export SrcProofs3.
Open Scope nat_scope.

Section F.
Variable cc : CharClass.
Hypothesis OK : ascii_ok cc.
Variable content : qstring.
Notation yields := (yields cc content).
Notation emits := (emits cc content).
Notation leads := (leads cc content).
Notation stands := (stands cc content).
Notation before := (before content).
Notation raw := (raw cc content).

Lemma within_behind p st : isString p -> within p st (BehindVar :: p :: st).
Proof. split; auto. Qed.
Lemma within_top p st : isString p -> within p st (p :: st).
Proof. split; auto. Qed.
(** A character that neither closes a string nor starts something in it. *)
Lemma not_closes_char p c t : isString p -> punct c = true -> c <> cDQ -> c <> cBACKTICK -> asciiLetter c = false -> c <> cUNDERSCORE ->
  (forall id, p = InHeredoc id -> docIdent cc id) -> ~ closes p (c :: t).
Proof.
  intros Hp Hc N1 N2 N3 N4 Hd [(q & r & Eq & E)|(id & -> & (x & E))].
  - injection E as <- _. destruct p; try discriminate Eq; injection Eq as <-; congruence.
  - destruct (Hd id eq_refl) as [(a & s & -> & Ha) _].
    assert (a = c) as -> by (destruct E as [E|E]; injection E as <- _; reflexivity).
    destruct Ha as [Ha|Ha]; [|congruence]. rewrite (ok_letter _ OK) in Ha; [congruence|].
    unfold punct in Hc. rewrite !andb_true_iff, N.ltb_lt in Hc. tauto.
Qed.
Lemma behind_body p st c t l : isString p -> stands (BehindVar :: p :: st) (c :: t) l -> ~ closes p (c :: t) ->
  handler cc (states (BehindVar :: p :: st)) (lx_id l) (before l) (c :: t) = strBody cc (states (BehindVar :: p :: st)) (lx_id l) (before l) (c :: t) StringVariable c.
Proof.
  intros Hp H N. destruct (string_body cc OK content p st _ c t l (within_behind p st Hp) H N) as (s & _ & (q & Eq) & _ & E).
  cbn in Eq. injection Eq as <- _. exact E.
Qed.
Lemma top_body p st c t l : isString p -> stands (p :: st) (c :: t) l -> ~ closes p (c :: t) ->
  handler cc (states (p :: st)) (lx_id l) (before l) (c :: t) = strBody cc (states (p :: st)) (lx_id l) (before l) (c :: t) (stateOf p) c.
Proof.
  intros Hp H N. destruct (string_body cc OK content p st _ c t l (within_top p st Hp) H N) as (s & _ & (q & Eq) & _ & E).
  rewrite states_cons in Eq. injection Eq as <- _. exact E.
Qed.
Lemma behind_id p st l rest : stands (BehindVar :: p :: st) rest l -> forall id, In (InHeredoc id) (p :: st) -> lx_id l = id /\ docIdent cc id.
Proof. intros H id Hin. apply (s_id _ _ _ _ _ H). right. exact Hin. Qed.
Lemma open_bracket p st r l : isString p -> stands (BehindVar :: p :: st) (str "[" ++ r) l ->
  exists l', yields l T_LBRACKET (str "[") r l' /\ raw (StringVariableBracket :: StringVariable :: states (p :: st)) r l' /\ lx_id l' = lx_id l.
Proof.
  intros Hp H.
  destruct (hstep cc content l _ (str "[") r T_LBRACKET [] (StringVariableBracket :: StringVariable :: states (p :: st)) (lx_id l) (stands_raw _ _ _ _ _ H)) as (l' & Y & R & I & _); [discriminate| |discriminate|eauto].
  change (str "[" ++ r) with (91%N :: r) in *. rewrite (behind_body p st _ _ l Hp H).
  - unfold strBody. rewrite (process_none cc) by discriminate. reflexivity.
  - apply not_closes_char; auto; try discriminate. eapply heredoc_ok; [apply (within_behind p st Hp)|exact H].
Qed.
Lemma close_bracket p st r l : raw (StringVariableBracket :: StringVariable :: states (p :: st)) (str "]" ++ r) l ->
  exists l', yields l T_RBRACKET (str "]") r l' /\ raw (states (p :: st)) r l' /\ lx_id l' = lx_id l /\ before l' = 93%N :: before l.
Proof.
  intros H.
  destruct (hstep cc content l _ (str "]") r T_RBRACKET [] (states (p :: st)) (lx_id l) H) as (l' & Y & R & I & B); [discriminate|reflexivity|discriminate|eauto].
Qed.
Lemma leads_number p st ds r : isString p -> ds <> [] -> Forall (fun c => isDigit cc c = true) ds ->
  leads (BehindVar :: p :: st) [(T_LBRACKET, str "["); (T_NUM_STRING, ds); (T_RBRACKET, str "]")] (str "[" ++ ds ++ str "]") (p :: st) r.
Proof.
  intros Hp Hne HD l H. rewrite <- !app_assoc in H.
  destruct (open_bracket _ _ _ _ Hp H) as (l1 & Y1 & R1 & I1).
  destruct (hstep cc content l1 _ ds (str "]" ++ r) T_NUM_STRING [] (StringVariableBracket :: StringVariable :: states (p :: st)) (lx_id l1) R1) as (l2 & Y2 & R2 & I2 & _); [destruct ds; [congruence|discriminate]| |discriminate|].
  - unfold handler. cbn [stateAt nth_error]. unfold lexBracket. destruct ds as [|d ds]; [congruence|]. cbn [app peek].
    pose proof (Forall_inv HD) as Hd. cbv beta in Hd.
    assert (Hr : (d =? 93)%N = false) by (apply N.eqb_neq; intros ->; rewrite (ok_digit _ OK) in Hd by lia; discriminate).
    rewrite Hr, Hd. unfold LexModel.simple. do 2 f_equal.
    change (d :: ds ++ str "]" ++ r) with ((d :: ds) ++ str "]" ++ r). rewrite skipWhile_app; [reflexivity|exact HD|].
    intros c s E. injection E as <- _. rewrite (ok_digit _ OK) by lia. reflexivity.
  - destruct (close_bracket p st r l2 R2) as (l3 & Y3 & R3 & I3 & B3). exists l3. split.
    + eapply em_tok; [exact Y1|reflexivity|discriminate|]. eapply em_tok; [exact Y2|reflexivity|discriminate|]. eapply emits_one; [exact Y3|reflexivity|discriminate].
    + apply (raw_stands cc content); [exact R3| |].
      * intros id Hin. rewrite I3, I2, I1. eapply behind_id; eauto.
      * intros p' x W. rewrite B3. reflexivity.
Qed.
Lemma scan_index s r i : ~ In cRBRACKET s -> exists nl, scanWhile (fun x => negb (x =? cRBRACKET)%N) (s ++ str "]" ++ r) i = (i + List.length s, nl).
Proof.
  revert i. induction s as [|c s IH]; intros i N.
  - exists []. cbn. rewrite Nat.add_0_r. reflexivity.
  - destruct (IH (S i)) as [nl E]; [intros HI; apply N; right; exact HI|]. cbn [app scanWhile List.length].
    assert ((c =? 93)%N = false) as -> by (apply N.eqb_neq; intros ->; apply N; left; reflexivity). cbn [negb].
    rewrite E. rewrite <- Nat.add_succ_comm. destruct (c =? cNL)%N; eauto.
Qed.
Lemma leads_index p st c s r : isString p -> isDigit cc c = false -> ~ In cRBRACKET (c :: s) ->
  leads (BehindVar :: p :: st) [(T_LBRACKET, str "["); (T_STRING, c :: s); (T_RBRACKET, str "]")] (str "[" ++ (c :: s) ++ str "]") (p :: st) r.
Proof.
  intros Hp Hd HN l H. rewrite <- !app_assoc in H.
  destruct (open_bracket _ _ _ _ Hp H) as (l1 & Y1 & R1 & I1).
  destruct (scan_index (c :: s) r 0 HN) as [nl E].
  destruct (hstep cc content l1 _ (c :: s) (str "]" ++ r) T_STRING nl (StringVariableBracket :: StringVariable :: states (p :: st)) (lx_id l1) R1) as (l2 & Y2 & R2 & I2 & _); [discriminate| |discriminate|].
  - unfold handler. cbn [stateAt nth_error]. unfold lexBracket. cbn [app peek].
    assert (Hr : (c =? 93)%N = false) by (apply N.eqb_neq; intros ->; apply HN; left; reflexivity).
    rewrite Hr, Hd. cbn [app] in E. rewrite E. reflexivity.
  - destruct (close_bracket p st r l2 R2) as (l3 & Y3 & R3 & I3 & B3). exists l3. split.
    + eapply em_tok; [exact Y1|reflexivity|discriminate|]. eapply em_tok; [exact Y2|reflexivity|discriminate|]. eapply emits_one; [exact Y3|reflexivity|discriminate].
    + apply (raw_stands cc content); [exact R3| |].
      * intros id Hin. rewrite I3, I2, I1. eapply behind_id; eauto.
      * intros p' x W. rewrite B3. reflexivity.
Qed.
Lemma leads_prop p st name r : isString p -> ident cc name -> noIdent cc r ->
  leads (BehindVar :: p :: st) [(T_OBJECT_OPERATOR, str "->"); (T_STRING, name)] (str "->" ++ name) (p :: st) r.
Proof.
  intros Hp HN N l H. rewrite <- app_assoc in H. pose proof HN as [(c & n' & En & Hc) _].
  destruct (hstep cc content l _ (str "->") (name ++ r) T_OBJECT_OPERATOR [] (StringVariableObjectOperator :: StringVariable :: states (p :: st)) (lx_id l) (stands_raw _ _ _ _ _ H)) as (l1 & Y1 & R1 & I1 & _); [discriminate| |discriminate|].
  - change (str "->" ++ name ++ r) with (45%N :: 62%N :: name ++ r) in *. rewrite (behind_body p st _ _ l Hp H).
    + unfold strBody. rewrite (process_none cc) by discriminate.
      assert (E : test (45%N :: 62%N :: name ++ r) 2 (isIdentStart cc) = Some true).
      { subst name. unfold test. cbn. f_equal. now apply (identStart_spec cc). }
      rewrite E. reflexivity.
    + apply not_closes_char; auto; try discriminate. eapply heredoc_ok; [apply (within_behind p st Hp)|exact H].
  - destruct (hstep cc content l1 _ name r T_STRING [] (states (p :: st)) (lx_id l1) R1) as (l2 & Y2 & R2 & I2 & B2); [subst name; discriminate| |discriminate|].
    + unfold handler. cbn [stateAt nth_error]. unfold lexObjOp. rewrite (ident_scan cc) by auto. reflexivity.
    + exists l2. split; [eapply em_tok; [exact Y1|reflexivity|discriminate|]; eapply emits_one; [exact Y2|reflexivity|discriminate]|].
      apply (raw_stands cc content); [exact R2| |].
      * intros id Hin. rewrite I2, I1. eapply behind_id; eauto.
      * intros p' x W. rewrite B2. apply (ident_last cc OK). exact HN.
Qed.
Lemma leads_curly p st c r : isString p -> identStart cc c \/ c = cLBRACE ->
  leads (p :: st) [(T_CURLY_OPEN, str "{")] (str "{") (InBraces :: p :: st) (cDOLLAR :: c :: r).
Proof.
  intros Hp Hc. apply (leads_one cc content); try discriminate; [reflexivity| | |].
  - intros l H. exists []. change (str "{" ++ cDOLLAR :: c :: r) with (123%N :: 36%N :: c :: r) in *. rewrite (top_body p st _ _ l Hp H).
    + unfold strBody. rewrite (process_none cc) by discriminate. rewrite not_var by exact Hp. cbn [negb mAnd andb]. change (123 =? 36)%N with false. cbn [mAnd]. cbv iota.
      change (123 =? 123)%N with true. cbn [mAnd]. unfold isC at 1, test at 1. cbn [peek option_map]. change (36 =? 36)%N with true. cbn [mAnd].
      assert (E : test (123%N :: 36%N :: c :: r) 2 (isIdentStart cc) ||| isC (123%N :: 36%N :: c :: r) 2 cLBRACE = Some true).
      { unfold isC, test. cbn [peek option_map]. destruct Hc as [Hc| ->]; [rewrite (proj2 (identStart_spec cc c) Hc); reflexivity|].
        destruct (isIdentStart cc 123); reflexivity. }
      rewrite E. reflexivity.
    + apply (not_closes cc OK); auto. eapply heredoc_ok; [apply (within_top p st Hp)|exact H].
  - intros id [E|Hin]; [discriminate|exact Hin].
  - intros l p' x H W. reflexivity.
Qed.
Lemma brace_not_start : ~ identStart cc 123%N.
Proof. intros [[H|[H|[H|H]]] _]; [rewrite (ok_letter _ OK) in H by lia; discriminate|rewrite (ok_digit _ OK) in H by lia; discriminate|discriminate|lia]. Qed.
Lemma leads_dollar_curly p st name r : isString p -> ident cc name -> noIdent cc r ->
  leads (p :: st) [(T_DOLLAR_OPEN_CURLY_BRACES, str "${"); (T_STRING_VARNAME, name)] (str "${" ++ name) (InBraces :: p :: st) r.
Proof.
  intros Hp HN N l H. rewrite <- app_assoc in H. pose proof HN as [(c & n' & En & Hc) _].
  destruct (hstep cc content l _ (str "${") (name ++ r) T_DOLLAR_OPEN_CURLY_BRACES [] (StringVarname :: states (p :: st)) (lx_id l) (stands_raw _ _ _ _ _ H)) as (l1 & Y1 & R1 & I1 & _); [discriminate| |discriminate|].
  - change (str "${" ++ name ++ r) with (36%N :: 123%N :: name ++ r) in *. rewrite (top_body p st _ _ l Hp H).
    + unfold strBody. change 36%N with cDOLLAR. rewrite (process_none' cc OK).
      * rewrite not_var by exact Hp. cbn [negb mAnd]. change (cDOLLAR =? cDOLLAR)%N with true. cbn [mAnd].
        assert (E : test (cDOLLAR :: 123%N :: name ++ r) 2 (isIdentStart cc) = Some true).
        { subst name. unfold test. cbn. f_equal. now apply (identStart_spec cc). }
        rewrite E. reflexivity.
      * intros c' x E. injection E as <- _. exact brace_not_start.
    + apply (not_closes cc OK); auto. eapply heredoc_ok; [apply (within_top p st Hp)|exact H].
  - destruct (hstep cc content l1 _ name r T_STRING_VARNAME [] (states (InBraces :: p :: st)) (lx_id l1) R1) as (l2 & Y2 & R2 & I2 & B2); [subst name; discriminate| |discriminate|].
    + unfold handler. cbn [stateAt nth_error]. unfold lexVarname. rewrite (ident_scan cc) by auto. reflexivity.
    + exists l2. split; [eapply em_tok; [exact Y1|reflexivity|discriminate|]; eapply emits_one; [exact Y2|reflexivity|discriminate]|].
      apply (raw_stands cc content); [exact R2| |].
      * intros id [E|Hin]; [discriminate|]. rewrite I2, I1. exact (s_id _ _ _ _ _ H id Hin).
      * intros p' x W. rewrite B2. apply (ident_last cc OK). exact HN.
Qed.

(** ** Text *)
Lemma special_test p c t : isString p -> exists b,
  (((Some (c =? cDOLLAR)%N &&& isC (c :: t) 1 cLBRACE)
    ||| (Some (c =? cLBRACE)%N &&& isC (c :: t) 1 cDOLLAR &&& test (c :: t) 2 (isIdent cc))
    ||| (Some (c =? cDOLLAR)%N &&& test (c :: t) 1 (isIdentStart cc)))
   ||| (Some (stIs (stateOf p) SString) &&& Some (c =? cDQ)%N &&& Some true)
   ||| (Some (stIs (stateOf p) StringBacktick) &&& Some (c =? cBACKTICK)%N &&& Some true)) = Some b /\
  (b = true -> special cc p (c :: t)) /\ (special cc p (c :: t) -> (forall x, c :: t <> str "{${" ++ x) -> b = true).
Proof.
  intros Hp.
  assert (Q : exists b, (Some (stIs (stateOf p) SString) &&& Some (c =? cDQ)%N &&& Some true)
   ||| (Some (stIs (stateOf p) StringBacktick) &&& Some (c =? cBACKTICK)%N &&& Some true) = Some b /\ (b = true <-> quoteOf p = Some c)).
  { destruct p; try destruct Hp; cbn [stateOf stIs LState_beq mAnd mOr quoteOf].
    - destruct (N.eqb_spec c cDQ) as [->|Hn]; eexists; (split; [reflexivity|]); split; try discriminate; auto. intros E. injection E as E. congruence.
    - destruct (N.eqb_spec c cBACKTICK) as [->|Hn]; eexists; (split; [reflexivity|]); split; try discriminate; auto. intros E. injection E as E. congruence.
    - eexists. split; [reflexivity|]. split; discriminate. }
  destruct Q as (qb & EQ & HQ).
  assert (A : exists b, (Some (c =? cDOLLAR)%N &&& isC (c :: t) 1 cLBRACE) = Some b /\ (b = true <-> exists x, c :: t = cDOLLAR :: cLBRACE :: x)).
  { destruct (N.eqb_spec c cDOLLAR) as [->|Hn]; cbn [mAnd].
    - unfold isC, test. destruct t as [|d t]; cbn [peek option_map].
      + exists false. split; [reflexivity|]. split; [discriminate|]. intros (x & E). discriminate.
      + eexists. split; [reflexivity|]. rewrite N.eqb_eq. split; [intros ->; eauto|]. intros (x & E). injection E as -> _. reflexivity.
    - exists false. split; [reflexivity|]. split; [discriminate|]. intros (x & E). injection E as -> _. congruence. }
  destruct A as (ab & EA & HA).
  assert (B : exists b, (Some (c =? cLBRACE)%N &&& isC (c :: t) 1 cDOLLAR &&& test (c :: t) 2 (isIdent cc)) = Some b /\ (b = true <-> exists d x, c :: t = cLBRACE :: cDOLLAR :: d :: x /\ identChar cc d)).
  { destruct (N.eqb_spec c cLBRACE) as [->|Hn]; cbn [mAnd].
    - unfold isC, test. destruct t as [|d t]; cbn [peek option_map mAnd].
      + exists false. split; [reflexivity|]. split; [discriminate|]. intros (d & x & E & _). discriminate.
      + destruct (N.eqb_spec d cDOLLAR) as [->|Hd]; cbn [mAnd].
        * destruct t as [|e t]; cbn [peek option_map].
          -- exists false. rewrite (isIdent_nul cc OK). split; [reflexivity|]. split; [discriminate|]. intros (d & x & E & _). discriminate.
          -- eexists. split; [reflexivity|]. rewrite (identChar_spec cc). split; [eauto|]. intros (d & x & E & G). injection E as -> _. exact G.
        * exists false. split; [reflexivity|]. split; [discriminate|]. intros (d' & x & E & _). injection E as -> _. congruence.
    - exists false. split; [reflexivity|]. split; [discriminate|]. intros (d & x & E & _). injection E as -> _. congruence. }
  destruct B as (bb & EB & HB).
  assert (C : exists b, (Some (c =? cDOLLAR)%N &&& test (c :: t) 1 (isIdentStart cc)) = Some b /\ (b = true <-> exists d x, c :: t = cDOLLAR :: d :: x /\ identStart cc d)).
  { destruct (N.eqb_spec c cDOLLAR) as [->|Hn]; cbn [mAnd].
    - unfold test. destruct t as [|d t]; cbn [peek option_map].
      + exists false. rewrite (isIdentStart_nul cc OK). split; [reflexivity|]. split; [discriminate|]. intros (d & x & E & _). discriminate.
      + eexists. split; [reflexivity|]. rewrite (identStart_spec cc). split; [eauto|]. intros (d' & x & E & G). injection E as -> _. exact G.
    - exists false. split; [reflexivity|]. split; [discriminate|]. intros (d & x & E & _). injection E as -> _. congruence. }
  destruct C as (cb & EC & HC). exists ((ab || bb || cb) || qb). rewrite EA, EB, EC. split; [|split].
  - destruct (Some (stIs (stateOf p) SString) &&& Some (c =? cDQ)%N &&& Some true) as [[|]|]; cbn [mOr] in EQ |- *.
    + injection EQ as <-. destruct ab, bb, cb; reflexivity.
    + rewrite EQ. destruct ab, bb, cb; reflexivity.
    + discriminate.
  - rewrite !orb_true_iff. intros [[[E|E]|E]|E].
    + apply HA in E. destruct E as (x & E). left. exists cLBRACE, x. auto.
    + apply HB in E. destruct E as (d & x & E & G). right. left. exists d, x. auto.
    + apply HC in E. destruct E as (d & x & E & G). left. exists d, x. auto.
    + apply HQ in E. right. right. exists c, t. auto.
  - intros [(d & x & E & [-> |G])|[(d & x & E & [-> |G])|(q & x & Eq & E)]] N.
    + rewrite (proj2 HA) by eauto. reflexivity.
    + rewrite (proj2 HC) by eauto. rewrite !orb_true_r. reflexivity.
    + exfalso. eapply N. exact E.
    + rewrite (proj2 HB) by eauto. rewrite !orb_true_r. reflexivity.
    + injection E as <- _. rewrite (proj2 HQ Eq). apply orb_true_r.
Qed.
Lemma last_test p id c t : (forall id', p = InHeredoc id' -> id = id') -> isString p -> exists b,
  (Some (stIs (stateOf p) StringHeredoc) &&& Some (c =? cNL)%N &&& isHereNowDocEnd id t) = Some b /\ (b = true <-> lastLine p (c :: t)).
Proof.
  intros Hid Hp. destruct p as [ | | | | |id0| ]; try destruct Hp; cbn [stateOf stIs LState_beq mAnd lastLine].
  - exists false. split; [reflexivity|]. split; [discriminate|intros []].
  - exists false. split; [reflexivity|]. split; [discriminate|intros []].
  - rewrite (Hid id0 eq_refl). destruct (N.eqb_spec c cNL) as [->|Hn]; cbn [mAnd].
    + destruct (docEnd_test id0 t) as [v [-> Hv]]. exists v. split; [reflexivity|]. rewrite Hv. split; [eauto|]. intros (r & E & G). injection E as <-. exact G.
    + exists false. split; [reflexivity|]. split; [discriminate|]. intros (r & E & _). injection E as -> _. congruence.
Qed.
(** One round of the loop. *)
Lemma andT x : Some true &&& x = x. Proof. reflexivity. Qed.
Lemma andF x : Some false &&& x = Some false. Proof. reflexivity. Qed.
Lemma orF x : Some false ||| x = x. Proof. reflexivity. Qed.
Lemma enc_char p id c t b i : isString p -> (forall id', p = InHeredoc id' -> id = id') -> isEscaped b (0 <? i) = Some false ->
  ~ special cc p (c :: t) -> ~ lastLine p (c :: t) ->
  encLoop cc (stateOf p) id b (c :: t) i = (' (j, nl) <- encLoop cc (stateOf p) id (c :: b) t (S i) ;; Some (j, if (c =? cNL)%N then i :: nl else nl)).
Proof.
  intros Hp Hid He N1 N2. cbn [encLoop]. rewrite He. change (mNot (Some false)) with (Some true). rewrite andT.
  destruct (special_test p c t Hp) as (v & E & H1 & _). rewrite E.
  assert (v = false) as -> by (destruct v; [exfalso; auto|reflexivity]).
  destruct (last_test p id c t Hid Hp) as (u & E' & H'). rewrite E'.
  assert (u = false) as -> by (destruct u; [exfalso; apply N2, H'; reflexivity|reflexivity]). reflexivity.
Qed.
Lemma enc_escaped p id c t b i : isString p -> (forall id', p = InHeredoc id' -> id = id') -> isEscaped b (0 <? i) = Some true ->
  ~ lastLine p (c :: t) ->
  encLoop cc (stateOf p) id b (c :: t) i = (' (j, nl) <- encLoop cc (stateOf p) id (c :: b) t (S i) ;; Some (j, if (c =? cNL)%N then i :: nl else nl)).
Proof.
  intros Hp Hid He N2. cbn [encLoop]. rewrite He. change (mNot (Some true)) with (Some false). rewrite andF, orF.
  assert (E : (Some (stIs (stateOf p) SString) &&& Some (c =? cDQ)%N &&& Some false) ||| (Some (stIs (stateOf p) StringBacktick) &&& Some (c =? cBACKTICK)%N &&& Some false) = Some false).
  { destruct p; try destruct Hp; cbn [stateOf stIs LState_beq mAnd mOr]; try (destruct (c =? cDQ)%N; destruct (c =? cBACKTICK)%N; reflexivity); reflexivity. }
  rewrite E. destruct (last_test p id c t Hid Hp) as (u & E' & H'). rewrite E'.
  assert (u = false) as -> by (destruct u; [exfalso; apply N2, H'; reflexivity|reflexivity]). reflexivity.
Qed.
Lemma enc_last p id t b i e : isString p -> (forall id', p = InHeredoc id' -> id = id') -> isEscaped b (0 <? i) = Some e ->
  lastLine p (cNL :: t) -> encLoop cc (stateOf p) id b (cNL :: t) i = Some (S i, [i]).
Proof.
  intros Hp Hid He N2. cbn [encLoop]. rewrite He.
  destruct (last_test p id cNL t Hid Hp) as (u & E' & H'). rewrite E', (proj2 H' N2).
  destruct p as [ | | | | |id0| ]; try destruct N2. cbn [stateOf stIs LState_beq]. destruct e; reflexivity.
Qed.
Lemma not_special_bs p t : isString p -> ~ special cc p (cBSLASH :: t).
Proof.
  intros Hp [(c & r & E & _)|[(c & r & E & _)|(q & r & Eq & E)]]; try discriminate.
  injection E as <- _. destruct p; try discriminate Eq.
Qed.
Lemma not_last_bs p t : ~ lastLine p (cBSLASH :: t).
Proof. destruct p; cbn; try tauto. intros (r & E & _). discriminate. Qed.
Lemma enc_text p id body r : isString p -> (forall id', p = InHeredoc id' -> id = id') -> plainText cc p body r ->
  forall b i, oddBackslashes b = Some false -> exists nl, encLoop cc (stateOf p) id b (body ++ r) i = Some (i + List.length body, nl).
Proof.
  intros Hp Hid. induction 1 as [r S N|r L|c body r Hc NS NL T IH|c body r NL T IH|r L]; intros b i Hb.
  - destruct r as [|c t].
    { exfalso. destruct S as [(c & r & E & _)|[(c & r & E & _)|(q & r & _ & E)]]; discriminate. }
    cbn [app encLoop]. assert (He : isEscaped b (0 <? i) = Some false) by (destruct i; [reflexivity|exact Hb]). rewrite He. change (mNot (Some false)) with (Some true). rewrite andT.
    destruct (special_test p c t Hp) as (v & E & _ & H2). rewrite E, (H2 S N). cbn [List.length]. rewrite Nat.add_0_r. eauto.
  - cbn [app]. rewrite (enc_last p id r b i false); auto; [|destruct i; [reflexivity|exact Hb]]. exists [i]. cbn [List.length]. do 2 f_equal. lia.
  - cbn [app]. rewrite enc_char; auto; [|destruct i; [reflexivity|exact Hb]].
    destruct (IH (c :: b) (S i)) as [nl E]; [apply odd_step; exact Hc|]. rewrite E. eexists. cbn [List.length]. rewrite <- Nat.add_succ_comm. reflexivity.
  - cbn [app]. rewrite enc_char; auto; [|destruct i; [reflexivity|exact Hb]|apply not_special_bs; auto|apply not_last_bs].
    rewrite enc_escaped; auto; [|cbn [Nat.ltb Nat.leb isEscaped oddBackslashes]; change (cBSLASH =? 92)%N with true; rewrite Hb; reflexivity].
    destruct (IH (c :: cBSLASH :: b) (S (S i))) as [nl E]; [apply odd_pair; exact Hb|]. rewrite E. eexists. cbn [List.length]. do 2 f_equal. lia.
  - cbn [app]. rewrite enc_char; auto; [|destruct i; [reflexivity|exact Hb]|apply not_special_bs; auto|apply not_last_bs].
    rewrite (enc_last p id r _ _ true); auto; [|cbn [Nat.ltb Nat.leb isEscaped oddBackslashes]; change (cBSLASH =? 92)%N with true; rewrite Hb; reflexivity].
    eexists. cbn [List.length]. do 2 f_equal. lia.
Qed.
Lemma text_last p body r b : plainText cc p body r -> oddBackslashes b = Some false -> oddBackslashes (rev body ++ b) = Some false.
Proof.
  intros H. revert b. induction H as [r S N|r L|c body r Hc NS NL T IH|c body r NL T IH|r L]; intros b Hb; cbn [rev app]; auto.
  - rewrite <- app_assoc. apply IH. apply odd_step. exact Hc.
  - rewrite <- !app_assoc. apply IH. apply odd_pair. exact Hb.
Qed.
Lemma leads_text p st here body r : within p st here -> plainText cc p body r ->
  ~ (exists id, p = InHeredoc id /\ endsDoc id (body ++ r)) ->
  (here = p :: st -> body <> []) ->
  (here = BehindVar :: p :: st -> (forall x, body ++ r <> cLBRACKET :: x) /\
     (forall c x, body ++ r = str "->" ++ c :: x -> ~ identStart cc c) /\
     (forall c x, body ++ r = cDOLLAR :: c :: x -> ~ identStart cc c) /\
     (forall q x, quoteOf p = Some q -> body ++ r <> q :: x)) ->
  leads here [(T_ENCAPSED_AND_WHITESPACE, body)] body (p :: st) r.
Proof.
  intros W T NE H1 H2. pose proof (proj1 W) as Hp.
  assert (Hne : body ++ r <> []).
  { destruct T as [r S N|r L|c body r Hc NS NL T|c body r NL T|r L]; try discriminate.
    cbn [app]. intros ->. destruct S as [(c & x & E & _)|[(c & x & E & _)|(q & x & _ & E)]]; discriminate. }
  (* at the top of the string the text is not empty and its first character is plain *)
  assert (FIRST : body <> [] -> forall c t, body ++ r = c :: t -> ~ special cc p (c :: t)).
  { intros Hb c t E. destruct T as [r S N|r L|c' body r Hc NS NL T|c' body r NL T|r L]; try congruence; cbn [app] in E; injection E as <- E.
    - intros [(c & x & E' & _)|[(c & x & E' & _)|(q & x & Eq & E')]]; try discriminate. injection E' as <- _. destruct p; try discriminate Eq.
    - subst t. exact NS.
    - apply not_special_bs; auto.
    - apply not_special_bs; auto. }
  assert (HW : here = p :: st \/ here = BehindVar :: p :: st) by exact (proj2 W).
  assert (NOVAR : forall c x, body ++ r = cDOLLAR :: c :: x -> ~ identStart cc c).
  { destruct HW as [HW|HW]; [|apply H2; exact HW]. intros c x E G. eapply (FIRST (H1 HW)); [exact E|]. left. exists c, x. auto. }
  assert (NOQ : forall q x, quoteOf p = Some q -> body ++ r <> q :: x).
  { destruct HW as [HW|HW]; [|apply H2; exact HW]. intros q x Eq E. eapply (FIRST (H1 HW)); [exact E|]. right. right. exists q, x. auto. }
  apply (leads_one cc content); try discriminate; [reflexivity|exact Hne| | |].
  - intros l H. destruct (body ++ r) as [|c t] eqn:EB; [congruence|].
    assert (NC : ~ closes p (c :: t)).
    { intros [(q & x & Eq & E)|(id & -> & D)]; [eapply NOQ; eauto|]. apply NE. exists id. auto. }
    assert (PV : processVariable cc (c :: t) = Some None).
    { destruct (N.eq_dec c cDOLLAR) as [->|Hn]; [|apply process_none; exact Hn]. apply (process_none' cc OK). intros d x ->. eapply NOVAR. reflexivity. }
    assert (Hid : forall id', p = InHeredoc id' -> lx_id l = id').
    { intros id' ->. destruct HW as [-> | ->]; apply (s_id _ _ _ _ _ H); [left|right; left]; reflexivity. }
    destruct (enc_text p (lx_id l) body r Hp Hid T (before l) 0) as [nl EN].
    { eapply (s_before _ _ _ _ _ H). exact W. }
    rewrite EB in EN. cbn [Nat.add] in EN. exists nl.
    destruct HW as [HW|HW]; subst here.
    + rewrite (top_body p st c t l Hp H NC). unfold strBody. rewrite PV, not_var by exact Hp. change (Some (negb false)) with (Some true). rewrite !andT, !andF. cbn [andb]. cbv iota.
      pose proof (FIRST (H1 eq_refl) c t eq_refl) as NS.
      assert (G1 : Some (c =? cDOLLAR)%N &&& isC (c :: t) 1 cLBRACE = Some false).
      { destruct (N.eqb_spec c cDOLLAR) as [->|Hn]; [|reflexivity]. cbn [mAnd]. unfold isC, test. destruct t as [|d t]; [reflexivity|]. cbn [peek option_map]. f_equal. apply N.eqb_neq. intros ->. apply NS. left. exists cLBRACE, t. auto. }
      assert (G2 : Some (c =? cLBRACE)%N &&& isC (c :: t) 1 cDOLLAR &&& (test (c :: t) 2 (isIdentStart cc) ||| isC (c :: t) 2 cLBRACE) = Some false).
      { destruct (N.eqb_spec c cLBRACE) as [->|Hn]; [|reflexivity]. cbn [mAnd]. unfold isC, test. destruct t as [|d t]; [reflexivity|]. cbn [peek option_map].
        destruct (N.eqb_spec d cDOLLAR) as [->|Hn]; [|reflexivity]. cbn [mAnd]. destruct t as [|e t]; cbn [peek option_map]; [rewrite (isIdentStart_nul cc OK); reflexivity|].
        destruct (isIdentStart cc e) eqn:Ee.
        - exfalso. apply NS. right. left. exists e, t. split; [reflexivity|]. right. apply (identStart_spec cc) in Ee. exact (proj1 Ee).
        - cbn [mOr]. f_equal. apply N.eqb_neq. intros ->. apply NS. right. left. exists cLBRACE, t. auto. }
      rewrite G1, G2, states_cons. cbn [stateAt nth_error]. rewrite EN. reflexivity.
    + rewrite (behind_body p st c t l Hp H NC). unfold strBody. rewrite PV. destruct (H2 eq_refl) as (A1 & A2 & _ & _).
      change (stIs StringVariable StringVariable) with true. change (Some (negb true)) with (Some false). rewrite !andT, !andF. cbn [andb]. cbv iota.
      assert ((c =? cLBRACKET)%N = false) as -> by (apply N.eqb_neq; intros ->; eapply A1; reflexivity).
      assert (G : Some (c =? cMINUS)%N &&& isC (c :: t) 1 cGT &&& test (c :: t) 2 (isIdentStart cc) = Some false).
      { destruct (N.eqb_spec c cMINUS) as [->|Hn]; [|reflexivity]. cbn [mAnd]. unfold isC, test. destruct t as [|d t]; [reflexivity|]. cbn [peek option_map].
        destruct (N.eqb_spec d cGT) as [->|Hn]; [|reflexivity]. cbn [mAnd]. destruct t as [|e t]; cbn [peek option_map]; [rewrite (isIdentStart_nul cc OK); reflexivity|].
        f_equal. apply not_true_iff_false. rewrite (identStart_spec cc). eapply A2. reflexivity. }
      rewrite G, states_cons. cbn [pop]. rewrite states_cons. cbn [stateAt nth_error]. rewrite EN. reflexivity.
  - intros id Hin. destruct HW as [-> | ->]; [exact Hin|right; exact Hin].
  - intros l p' x H W'. apply (text_last p body r); [exact T|]. eapply (s_before _ _ _ _ _ H). exact W.
Qed.
End F.
