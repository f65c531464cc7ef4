(** C68, part 3: strings. *)
From Verif Require Export SrcProofs2.
Open Scope nat_scope.

Section F.
Variable cc : CharClass.
Hypothesis OK : ascii_ok cc.
Variable content : qstring.
Notation yields := (yields cc content).
Notation emits := (emits cc content).
Notation leads := (leads cc content).
Notation stands := (stands cc content).
Notation before := (before content).
Notation raw := (raw cc content).

Lemma string_in p st here rest l : within p st here -> stands here rest l ->
  exists s1 q, states st = s1 :: q /\ (s1 = DefaultState \/ s1 = StringVariableCurly) /\
    (states here = stateOf p :: s1 :: q \/ states here = StringVariable :: stateOf p :: s1 :: q).
Proof.
  intros [Hp W] H. pose proof (inv_wf _ _ _ _ _ (stands_inv cc OK _ _ _ _ H)) as V. rewrite (s_states _ _ _ _ _ H) in V.
  assert (V' : wfS (states (p :: st))).
  { destruct W as [-> | ->]; [exact V|]. rewrite states_cons in V. cbn [stateOf wfS] in V. rewrite states_cons in V. exact (proj2 V). }
  rewrite states_cons in V'.
  assert (E : exists s1 q, states st = s1 :: q /\ (s1 = DefaultState \/ s1 = StringVariableCurly)).
  { destruct (states st) as [|s1 q].
    - exfalso. destruct p; cbn in V'; try destruct Hp; destruct V'.
    - exists s1, q. split; [reflexivity|]. destruct p; cbn in V'; try destruct Hp; destruct V' as [V' _]; destruct s1; cbn in V'; auto; discriminate. }
  destruct E as (s1 & q & E & Hs). exists s1, q. split; [exact E|]. split; [exact Hs|].
  rewrite <- E. destruct W as [-> | ->]; [left|right]; reflexivity.
Qed.

Definition closes (p : place) (s : qstring) : Prop :=
  (exists q r, quoteOf p = Some q /\ s = q :: r) \/ (exists id, p = InHeredoc id /\ endsDoc id s).

(** lexString behind the tests for the end of the string. *)
Definition strBody (st : list LState) (id : qstring) (before it : list N) (s : LState) (c : N) : option Out :=
  v <- processVariable cc it ;;
  match v with
  | Some len =>
      LexModel.simple (if stIs s StringVariable then st else StringVariable :: st) id T_VARIABLE len
  | None =>
  IF Some (negb (stIs s StringVariable)) &&& Some (c =? cDOLLAR)%N &&& isC it 1 cLBRACE
  THEN
    IF test it 2 (isIdentStart cc)
    THEN LexModel.simple (StringVarname :: st) id T_DOLLAR_OPEN_CURLY_BRACES 2
    ELSE LexModel.simple st id T_DOLLAR_OPEN_CURLY_BRACES 2
  ELSE
  if stIs s StringVariable && (c =? cLBRACKET)%N
  then LexModel.simple (StringVariableBracket :: st) id T_LBRACKET 1
  else IF Some (negb (stIs s StringVariable)) &&& Some (c =? cLBRACE)%N &&& isC it 1 cDOLLAR
          &&& (test it 2 (isIdentStart cc) ||| isC it 2 cLBRACE)
  THEN LexModel.simple (StringVariableCurly :: st) id T_CURLY_OPEN 1
  ELSE IF Some (stIs s StringVariable) &&& Some (c =? cMINUS)%N &&& isC it 1 cGT
          &&& test it 2 (isIdentStart cc)
  THEN LexModel.simple (StringVariableObjectOperator :: st) id T_OBJECT_OPERATOR 2
  ELSE
    st' <- (if stIs s StringVariable then pop st else Some st) ;;
    s' <- stateAt st' 0 ;;
    ' (i, nl) <- encLoop cc s' id before it 0 ;;
    Some {| o_tok := T_ENCAPSED_AND_WHITESPACE; o_len := i; o_nl := nl; o_st := st'; o_id := id |}
  end.
(** The top state of a string. *)
Definition topOf (p : place) (s : LState) : Prop := s = stateOf p \/ s = StringVariable.

Lemma string_body p st here c t l : within p st here -> stands here (c :: t) l -> ~ closes p (c :: t) ->
  exists s, topOf p s /\ (exists q, states here = s :: q) /\ (s = stateOf p <-> here = p :: st) /\
  handler cc (states here) (lx_id l) (before l) (c :: t) = strBody (states here) (lx_id l) (before l) (c :: t) s c.
Proof.
  intros W H N. destruct (string_in _ _ _ _ _ W H) as (s1 & q & E & Hs1 & Hh). pose proof W as [Hp W'].
  assert (IN : forall s0, states here = s0 :: tl (states here) -> forall x, x = SString \/ x = StringBacktick \/ x = StringHeredoc ->
     inString (states here) x = Some (stIs (stateOf p) x)).
  { intros s0 _ x Hx. unfold inString. destruct Hh as [-> | ->]; cbn [stateAt nth_error].
    - destruct (stIs (stateOf p) x) eqn:EX; cbn [mOr]; [reflexivity|].
      destruct Hx as [-> |[-> | ->]]; destruct Hs1 as [-> | ->]; reflexivity.
    - destruct Hx as [-> |[-> | ->]]; destruct p; try destruct Hp; reflexivity. }
  assert (HQ : forall x qc, stateOf p = x -> quoteOf p = Some qc -> (c =? qc)%N = false).
  { intros x qc _ Eq. apply N.eqb_neq. intros ->. apply N. left. exists qc, t. auto. }
  assert (HE : forall id, p = InHeredoc id -> isHereNowDocEnd (lx_id l) (c :: t) = Some false).
  { intros id ->. assert (Hid : lx_id l = id) by (destruct W' as [-> | ->]; apply (s_id _ _ _ _ _ H); [left|right; left]; reflexivity).
    rewrite Hid. destruct (docEnd_test id (c :: t)) as [v [-> Hv]]. f_equal. destruct v; auto. exfalso. apply N. right. exists id. split; [reflexivity|]. now apply Hv. }
  assert (G : forall s, states here = s :: tl (states here) -> topOf p s ->
    lexString cc (states here) (lx_id l) (before l) (c :: t) = strBody (states here) (lx_id l) (before l) (c :: t) s c).
  { intros s Es Ht. unfold lexString. cbn [peek]. rewrite Es at 1. cbn [stateAt nth_error].
    rewrite !(IN s Es) by auto.
    assert (B1 : Some (stIs (stateOf p) SString) &&& Some (c =? cDQ)%N = Some false).
    { destruct p; try destruct Hp; try reflexivity. cbn [stateOf stIs LState_beq mAnd]. now rewrite (HQ _ cDQ eq_refl eq_refl). }
    assert (B2 : Some (stIs (stateOf p) StringBacktick) &&& Some (c =? cBACKTICK)%N = Some false).
    { destruct p; try destruct Hp; try reflexivity. cbn [stateOf stIs LState_beq mAnd]. now rewrite (HQ _ cBACKTICK eq_refl eq_refl). }
    assert (B3 : Some (stIs (stateOf p) StringHeredoc) &&& isHereNowDocEnd (lx_id l) (c :: t) = Some false).
    { destruct p; try destruct Hp; try reflexivity. cbn [stateOf stIs LState_beq mAnd]. rewrite (HE _ eq_refl). reflexivity. }
    rewrite B1, B2, B3. reflexivity. }
  assert (HND : here = p :: st -> here <> BehindVar :: p :: st).
  { intros -> E'. injection E' as -> _. destruct Hp. }
  destruct W' as [W'|W'].
  - exists (stateOf p). split; [left; reflexivity|]. split; [subst here; eexists; reflexivity|]. split; [tauto|].
    rewrite <- G; [|subst here; reflexivity|left; reflexivity]. subst here. unfold handler. cbn [states map app stateAt nth_error]. destruct p; try destruct Hp; reflexivity.
  - exists StringVariable. split; [right; reflexivity|]. split; [subst here; eexists; reflexivity|]. split.
    { split; [intros E'; destruct p; try destruct Hp; discriminate|]. intros E'. exfalso. eapply HND; eauto. }
    rewrite <- G; [|subst here; reflexivity|right; reflexivity]. subst here. reflexivity.
Qed.
Lemma top_is p s : isString p -> topOf p s -> s <> stateOf p -> s = StringVariable.
Proof. intros _ [->| ->] H; congruence. Qed.
Lemma not_var p : isString p -> stIs (stateOf p) StringVariable = false.
Proof. destruct p; intros []; reflexivity. Qed.

(** ** Ends *)
Lemma popString_in p st here rest l : within p st here -> stands here rest l -> popString (states here) = Some (states st).
Proof.
  intros W H. pose proof W as [Hp [-> | ->]]; unfold popString.
  - rewrite states_cons. cbn [stateAt nth_error]. rewrite not_var by auto. reflexivity.
  - rewrite !states_cons. reflexivity.
Qed.
Lemma within_id p st here id : within p st here -> In (InHeredoc id) st -> In (InHeredoc id) here.
Proof. intros [_ [-> | ->]] H; [right; exact H|right; right; exact H]. Qed.
Lemma inner_code p st here rest l : within p st here -> stands here rest l -> code st.
Proof.
  intros W H. destruct (string_in _ _ _ _ _ W H) as (s1 & q & E & Hs1 & _).
  destruct st as [|p0 st]; [cbn in E; destruct Hs1 as [-> | ->]; discriminate|]. rewrite states_cons in E. injection E as <- _.
  exists st. destruct p0; cbn in Hs1; destruct Hs1; try discriminate; auto.
Qed.
Lemma leads_end p st here k text r : within p st here -> k <> T_HALT_COMPILER -> skipped k = false -> k <> T_EOF -> text ++ r <> [] ->
  (forall l, stands here (text ++ r) l -> exists nl, handler cc (states here) (lx_id l) (before l) (text ++ r) = Some {| o_tok := k; o_len := List.length text; o_nl := nl; o_st := states st; o_id := lx_id l |}) ->
  leads here [(k, text)] text st r.
Proof.
  intros W K1 K2 K3 Hne HH. apply (leads_one cc content); auto.
  - intros id Hin. eapply within_id; eauto.
  - intros l p' x H W'. exfalso. eapply code_not_within; [|exact W']. eapply inner_code; eauto.
Qed.
Lemma leads_unquote st here r : within InQuotes st here -> leads here [(T_DOUBLE_QUOTE, [cDQ])] [cDQ] st r.
Proof.
  intros W. apply (leads_end InQuotes st here); auto; try discriminate. intros l H. exists [].
  assert (E : inString (states here) SString = Some true).
  { destruct W as [_ [-> | ->]]; reflexivity. }
  assert (EH : handler cc (states here) (lx_id l) (before l) ([cDQ] ++ r) = lexString cc (states here) (lx_id l) (before l) ([cDQ] ++ r)).
  { destruct W as [_ [-> | ->]]; reflexivity. }
  rewrite EH. unfold lexString. cbn [peek app]. destruct (states here) as [|s q] eqn:Es; [destruct W as [_ [-> | ->]]; discriminate|].
  cbn [stateAt nth_error]. rewrite E. change (cDQ =? cDQ)%N with true. cbn [mAnd]. rewrite <- Es, (popString_in _ _ _ _ _ W H). reflexivity.
Qed.
Lemma leads_unbacktick st here r : within InBackticks st here -> leads here [(T_BACKTICK, [cBACKTICK])] [cBACKTICK] st r.
Proof.
  intros W. apply (leads_end InBackticks st here); auto; try discriminate. intros l H. exists [].
  assert (E : inString (states here) StringBacktick = Some true).
  { destruct W as [_ [-> | ->]]; reflexivity. }
  destruct (string_in _ _ _ _ _ W H) as (s1 & q1 & E1 & Hs1 & Hh).
  assert (E0 : inString (states here) SString = Some false).
  { destruct Hh as [-> | ->]; destruct Hs1 as [-> | ->]; reflexivity. }
  assert (EH : handler cc (states here) (lx_id l) (before l) ([cBACKTICK] ++ r) = lexString cc (states here) (lx_id l) (before l) ([cBACKTICK] ++ r)).
  { destruct W as [_ [-> | ->]]; reflexivity. }
  rewrite EH. unfold lexString. cbn [peek app]. destruct (states here) as [|s q] eqn:Es; [destruct W as [_ [-> | ->]]; discriminate|].
  cbn [stateAt nth_error]. rewrite E0, E. change (cBACKTICK =? cBACKTICK)%N with true. cbn [mAnd]. rewrite <- Es, (popString_in _ _ _ _ _ W H). reflexivity.
Qed.
Lemma leads_end_heredoc id st here r : within (InHeredoc id) st here -> endsDoc id (id ++ r) -> leads here [(T_END_HEREDOC, id)] id st r.
Proof.
  intros W D. apply (leads_end (InHeredoc id) st here); auto; try discriminate.
  { destruct D as [x [E|E]]; rewrite E; destruct id; discriminate. }
  intros l H. exists [].
  assert (Hid : lx_id l = id) by (destruct W as [_ [-> | ->]]; apply (s_id _ _ _ _ _ H); [left|right; left]; reflexivity).
  assert (E : inString (states here) StringHeredoc = Some true).
  { destruct W as [_ [-> | ->]]; reflexivity. }
  destruct (string_in _ _ _ _ _ W H) as (s1 & q1 & E1 & Hs1 & Hh).
  assert (E0 : inString (states here) SString = Some false).
  { destruct Hh as [-> | ->]; destruct Hs1 as [-> | ->]; reflexivity. }
  assert (E2 : inString (states here) StringBacktick = Some false).
  { destruct Hh as [-> | ->]; destruct Hs1 as [-> | ->]; reflexivity. }
  assert (EH : handler cc (states here) (lx_id l) (before l) (id ++ r) = lexString cc (states here) (lx_id l) (before l) (id ++ r)).
  { destruct W as [_ [-> | ->]]; reflexivity. }
  rewrite EH. unfold lexString.
  assert (EP : exists c, peek (id ++ r) 0 = Some c) by (destruct (id ++ r); eexists; reflexivity).
  destruct EP as [c ->]. destruct (states here) as [|s q] eqn:Es; [destruct W as [_ [-> | ->]]; discriminate|].
  cbn [stateAt nth_error]. rewrite E0, E2, E. cbn [mAnd]. rewrite Hid. destruct (docEnd_test id (id ++ r)) as [v [-> Hv]].
  rewrite (proj2 Hv D). rewrite <- Es, (popString_in _ _ _ _ _ W H). reflexivity.
Qed.

(** ** Variables *)
Lemma not_closes p c t : isString p -> (c = cDOLLAR \/ c = cLBRACE) -> (forall id, p = InHeredoc id -> docIdent cc id) -> ~ closes p (c :: t).
Proof.
  intros Hp Hc Hd [(q & r & Eq & E)|(id & -> & (x & E))].
  - injection E as <- _. destruct p; try discriminate Eq; injection Eq as <-; destruct Hc; discriminate.
  - destruct (Hd id eq_refl) as [(a & s & -> & Ha) _].
    assert (a = c) as -> by (destruct E as [E|E]; injection E as <- _; reflexivity).
    destruct Hc as [-> | ->]; (destruct Ha as [Ha|Ha]; [|discriminate]); rewrite (ok_letter _ OK) in Ha by lia; discriminate.
Qed.
Lemma heredoc_ok p st here rest l : within p st here -> stands here rest l -> forall id, p = InHeredoc id -> docIdent cc id.
Proof. intros W H id ->. destruct W as [_ [-> | ->]]; eapply (s_id _ _ _ _ _ H); [left|right; left]; reflexivity. Qed.
Lemma process_var name r : ident cc name -> noIdent cc r -> processVariable cc (cDOLLAR :: name ++ r) = Some (Some (S (List.length name))).
Proof.
  intros HN N. pose proof HN as [(c & n' & -> & Hc) _]. unfold processVariable, isC, test. cbn [peek option_map app]. change (36 =? 36)%N with true. cbn [mAnd].
  replace (isIdentStart cc c) with true by (symmetry; now apply identStart_spec). cbv iota.
  change (skipn 1 (36%N :: c :: n' ++ r)) with ((c :: n') ++ r). rewrite (ident_scan cc) by auto. reflexivity.
Qed.
Lemma process_none c t : c <> cDOLLAR -> processVariable cc (c :: t) = Some None.
Proof. intros H. unfold processVariable, isC, test. cbn [peek option_map]. rewrite (proj2 (N.eqb_neq _ _) H). reflexivity. Qed.
Lemma process_none' t : (forall c x, t = c :: x -> ~ identStart cc c) -> processVariable cc (cDOLLAR :: t) = Some None.
Proof.
  intros H. unfold processVariable, isC, test. cbn [peek option_map]. change (36 =? 36)%N with true. cbn [mAnd].
  destruct t as [|c x]; cbn; [now rewrite (isIdentStart_nul cc OK)|].
  replace (isIdentStart cc c) with false; [reflexivity|]. symmetry. apply not_true_iff_false. rewrite (identStart_spec cc). eapply H. reflexivity.
Qed.
(** The last character of a name is no backslash. *)
Lemma ident_last name b : ident cc name -> oddBackslashes (rev name ++ b) = Some false.
Proof.
  intros [(c & s & E & _) H]. destruct (rev name) as [|x y] eqn:R; [rewrite E in R; cbn in R; destruct (rev s); discriminate|].
  assert (Hx : In x name) by (apply in_rev; rewrite R; left; reflexivity). rewrite Forall_forall in H. specialize (H x Hx).
  cbn. destruct (N.eqb_spec x 92) as [->|]; [|reflexivity]. exfalso.
  destruct H as [H|[H|[H|H]]]; [rewrite (ok_letter _ OK) in H by lia; discriminate|rewrite (ok_digit _ OK) in H by lia; discriminate|discriminate|lia].
Qed.
Lemma leads_var p st here name r : within p st here -> ident cc name -> noIdent cc r ->
  leads here [(T_VARIABLE, cDOLLAR :: name)] (cDOLLAR :: name) (BehindVar :: p :: st) r.
Proof.
  intros W HN N. apply (leads_one cc content); try discriminate; [reflexivity| | |].
  - intros l H. exists []. cbn [app] in H |- *. 
    destruct (string_body p st here cDOLLAR (name ++ r) l W H) as (s & Ht & (q & Eq) & Hs & EH); [apply not_closes; [exact (proj1 W)|auto|eapply heredoc_ok; eauto]|].
    rewrite EH. unfold strBody. rewrite process_var by auto. unfold LexModel.simple. do 2 f_equal.
    destruct W as [Hp W]. destruct (LState_eq_dec s StringVariable) as [->|Hn].
    + destruct W as [-> | ->]; [|reflexivity]. exfalso. assert (Hx : StringVariable = stateOf p) by now apply Hs. destruct p; try destruct Hp; discriminate.
    + assert (Hx : s = stateOf p) by (destruct Ht; congruence). subst s. rewrite not_var by auto. rewrite (proj1 Hs eq_refl). reflexivity.
  - intros id [E|Hin]; [discriminate|]. destruct W as [Hp [-> | ->]]; [exact Hin|right; exact Hin].
  - intros l p' x H W'. cbn [rev]. rewrite <- app_assoc. apply ident_last. exact HN.
Qed.
End F.
