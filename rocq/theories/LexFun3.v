(** Proofs about single tokens, part 3: operators, identifiers, casts (proof file). *)
From Verif Require Export LexFun2.
Open Scope nat_scope.

Fixpoint prefixb (pre s : qstring) : bool :=
  match pre, s with
  | [], _ => true
  | x :: p, y :: t => (y =? x)%N && prefixb p t
  | _ :: _, [] => false
  end.
Lemma prefixb_spec pre s : prefixb pre s = true <-> exists t, s = pre ++ t.
Proof.
  rewrite <- startsWith_spec. revert s; induction pre as [|x p IH]; intros [|y t]; cbn; try tauto.
  rewrite !andb_true_iff, IH, N.eqb_sym. tauto.
Qed.

(** The longest entry of a table in front of [rest]. *)
Fixpoint best (tbl : list (qstring * Tok)) (rest : qstring) : option (qstring * Tok) :=
  match tbl with
  | [] => None
  | (op, k) :: t =>
      if prefixb op rest then
        match best t rest with
        | Some (op2, k2) => if List.length op <? List.length op2 then Some (op2, k2) else Some (op, k)
        | None => Some (op, k)
        end
      else best t rest
  end.

Lemma best_spec tbl rest :
  match best tbl rest with
  | Some (op, k) => In (op, k) tbl /\ (exists r, rest = op ++ r) /\
      forall op2 k2 r2, In (op2, k2) tbl -> rest = op2 ++ r2 -> List.length op2 <= List.length op
  | None => forall op2 k2 r2, In (op2, k2) tbl -> rest <> op2 ++ r2
  end.
Proof.
  induction tbl as [|[op k] t IH]; cbn [best]; [intros ? ? ? []|].
  destruct (prefixb op rest) eqn:E.
  - apply prefixb_spec in E. destruct (best t rest) as [[op2 k2]|].
    + destruct IH as [H1 [H2 H3]]. destruct (Nat.ltb_spec (List.length op) (List.length op2)).
      * split; [now right|]. split; auto. intros op3 k3 r3 [E3|H4] E4; [injection E3 as <- <-; lia|eauto].
      * split; [now left|]. split; auto. intros op3 k3 r3 [E3|H4] E4; [injection E3 as <- <-; lia|].
        specialize (H3 _ _ _ H4 E4). lia.
    + split; [now left|]. split; auto. intros op3 k3 r3 [E3|H4] E4; [injection E3 as <- <-; lia|].
      exfalso. exact (IH _ _ _ H4 E4).
  - assert (HN : forall op2 k2 r2, (op, k) = (op2, k2) -> rest <> op2 ++ r2).
    { intros op2 k2 r2 E2 E3. injection E2 as <- <-. assert (prefixb op rest = true) by (apply prefixb_spec; eauto). congruence. }
    destruct (best t rest) as [[op2 k2]|].
    + destruct IH as [H1 [H2 H3]]. split; [now right|]. split; auto.
      intros op3 k3 r3 [E3|H4] E4; [exfalso; eapply HN; eauto|eauto].
    + intros op3 k3 r3 [E3|H4]; [eapply HN; eauto|eauto].
Qed.

Lemma NoDup_ops : NoDup (map fst operators).
Proof.
  assert (H : forall l : list qstring, (fix f l := match l with [] => true | x :: t => negb (existsb (eqs x) t) && f t end) l = true -> NoDup l).
  { induction l as [|x t IH]; [constructor|]. intros H. apply andb_true_iff in H. destruct H as [H1 H2]. constructor; auto.
    intros Hin. apply negb_true_iff in H1. assert (existsb (eqs x) t = true); [|congruence].
    apply existsb_exists. exists x. split; auto. now apply eqs_eq. }
  apply H. vm_compute. reflexivity.
Qed.

Lemma NoDup_fst {A B} (l : list (A * B)) a b c : NoDup (map fst l) -> In (a, b) l -> In (a, c) l -> b = c.
Proof.
  induction l as [|[x y] l IH]; [intros _ []|]. cbn. intros H [E|H1] [E2|H2]; inversion H; subst.
  - congruence.
  - injection E as -> ->. exfalso. apply (in_map fst) in H2. contradiction.
  - injection E2 as -> ->. exfalso. apply (in_map fst) in H1. contradiction.
  - auto.
Qed.

Lemma app_prefix_len {A} (a b x y : list A) : a ++ x = b ++ y -> List.length a = List.length b -> a = b.
Proof.
  intros H. apply (f_equal (firstn (List.length a))) in H. intros E.
  rewrite firstn_app, Nat.sub_diag, firstn_all, firstn_O, app_nil_r in H.
  rewrite E, firstn_app, Nat.sub_diag, firstn_all, firstn_O, app_nil_r in H. exact H.
Qed.

Lemma longest_best op k rest : longestOp op k rest -> best operators rest = Some (op, k).
Proof.
  intros [H1 [[r Hr] H3]]. pose proof (best_spec operators rest) as HB.
  destruct (best operators rest) as [[op2 k2]|].
  - destruct HB as [B1 [[r2 B2] B3]].
    assert (E : op = op2).
    { eapply app_prefix_len; [rewrite <- Hr; exact B2|]. pose proof (H3 _ _ _ B1 B2). pose proof (B3 _ _ _ H1 Hr). lia. }
    subst op2. f_equal. f_equal. eapply NoDup_fst; eauto. apply NoDup_ops.
  - exfalso. exact (HB _ _ _ H1 Hr).
Qed.

(** The operators that leave the mode alone. *)

Section F.
Variable cc : CharClass.
Hypothesis OK : ascii_ok cc.
Variable content : qstring.

Definition opResult (st : list LState) (id : qstring) (op : qstring) (k : Tok) (x : option Out) : Prop :=
  exists st', x = Some {| o_tok := k; o_len := List.length op; o_nl := []; o_st := st'; o_id := id |} /\
    (modeOp k = false -> st' = st).

Ltac decN :=
  match goal with
  | |- context [N.eqb ?a ?k] => is_var a; let H := fresh "Hn" in destruct (N.eq_dec a k) as [->|H];
      [|rewrite (proj2 (N.eqb_neq a k) H)]
  end.

Lemma op_char c op k s q id before r : (s = DefaultState \/ s = StringVariableCurly) -> wfS (s :: q) ->
  best operators (c :: r) = Some (op, k) -> ~ notOperator cc (c :: r) ->
  In c (map (fun p => hd 0%N (fst p)) operators) ->
  opResult (s :: q) id op k (lexDefault cc (s :: q) id before (c :: r)).
Proof.
  intros Hs Hw HB HN Hc.
  assert (HN1 : forall r', c :: r <> str "//" ++ r') by (intros r' E; apply HN; left; eauto).
  assert (HN2 : forall r', c :: r <> str "/*" ++ r') by (intros r' E; apply HN; left; eauto).
  assert (HN3 : forall r', c :: r <> str "<<<" ++ r') by (intros r' E; apply HN; left; eauto).
  assert (HN4 : forall d r', c :: r = 46%N :: d :: r' -> isDigit cc d = false).
  { intros d r' E. destruct (isDigit cc d) eqn:Ed; auto. exfalso. apply HN. right. eauto. }
  clear HN.
  unfold lexDefault. cbn [peek stateAt nth_error].
  destruct (N.eqb_spec c 46) as [->|H46].
  - rewrite (ok_space _ OK) by lia. rewrite (ok_digit _ OK) by lia. change (asciiSpace 46) with false.
    change (asciiDigit 46) with false. cbv iota. cbn [mOr mAnd].
    assert (Ed : test (46%N :: r) 1 (isDigit cc) = Some false).
    { unfold test. destruct r as [|d r]; cbn; [now rewrite (isDigit_nul cc OK)|]. now rewrite (HN4 d r). }
    rewrite Ed. unfold processVariable, isC, test. cbn [peek option_map mAnd].
    change (46 =? 36)%N with false. cbn [mAnd].
    revert HB. clear HN1 HN2 HN3 HN4 Ed Hc.
    destruct r as [|a r]; [cbn; intros [= <- <-]; eexists; split; [reflexivity|auto]|].
    destruct r as [|b r]; cbn; unfold lexDot, isC, test; cbn;
    repeat (decN; cbn); intros [= <- <-]; (eexists; split; [reflexivity|auto]).
  - assert (Hp : punct c = true).
    { cbn in Hc. repeat (destruct Hc as [<-|Hc]; [try reflexivity; congruence|]). destruct Hc. }
    destruct (punct_tests cc OK c r Hp) as [-> [-> [_ [-> H36]]]]. rewrite H36. cbn [mAnd mOr]. cbv iota.
    cbn in Hc. 
    repeat (destruct Hc as [<-|Hc]; [
      first [congruence | 
      revert HB HN1 HN2 HN3; clear HN4 Hp H46 H36;
      cbn; unfold lexBang, lexLess, lexGreater, lexColon, lexQuestion, lexArrow, lexOpAssign, lexSlash, lexStar, lexDouble, lexEqual, isC, test;
      destruct r as [|a [|b r]]; cbn; rewrite ?(popToHtml_spec _ Hw), ?(isIdent_nul cc OK); cbn; repeat (decN; cbn); intros HB HN1 HN2 HN3;
      try (injection HB as <- <-);
      first [eexists; split; [reflexivity|auto; try discriminate] | idtac] ]|]).
    all: idtac.
    all: try (destruct Hc).
    all: try (exfalso; eapply HN1; reflexivity). all: try (exfalso; eapply HN2; reflexivity). all: try (exfalso; eapply HN3; reflexivity).

    all: try (change (if stIs s HtmlState then Some (s :: q) else popToHtml q) with (popToHtml (s :: q));
              rewrite (popToHtml_spec _ Hw); eexists; split; [reflexivity|discriminate]).
    all: try (destruct (isIdent cc b); eexists; split; [reflexivity|discriminate|reflexivity|discriminate]).
    all: destruct (stIs s StringVariableCurly); eexists; (split; [reflexivity|discriminate]).
Qed.

Lemma operator_token l rest op k r :
  inPhp cc content l rest -> longestOp op k rest -> rest = op ++ r -> ~ notOperator cc rest ->
  exists l', yields cc content l k op r l' /\ (modeOp k = false -> lx_st l' = lx_st l).
Proof.
  intros Hp HL Hr HN. destruct (inPhp_state _ OK _ _ _ Hp) as [s [q [Hs Hm]]].
  pose proof (inPhp_inv _ OK _ _ _ Hp) as HI. pose proof (inv_wf _ _ _ _ _ HI) as Hw. rewrite Hs in Hw.
  pose proof (longest_best _ _ _ HL) as HB. destruct HL as [Hin _].
  assert (Hne : exists c op', op = c :: op').
  { destruct op as [|c op']; [|eauto]. exfalso. clear -Hin. cbn in Hin.
    repeat (destruct Hin as [E|Hin]; [discriminate|]). destruct Hin. }
  destruct Hne as [c [op' ->]]. subst rest.
  destruct (op_char c (c :: op') k s q (lx_id l) (rev (firstn (lx_pos l) content)) (op' ++ r) Hm Hw HB HN) as [st' [HO HS]].
  { apply (in_map (fun p => hd 0%N (fst p))) in Hin. exact Hin. }
  rewrite <- Hs in HO, HS.
  edestruct (php_split cc OK content l (c :: op') r) as [l' [HY [Hst _]]]; [exact Hp|discriminate|exact HO|left; reflexivity|].
  exists l'. split; auto. rewrite Hst. exact HS.
Qed.

(** ** Identifiers *)
Lemma ident_start_dispatch c s q id before r : identStart cc c -> isSpace cc c = false ->
  lexDefault cc (s :: q) id before (c :: r) = lexIdent cc (s :: q) id (c :: r).
Proof.
  intros Hc Hsp.
  assert (HE : forall k, In k [33;34;35;36;37;38;39;40;41;42;43;44;45;46;47;58;59;60;61;62;63;64;91;92;93;94;96;123;124;125;126]%N -> (c =? k)%N = false).
  { intros k Hk. apply N.eqb_neq. intros ->. destruct Hc as [[Hc|[Hc|[Hc|Hc]]] Hd].
    - rewrite (ok_letter _ OK) in Hc by (cbn in Hk; lia).
      cbn in Hk. repeat (destruct Hk as [<-|Hk]; [discriminate|]). destruct Hk.
    - congruence.
    - subst k. cbn in Hk. repeat (destruct Hk as [Hk|Hk]; [discriminate|]). destruct Hk.
    - cbn in Hk. lia. }
  unfold lexDefault. cbn [peek stateAt nth_error]. rewrite Hsp.
  destruct Hc as [Hc Hd]. rewrite Hd.
  unfold processVariable, isC, test. cbn [peek option_map].
  repeat match goal with |- context [(c =? ?k)%N] => rewrite (HE k) by (cbn; tauto) end.
  cbn [mOr mAnd]. cbv iota.
  replace (isIdentStart cc c) with true by (symmetry; apply identStart_spec; split; auto). reflexivity.
Qed.

Definition lowerAscii (s : qstring) : bool := forallb (fun c => (c <? 128)%N && negb (asciiUpper c)) s.
Lemma fold_lower s : lowerAscii s = true -> map (foldCase cc) s = s.
Proof.
  induction s as [|c s IH]; cbn; auto. intros H. apply andb_true_iff in H. destruct H as [H1 H2].
  rewrite IH by auto. apply andb_true_iff in H1. destruct H1 as [H1 H3]. apply N.ltb_lt in H1.
  rewrite (ok_fold _ OK) by auto. unfold asciiToLower. apply negb_true_iff in H3. rewrite H3. reflexivity.
Qed.

Lemma kw_lower : forallb (fun p => lowerAscii (fst p)) keywords = true.
Proof. vm_compute. reflexivity. Qed.

Lemma findKw_plain name w : map (foldCase cc) name = w ->
  findKw cc name = option_map snd (find (fun p => eqs w (fst p)) keywords).
Proof.
  intros Hn. unfold findKw. f_equal.
  pose proof kw_lower as HK. induction keywords as [|[k v] t IH]; auto.
  cbn [forallb] in HK. apply andb_true_iff in HK. destruct HK as [H1 H2].
  cbn [find fst]. unfold eqsCI at 1. rewrite Hn, (fold_lower k H1), IH; auto.
Qed.

Lemma findKw_table name k t : In (k, t) phpKeywords -> sameWord cc name k -> findKw cc name = Some (KwTok t).
Proof.
  intros Hin HS. rewrite (findKw_plain name k).
  - revert Hin. clear. intros Hin. unfold phpKeywords in Hin.
    repeat (destruct Hin as [E|Hin]; [injection E as <- <-; vm_compute; reflexivity|]). destruct Hin.
  - unfold sameWord in HS. rewrite HS. apply fold_lower. revert Hin. clear. intros Hin. unfold phpKeywords in Hin.
    repeat (destruct Hin as [E|Hin]; [injection E as <- <-; vm_compute; reflexivity|]). destruct Hin.
Qed.
Lemma findKw_static name : sameWord cc name (str "static") -> findKw cc name = Some KwStatic.
Proof.
  intros HS. rewrite (findKw_plain name (str "static")); [reflexivity|].
  unfold sameWord in HS. rewrite HS. apply fold_lower. reflexivity.
Qed.
Lemma findKw_yield' name : sameWord cc name (str "yield") -> findKw cc name = Some KwYield.
Proof.
  intros HS. rewrite (findKw_plain name (str "yield")); [reflexivity|].
  unfold sameWord in HS. rewrite HS. apply fold_lower. reflexivity.
Qed.
Lemma findKw_none name : (forall k t, In (k, t) phpKeywords -> ~ sameWord cc name k) ->
  ~ sameWord cc name (str "static") -> ~ sameWord cc name (str "yield") -> findKw cc name = None.
Proof.
  intros H1 H2 H3. unfold findKw.
  destruct (find (fun p => eqsCI cc name (fst p)) keywords) as [[k v]|] eqn:E; auto.
  apply find_some in E. destruct E as [Hin HE]. cbn [fst] in HE. unfold eqsCI in HE. apply eqs_eq in HE.
  exfalso.
  assert (HK : In k (map fst phpKeywords) \/ k = str "static" \/ k = str "yield").
  { clear -Hin.
    assert (HC : forallb (fun p => existsb (eqs (fst p)) (map fst phpKeywords) || eqs (fst p) (str "static") || eqs (fst p) (str "yield")) keywords = true)
      by (vm_compute; reflexivity).
    rewrite forallb_forall in HC. specialize (HC _ Hin). cbn [fst] in HC. rewrite !orb_true_iff in HC.
    destruct HC as [[HC|HC]|HC].
    - apply existsb_exists in HC. destruct HC as [x [Hx HC]]. apply eqs_eq in HC. subst. auto.
    - apply eqs_eq in HC. auto.
    - apply eqs_eq in HC. auto. }
  destruct HK as [HK|[-> | ->]]; [|contradiction|contradiction].
  apply in_map_iff in HK. destruct HK as [[k' t] [<- HK]]. exact (H1 _ _ HK HE).
Qed.

Lemma wholeWord_scan name r : wholeWord cc name r -> skipWhile (isIdent cc) (name ++ r) 0 = (List.length name, r).
Proof.
  intros [_ [H1 H2]]. rewrite skipWhile_app; auto.
  - eapply Forall_impl; [|exact H1]. intros a Ha. now apply identChar_spec.
  - intros c s E. apply not_true_iff_false. rewrite identChar_spec. eauto.
Qed.
Lemma wholeWord_lex name r s q id before : wholeWord cc name r ->
  lexDefault cc (s :: q) id before (name ++ r) =
  match findKw cc name with
  | Some (KwTok t) => simple (s :: q) id t (List.length name)
  | Some KwStatic =>
      let '(_, la) := skipWhile (isSpace cc) r (List.length name) in
      IF Some (match la with [] => false | _ => true end) &&& isC la 0 58%N &&& isC la 1 58%N
      THEN simple (s :: q) id T_STRING (List.length name)
      ELSE simple (s :: q) id T_STATIC (List.length name)
  | Some KwYield =>
      let '(p, la) := skipWhile (isSpace cc) r (List.length name) in
      a <- peek la 0 ;; b <- peek la 1 ;; c <- peek la 2 ;; d <- peek la 3 ;;
      if Nat.leb 4 (List.length la) && eqs [a; b; c; d] (str "from")
      then simple (s :: q) id T_YIELD_FROM (p + 4)
      else simple (s :: q) id T_YIELD (List.length name)
  | None => simple (s :: q) id T_STRING (List.length name)
  end.
Proof.
  intros HW. pose proof (wholeWord_scan _ _ HW) as E. destruct HW as [[c [n' [-> [Hc Hsp]]]] _].
  cbn [app] in *. rewrite ident_start_dispatch by auto. unfold lexIdent. rewrite E.
  replace (firstn (List.length (c :: n')) (c :: n' ++ r)) with (c :: n'); [reflexivity|].
  change (c :: n' ++ r) with ((c :: n') ++ r). rewrite firstn_app, Nat.sub_diag, firstn_all, firstn_O, app_nil_r. reflexivity.
Qed.

Lemma word_yield l name r k n :
  inPhp cc content l (name ++ r) -> wholeWord cc name r ->
  lexDefault cc (lx_st l) (lx_id l) (rev (firstn (lx_pos l) content)) (name ++ r) = simple (lx_st l) (lx_id l) k n ->
  n = List.length name ->
  exists l', yields cc content l k name r l' /\ lx_st l' = lx_st l.
Proof.
  intros Hp HW E ->. edestruct php_split as [l' [HY [Hst _]]]; [exact OK|exact Hp| |exact E|left; reflexivity|eauto].
  destruct HW as [[c [n' [-> _]]] _]. discriminate.
Qed.

Lemma keyword_token l name r k t :
  inPhp cc content l (name ++ r) -> wholeWord cc name r -> In (k, t) phpKeywords -> sameWord cc name k ->
  exists l', yields cc content l t name r l' /\ lx_st l' = lx_st l.
Proof.
  intros Hp HW Hin HS. destruct (inPhp_state _ OK _ _ _ Hp) as [s [q [Hs Hm]]].
  eapply word_yield; eauto. rewrite Hs, wholeWord_lex, (findKw_table _ _ _ Hin HS) by auto. reflexivity.
Qed.
Lemma ident_token l name r :
  inPhp cc content l (name ++ r) -> wholeWord cc name r ->
  (forall k t, In (k, t) phpKeywords -> ~ sameWord cc name k) ->
  ~ sameWord cc name (str "static") -> ~ sameWord cc name (str "yield") ->
  exists l', yields cc content l T_STRING name r l' /\ lx_st l' = lx_st l.
Proof.
  intros Hp HW H1 H2 H3. destruct (inPhp_state _ OK _ _ _ Hp) as [s [q [Hs Hm]]].
  eapply word_yield; eauto. rewrite Hs, wholeWord_lex, findKw_none by auto. reflexivity.
Qed.

End F.
