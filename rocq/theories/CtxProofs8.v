(** Proofs for C57: whole texts (proof file). *)
From Verif Require Import CtxSpec ComplProofs ComplProofs3 LexRun3 CtxProofs CtxProofs2 CtxProofs3 CtxProofs4 CtxProofs5 CtxProofs6 CtxProofs7.
Open Scope nat_scope.

Section C.
Variable cc : CharClass.
Variable env : Env.
Variable code : qstring.
Notation mk := (mk code).
Notation pc := (pc code).
Notation rest := (rest cc env code).

Lemma tok_ops k : In k [T_OBJECT_OPERATOR; T_PAAMAYIM_NEKUDOTAYIM; T_LPAREN; T_COMMA] -> tight k.
Proof. intros I. apply tightB. cbn [In] in I. repeat (destruct I as [<-|I]; [reflexivity|]). destruct I. Qed.

Lemma member_rest fuel inClass lws following t R suf c a : pc t = (T_OBJECT_OPERATOR, a) -> rest fuel inClass lws following (mk (t :: R) suf) = Ok c ->
  evaluate cc env fuel (mk R (t :: suf)) (withOp ctx0 MemberAccess) = Ok c.
Proof.
  intros P. injection P as K _. unfold CtxProofs.rest, bigSwitch. rewrite type_mk. cbn [cbind]. rewrite K. cbn [cbind]. rewrite pop_mk.
  unfold afterSwitch. cbn [c_valid withOp ctx0 negb c_op]. destruct (tokAt (mk R (t :: suf)) 0) as [u| |]; cbn [cbind]; try discriminate. auto.
Qed.
Lemma static_rest fuel inClass lws following t R suf c a : pc t = (T_PAAMAYIM_NEKUDOTAYIM, a) -> rest fuel inClass lws following (mk (t :: R) suf) = Ok c ->
  evaluate cc env fuel (mk R (t :: suf)) (withOp ctx0 StaticMemberAccess) = Ok c.
Proof.
  intros P. injection P as K _. unfold CtxProofs.rest, bigSwitch. rewrite type_mk. cbn [cbind]. rewrite K. cbn [cbind]. rewrite pop_mk.
  unfold afterSwitch. cbn [c_valid withOp ctx0 negb c_op]. destruct (tokAt (mk R (t :: suf)) 0) as [u| |]; cbn [cbind]; try discriminate. auto.
Qed.

(** removeOtherArguments *)
Lemma rOA_mk : forall A fuel t p R suf o ta, t_kind p = T_LPAREN -> ~ In T_INVALID (map t_kind A) -> run (map t_kind A) o = Some 0 ->
  rOALoop fuel (mk (t :: A ++ p :: R) suf) o = Ok ta -> exists suf', ta = mk (p :: R) suf'.
Proof.
  induction A as [|u A IH]; intros fuel t p R suf o ta Kp NI HR H; (destruct fuel as [|f]; [discriminate|]); cbn [rOALoop app] in H; rewrite pop_mk, type_mk in H; cbn [cbind] in H.
  - cbn in HR. injection HR as ->. rewrite Kp in H. cbn in H. injection H as <-. eauto.
  - cbn [map] in HR, NI. assert (NI2 : ~ In T_INVALID (map t_kind A)) by (intros X; apply NI; right; exact X).
    destruct (isP (t_kind u) T_RPAREN) as [K|K]; [rewrite K in HR; cbn [run] in HR; exact (IH _ _ _ _ _ _ _ Kp NI2 HR H)|].
    destruct (isP (t_kind u) T_LPAREN) as [K2|K2].
    + rewrite K2 in HR. cbn [run] in HR. destruct o as [|o]; [discriminate|]. exact (IH _ _ _ _ _ _ _ Kp NI2 HR H).
    + rewrite run_other in HR by auto. destruct (isP (t_kind u) T_INVALID) as [K3|K3]; [exfalso; apply NI; left; exact K3|]. exact (IH _ _ _ _ _ _ _ Kp NI2 HR H).
Qed.

(** No implements list inside an argument list. *)
Lemma impl_no ks : ~ In T_EXTENDS ks -> ~ In T_IMPLEMENTS ks -> forall fuel L suf n ids r Q, n <= List.length ks ->
  map t_kind L = ks ++ T_LPAREN :: Q -> implLoop fuel (mk L suf) (- Z.of_nat n) ids = Ok r -> snd r = false.
Proof.
  intros NE NI. assert (TY : forall L suf n Q, n <= List.length ks -> map t_kind L = ks ++ T_LPAREN :: Q ->
    exists k, typeAt (mk L suf) (- Z.of_nat n) = k /\ (k = T_LPAREN \/ (n < List.length ks /\ In k ks))).
  { intros L suf n Q Hn M. rewrite typeAt_mk by lia. replace (Z.to_nat (- - Z.of_nat n)) with n by lia. eexists. split; [reflexivity|].
    assert (EN : nth_error (map t_kind L) n = nth_error (ks ++ T_LPAREN :: Q) n) by (rewrite M; reflexivity). rewrite nth_error_map in EN.
    destruct (Nat.eq_dec n (List.length ks)) as [->|Hne].
    - rewrite nth_error_app2, Nat.sub_diag in EN by lia. cbn in EN. destruct (nth_error L (List.length ks)); [|discriminate]. left. cbn in EN. congruence.
    - rewrite nth_error_app1 in EN by lia. destruct (nth_error ks n) as [k|] eqn:Ek; [|apply nth_error_None in Ek; lia].
      destruct (nth_error L n); [|discriminate]. right. split; [lia|]. cbn in EN. injection EN as ->. exact (nth_error_In _ _ Ek). }
  assert (SK : forall L suf n Q, n <= List.length ks -> map t_kind L = ks ++ T_LPAREN :: Q -> exists m, m <= List.length ks /\ skipWhiteSpace (mk L suf) (- Z.of_nat n) = (- Z.of_nat m)%Z).
  { intros L suf n Q Hn M. unfold skipWhiteSpace. destruct (TY L suf n Q Hn M) as (k & Ek & [Hk|[Hk _]]); rewrite Ek; [rewrite Hk; exists n; auto|].
    destruct (is k T_WHITESPACE); [exists (S n); split; lia|exists n; auto]. }
  induction fuel as [|f IH]; intros L suf n ids r Q Hn M H; [discriminate|]. cbn [implLoop] in H.
  destruct (SK L suf n Q Hn M) as (m & Hm & Em). rewrite Em in H.
  destruct (TY L suf m Q Hm M) as (k & Ek & Hk). rewrite Ek in H. destruct (isP k T_STRING) as [KS|_]; [|injection H as <-; reflexivity].
  destruct Hk as [Hk|[Hk _]]; [congruence|].
  replace (- Z.of_nat m - 1)%Z with (- Z.of_nat (S m))%Z in H by lia. destruct (SK L suf (S m) Q Hk M) as (q & Hq & Eq). rewrite Eq in H.
  destruct (TY L suf q Q Hq M) as (k2 & Ek2 & Hk2). rewrite Ek2 in H.
  assert (is k2 T_EXTENDS = false) as E1 by (apply is_neq; intros ->; destruct Hk2 as [?|[_ ?]]; [discriminate|contradiction]).
  assert (is k2 T_IMPLEMENTS = false) as E2 by (apply is_neq; intros ->; destruct Hk2 as [?|[_ ?]]; [discriminate|contradiction]).
  rewrite E1, E2 in H. cbn [andb orb] in H. destruct (isP k2 T_COMMA) as [KC|_].
  - destruct Hk2 as [Hk2|[Hk2 _]]; [congruence|]. replace (- Z.of_nat q - 1)%Z with (- Z.of_nat (S q))%Z in H by lia. exact (IH _ _ _ _ _ _ Hk2 M H).
  - exact (IH _ _ _ _ _ _ Hq M H).
Qed.

(** A name in front of the parenthesis *)
Lemma prep_name k t L suf P n w1 : k <> T_WHITESPACE -> gap w1 -> map pc L = rev (P ++ (k, n) :: w1) ->
  exists p, prependedBy (mk (t :: L) suf) [k] true = Ok p /\ p <> (-1)%Z.
Proof.
  intros Kw G M. rewrite rev_app_distr in M. cbn [rev] in M. unfold prependedBy.
  destruct (Z.ltb_spec (ta_pos (mk (t :: L) suf)) (Z.of_nat (List.length [k]) - 1)) as [A|A]; [cbn [ta_pos CtxProofs.mk List.length] in A; lia|]. cbn [prepLoop].
  rewrite stream_mk by lia. change (Z.to_nat 1) with 1. destruct G as [|b]; cbn [rev app] in M.
  - destruct L as [|u L]; [discriminate|]. cbn in M. injection M as M1 M2 M3. cbn [nth_error cbind]. rewrite M1, (is_neq _ _ Kw). cbn [cbind].
    rewrite stream_mk by lia. change (Z.to_nat 1) with 1. cbn [nth_error cbind]. rewrite M1, is_refl. exists 2%Z. split; [reflexivity|lia].
  - destruct L as [|u [|v L]]; try discriminate. cbn in M. injection M as M1 M2 M3 M4 M5. cbn [nth_error cbind]. rewrite M1, is_refl. cbn [cbind].
    change (1 + 1)%Z with 2%Z. rewrite stream_mk by lia. change (Z.to_nat 2) with 2. cbn [nth_error cbind]. rewrite M3, is_refl. exists 3%Z. split; [reflexivity|lia].
Qed.

Lemma after_args fuel t R suf c b pre stop x w0 e P k n w1 :
  pc t = (T_LPAREN, b) -> map pc R = rev (pre ++ [(stop, x)] ++ w0 ++ e) -> lead w0 -> isExpression e -> In stop boundaries \/ stop = T_LPAREN ->
  e = P ++ (k, n) :: w1 -> k = T_STRING \/ k = T_VARIABLE -> gap w1 ->
  afterSwitch cc env fuel (mk (t :: R) suf) (withOp ctx0 FunctionCallAccess) = Ok c ->
  c_valid c = true /\ c_op c = NoMemberAccess /\ exists p, c_parent c = Some p /\ c_op p = FunctionCallAccess /\
    c_expr p = trimmed cc (textOf e ++ b) ++ str ")" ++ (if is stop T_LPAREN then str ")" else []) /\ (In stop boundaries -> c_valid p = true).
Proof.
  intros Pt M HL HE HS Ee Hk G H. unfold afterSwitch in H. cbn [c_valid withOp ctx0 negb c_op] in H. rewrite tokAt_mk in H by lia. cbn [Z.to_nat Z.opp nth_error cbind] in H.
  rewrite type_mk in H. cbn [cbind] in H. pose proof Pt as Pt2. injection Pt2 as Kt _. rewrite Kt, is_refl in H. cbn [negb] in H.
  assert (ME : map pc R = rev ((pre ++ [(stop, x)] ++ w0 ++ P) ++ (k, n) :: w1)) by (rewrite M, Ee, <- !app_assoc; reflexivity).
  assert (FIN : (parent <~ evaluate cc env fuel (mk (t :: R) suf) (withOp ctx0 FunctionCallAccess) ;; Ok (withParent (withOp ctx0 NoMemberAccess) (Some parent))) = Ok c -> 
     c_valid c = true /\ c_op c = NoMemberAccess /\ exists p, c_parent c = Some p /\ c_op p = FunctionCallAccess /\
    c_expr p = trimmed cc (textOf e ++ b) ++ str ")" ++ (if is stop T_LPAREN then str ")" else []) /\ (In stop boundaries -> c_valid p = true)).
  { destruct (evaluate _ _ _ _ _) as [p| |] eqn:EV; cbn [cbind]; try discriminate. intros X. injection X as <-. split; [reflexivity|]. split; [reflexivity|]. exists p.
    destruct (eval_call cc env code fuel R suf t b pre stop x w0 e (withOp ctx0 FunctionCallAccess) _ Pt M HL HE HS eq_refl EV) as (A & B & C). split; [reflexivity|]. split; [exact A|]. split; [exact B|].
    intros HB. exact (proj1 (C HB)). }
  destruct (prependedBy (mk (t :: R) suf) [T_STRING] true) as [p1| |] eqn:E1; cbn [cbind] in H; try discriminate.
  destruct (Z.eqb_spec p1 (-1)) as [->|N1].
  - destruct Hk as [->| ->].
    + destruct (prep_name T_STRING t R suf _ _ _ ltac:(discriminate) G ME) as (p & X1 & X2). rewrite X1 in E1. injection E1 as ->. contradiction.
    + destruct (prep_name T_VARIABLE t R suf _ _ _ ltac:(discriminate) G ME) as (p & X1 & X2). rewrite X1 in H. cbn [cbind] in H.
      destruct (Z.eqb_spec p (-1)); [contradiction|]. exact (FIN H).
  - cbn [cbind] in H. destruct (Z.eqb_spec p1 (-1)); [contradiction|]. exact (FIN H).
Qed.

Lemma call_rest fuel inClass following L pre stop x w0 e P k n w1 b args w c :
  map pc L = rev (pre ++ [(stop, x)] ++ w0 ++ e ++ [(T_LPAREN, b)] ++ args ++ w) -> lead w0 -> isExpression e -> In stop boundaries \/ stop = T_LPAREN ->
  e = P ++ (k, n) :: w1 -> k = T_STRING \/ k = T_VARIABLE -> gap w1 -> earlierArguments args -> gap w ->
  (forall t, nth_error L 0 = Some t -> noComment code t) ->
  completeTokens cc env fuel inClass code following (rev L) = Ok c ->
  c_valid c = true /\ c_op c = NoMemberAccess /\ exists p, c_parent c = Some p /\ c_op p = FunctionCallAccess /\
    c_expr p = trimmed cc (textOf e ++ b) ++ str ")" ++ (if is stop T_LPAREN then str ")" else []) /\ (In stop boundaries -> c_valid p = true).
Proof.
  intros M HL HE HS Ee Hk G1 HA G2 HN H. destruct HA as [->|(AB & AI & AE & AM & a & cm & ->)].
  - cbn [app] in M. assert (M2 : map pc L = rev ((pre ++ [(stop, x)] ++ w0 ++ e) ++ [(T_LPAREN, b)] ++ w)) by (rewrite M, <- !app_assoc; reflexivity).
    destruct (with_gap cc env code fuel inClass following L c _ T_LPAREN b w G2 M2 (tok_ops T_LPAREN ltac:(cbn; tauto)) HN H) as (lws & t & R & suf & HR & Pt & MR).
    unfold CtxProofs.rest, bigSwitch in HR. rewrite type_mk in HR. cbn [cbind] in HR. pose proof Pt as Pt2. injection Pt2 as Kt _. rewrite Kt in HR.
    assert (ME : map pc R = rev ((pre ++ [(stop, x)] ++ w0 ++ P) ++ (k, n) :: w1)) by (rewrite MR, Ee, <- !app_assoc; reflexivity).
    assert (KW : k <> T_WHITESPACE) by (destruct Hk as [-> | ->]; discriminate).
    assert (TP : typeAt (mk (t :: R) suf) (skipWhiteSpace (mk (t :: R) suf) (-1)) = k).
    { destruct (skip_gap code (t :: R) suf 1 w1 R (-1) k n (rev (pre ++ [(stop, x)] ++ w0 ++ P)) G1) as (j & u & R' & E1 & E2 & E3 & E4); try exact KW; try reflexivity.
      - cbn [skipn]. rewrite ME, rev_app_distr. cbn [rev]. rewrite <- !app_assoc. reflexivity.
      - rewrite E1. injection E3 as Ku _. rewrite (typeAt_s code (t :: R) suf (1 + j) 0 u) by (rewrite ?E2; auto; lia). exact Ku. }
    rewrite TP in HR. destruct (isP k T_CATCH) as [->|_]; [destruct Hk; discriminate|]. destruct (isP k T_ARRAY) as [->|_]; [destruct Hk; discriminate|]. cbn [cbind] in HR.
    exact (after_args fuel t R suf c b pre stop x w0 e P k n w1 Pt MR HL HE HS Ee Hk G1 HR).
  - assert (M2 : map pc L = rev ((pre ++ [(stop, x)] ++ w0 ++ e ++ [(T_LPAREN, b)] ++ a) ++ [(T_COMMA, cm)] ++ w)) by (rewrite M, <- !app_assoc; reflexivity).
    destruct (with_gap cc env code fuel inClass following L c _ T_COMMA cm w G2 M2 (tok_ops T_COMMA ltac:(cbn; tauto)) HN H) as (lws & t & R & suf & HR & Pt & MR).
    unfold CtxProofs.rest, bigSwitch in HR. rewrite type_mk in HR. cbn [cbind] in HR. pose proof Pt as Pt2. injection Pt2 as Kt _. rewrite Kt in HR.
    assert (EQ : exists A p R0, R = A ++ p :: R0 /\ map pc A = rev a /\ pc p = (T_LPAREN, b) /\ map pc R0 = rev (pre ++ [(stop, x)] ++ w0 ++ e)).
    { clear - MR. replace (pre ++ [(stop, x)] ++ w0 ++ e ++ [(T_LPAREN, b)] ++ a) with ((pre ++ [(stop, x)] ++ w0 ++ e) ++ (T_LPAREN, b) :: a) in MR by (rewrite <- !app_assoc; reflexivity).
      rewrite rev_app_distr in MR. cbn [rev] in MR. rewrite <- app_assoc in MR. apply map_eq_app in MR. destruct MR as (A & B & -> & E1 & E2).
      cbn [app] in E2. destruct B as [|p R0]; [discriminate|]. cbn [map] in E2. injection E2 as E2 E2b E3. exists A, p, R0. split; [reflexivity|]. split; [exact E1|].
      split; [|exact E3]. unfold CtxProofs2.pc. now rewrite E2, E2b. }
    destruct EQ as (A & p & R0 & -> & EA & Ep & ER).
    pose proof Ep as Ep2. injection Ep2 as Kp _.
    assert (KA : map t_kind A = rev (kindsOf a)) by (rewrite (pc_kinds code _ _ EA); unfold kindsOf; rewrite map_rev; reflexivity).
    destruct (implLoop fuel (mk (t :: A ++ p :: R0) suf) (-1) []) as [r| |] eqn:EI; cbn [cbind] in HR; try discriminate.
    assert (Ea : kindsOf (a ++ [(T_COMMA, cm)]) = kindsOf a ++ [T_COMMA]) by (unfold kindsOf; rewrite map_app; reflexivity). rewrite Ea in AB, AI, AE, AM.
    assert (SR : snd r = false).
    { assert (X1 : ~ In T_EXTENDS (T_COMMA :: rev (kindsOf a))) by (intros [X|X]; [discriminate|apply in_rev in X; apply AE, in_or_app; auto]).
      assert (X2 : ~ In T_IMPLEMENTS (T_COMMA :: rev (kindsOf a))) by (intros [X|X]; [discriminate|apply in_rev in X; apply AM, in_or_app; auto]).
      apply (impl_no (T_COMMA :: rev (kindsOf a)) X1 X2 fuel (t :: A ++ p :: R0) suf 1 [] r (map t_kind R0)); [cbn; lia| |exact EI].
      cbn [map app]. rewrite map_app, KA. cbn [map]. rewrite Kt, Kp. reflexivity. }
    rewrite SR in HR. unfold removeOtherArguments in HR. rewrite type_mk in HR. cbn [cbind] in HR. rewrite Kt, is_refl in HR.
    destruct (rOALoop fuel (mk (t :: A ++ p :: R0) suf) 0) as [ta| |] eqn:EO; cbn [cbind] in HR; try discriminate.
    assert (RU : run (map t_kind A) 0 = Some 0).
    { rewrite KA. apply (proj1 (balanced_iff _)) in AB. rewrite rev_app_distr in AB. cbn [rev app run] in AB. exact AB. }
    assert (NI : ~ In T_INVALID (map t_kind A)). { rewrite KA. intros X. apply in_rev in X. apply AI. apply in_or_app. auto. }
    destruct (rOA_mk A fuel t p R0 suf 0 ta Kp NI RU EO) as (suf' & ->). rewrite type_mk in HR. cbn [cbind] in HR. rewrite Kp in HR. cbn [is kindNum Nat.eqb] in HR.
    exact (after_args fuel p R0 suf' c b pre stop x w0 e P k n w1 Ep ER HL HE HS Ee Hk G1 HR).
Qed.
End C.

Section T.
Variable cc : CharClass.
Hypothesis OK : ascii_ok cc.
Lemma text_done env fuel addTag inClass text following toks nls last :
  let doc := fullText addTag text in
  lexAll cc fuel doc initHtml = Some (Done toks nls last) -> covers doc (pieces doc toks) -> pieces doc toks <> [] ->
  exists c, complete cc env fuel addTag inClass text following = Ok c /\ completeTokens cc env fuel inClass doc following (rev (rev toks)) = Ok c /\
    map (pc doc) (rev toks) = rev (pieces doc toks) /\ forall t, nth_error (rev toks) 0 = Some t -> noComment doc t.
Proof.
  intros doc HL HC HP. unfold complete. fold doc. destruct doc as [|x s] eqn:ED.
  { exfalso. destruct fuel as [|f]; [discriminate|]. cbn in HL. injection HL as <- _ _. apply HP. reflexivity. }
  rewrite <- ED in *. rewrite HL. assert (NE : doc <> []) by (rewrite ED; discriminate).
  destruct (completeTokens_ok cc OK doc env fuel inClass following toks nls last NE HL) as [c Hc]. exists c. split; [exact Hc|].
  rewrite rev_involutive. split; [exact Hc|]. split; [unfold pieces; rewrite <- map_rev; reflexivity|]. exact (covers_noComment cc OK doc fuel toks nls last HL HC).
Qed.

Lemma member_text env fuel addTag inClass text following toks nls last pre stop x w0 e a w :
  let doc := fullText addTag text in
  lexAll cc fuel doc initHtml = Some (Done toks nls last) -> covers doc (pieces doc toks) ->
  pieces doc toks = pre ++ [(stop, x)] ++ w0 ++ e ++ [(T_OBJECT_OPERATOR, a)] ++ w -> lead w0 -> isExpression e -> ~ In T_COMMA (kindsOf e) ->
  In stop boundaries \/ stop = T_COMMA \/ stop = T_LPAREN -> gap w ->
  exists c, complete cc env fuel addTag inClass text following = Ok c /\
  let t := trimmed cc (textOf e) ++ (if is stop T_LPAREN then str ")" else []) in
  let ty := match t with [] => false | _ => e_hasType env t end in
  c_op c = MemberAccess /\ c_expr c = t /\ (ty = false -> c_valid c = false) /\ (In stop boundaries -> c_valid c = ty /\ c_parent c = None).
Proof.
  intros doc HL HC HP H1 H2 H3 H4 H5.
  destruct (text_done env fuel addTag inClass text following toks nls last HL HC) as (c & E1 & E2 & E3 & E4).
  { fold doc. rewrite HP. destruct pre; discriminate. }
  exists c. split; [exact E1|]. fold doc in E2, E3, E4. rewrite HP in E3.
  assert (M2 : map (pc doc) (rev toks) = rev ((pre ++ [(stop, x)] ++ w0 ++ e) ++ [(T_OBJECT_OPERATOR, a)] ++ w)) by (rewrite E3, <- !app_assoc; reflexivity).
  destruct (with_gap cc env doc fuel inClass following _ c _ T_OBJECT_OPERATOR a w H5 M2 (tok_ops T_OBJECT_OPERATOR ltac:(cbn; tauto)) E4 E2) as (lws & t & R & suf & HR & Pt & MR).
  apply (member_rest cc env doc) with (a := a) in HR; [|exact Pt].
  destruct (eval_member cc env doc fuel R (t :: suf) pre stop x w0 e (withOp ctx0 MemberAccess) c MR H1 H2 H3 H4 eq_refl HR) as (A & B & C & D).
  split; [exact A|]. split; [exact B|]. split; [exact C|]. exact D.
Qed.

Lemma static_text env fuel addTag inClass text following toks nls last pre stop x w0 n w1 a w :
  let doc := fullText addTag text in
  lexAll cc fuel doc initHtml = Some (Done toks nls last) -> covers doc (pieces doc toks) ->
  pieces doc toks = pre ++ [(stop, x)] ++ w0 ++ ((T_STRING, n) :: w1) ++ [(T_PAAMAYIM_NEKUDOTAYIM, a)] ++ w -> lead w0 -> gap w1 -> In stop boundaries -> gap w ->
  exists c, complete cc env fuel addTag inClass text following = Ok c /\
  if eqs (map (toLower cc) n) (str "parent") && e_inMethod env then (if e_goodParent env then c_valid c = true /\ c_op c = MemberAccess else c_valid c = false)
  else c_valid c = true /\ c_op c = StaticMemberAccess.
Proof.
  intros doc HL HC HP H1 H2 H3 H4.
  destruct (text_done env fuel addTag inClass text following toks nls last HL HC) as (c & E1 & E2 & E3 & E4).
  { fold doc. rewrite HP. destruct pre; discriminate. }
  exists c. split; [exact E1|]. fold doc in E2, E3, E4. rewrite HP in E3.
  assert (M2 : map (pc doc) (rev toks) = rev ((pre ++ [(stop, x)] ++ w0 ++ (T_STRING, n) :: w1) ++ [(T_PAAMAYIM_NEKUDOTAYIM, a)] ++ w)) by (rewrite E3, <- !app_assoc; reflexivity).
  destruct (with_gap cc env doc fuel inClass following _ c _ T_PAAMAYIM_NEKUDOTAYIM a w H4 M2 (tok_ops T_PAAMAYIM_NEKUDOTAYIM ltac:(cbn; tauto)) E4 E2) as (lws & t & R & suf & HR & Pt & MR).
  apply (static_rest cc env doc) with (a := a) in HR; [|exact Pt].
  pose proof (eval_static cc env doc fuel R (t :: suf) pre stop x w0 n w1 (withOp ctx0 StaticMemberAccess) c MR H1 H2 H3 eq_refl HR) as D.
  destruct (eqs (map (toLower cc) n) (str "parent") && e_inMethod env); [destruct (e_goodParent env)|]; subst c; auto.
Qed.

Lemma call_text env fuel addTag inClass text following toks nls last pre stop x w0 e P k n w1 b args w :
  let doc := fullText addTag text in
  lexAll cc fuel doc initHtml = Some (Done toks nls last) -> covers doc (pieces doc toks) ->
  pieces doc toks = pre ++ [(stop, x)] ++ w0 ++ e ++ [(T_LPAREN, b)] ++ args ++ w -> lead w0 -> isExpression e -> In stop boundaries \/ stop = T_LPAREN ->
  e = P ++ (k, n) :: w1 -> k = T_STRING \/ k = T_VARIABLE -> gap w1 -> earlierArguments args -> gap w ->
  exists c, complete cc env fuel addTag inClass text following = Ok c /\
  c_valid c = true /\ c_op c = NoMemberAccess /\ exists p, c_parent c = Some p /\ c_op p = FunctionCallAccess /\
    c_expr p = trimmed cc (textOf e ++ b) ++ str ")" ++ (if is stop T_LPAREN then str ")" else []) /\ (In stop boundaries -> c_valid p = true).
Proof.
  intros doc HL HC HP H1 H2 H3 H4 H5 H6 H7 H8.
  destruct (text_done env fuel addTag inClass text following toks nls last HL HC) as (c & E1 & E2 & E3 & E4).
  { fold doc. rewrite HP. destruct pre; discriminate. }
  exists c. split; [exact E1|]. fold doc in E2, E3, E4. rewrite HP in E3.
  exact (call_rest cc env doc fuel inClass following _ pre stop x w0 e P k n w1 b args w c E3 H1 H2 H3 H4 H5 H6 H7 H8 E4 E2).
Qed.
End T.
