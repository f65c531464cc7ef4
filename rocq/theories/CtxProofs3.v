(** Proofs for C56, continued (proof file). *)
From Verif Require Import CtxSpec ComplProofs ComplProofs3 LexRun3 CtxProofs CtxProofs2.
Open Scope nat_scope.

Section C.
Variable cc : CharClass.
Variable env : Env.
Variable code : qstring.
Notation mk := (mk code).
Notation pc := (pc code).
Notation rest := (rest cc env code).

(** The context of a completion that is offered. *)
Definition good (op : Op) (forb : list qstring) (c : Ctx) : Prop :=
  c_valid c = true /\ c_op c = op /\ forall n, In n (c_forbid c) <-> In n forb.

Lemma after_ok fuel t L suf c : c_valid c = true -> c_op c <> FunctionCallAccess -> c_op c <> MemberAccess -> c_op c <> StaticMemberAccess ->
  afterSwitch cc env fuel (mk (t :: L) suf) c = Ok c.
Proof.
  intros V A B C. unfold afterSwitch. rewrite V. cbn [negb]. rewrite tokAt_mk by lia. cbn [Z.to_nat Z.opp nth_error cbind].
  destruct (c_op c); try reflexivity; contradiction.
Qed.
Lemma after_call fuel t L suf c c' : c_valid c = true -> c_op c = FunctionCallAccess -> c_forbid c = [] ->
  afterSwitch cc env fuel (mk (t :: L) suf) c = Ok c' -> good NoMemberAccess [] c'.
Proof.
  intros V A F. unfold afterSwitch. rewrite V. cbn [negb]. rewrite tokAt_mk by lia. cbn [Z.to_nat Z.opp nth_error cbind]. rewrite A.
  destruct (type _) as [k| |]; cbn [cbind]; try discriminate. destruct (negb (is k T_LPAREN)); [discriminate|].
  destruct (prependedBy _ [T_STRING] true) as [p1| |]; cbn [cbind]; try discriminate.
  destruct (p1 =? -1)%Z; [destruct (prependedBy _ [T_VARIABLE] true) as [p2| |]; cbn [cbind]; try discriminate|cbn [cbind]];
  (match goal with |- context [(?x =? -1)%Z] => destruct (x =? -1)%Z end; [intros H; injection H as <-; unfold good; cbn; rewrite V, F; intuition|]);
  (destruct (evaluate _ _ _ _ _) as [p| |]; cbn [cbind]; try discriminate; intros H; injection H as <-; unfold good; cbn; rewrite V, F; intuition).
Qed.

(** Behind a token that is not blank: with or without a blank. *)
Definition tight (k : Tok) : Prop := k <> T_WHITESPACE /\ ~ In k [T_EXTENDS; T_IMPLEMENTS; T_NEW; T_THROW].
Lemma tightB k : (negb (is k T_WHITESPACE) && negb (isIn k [T_EXTENDS; T_IMPLEMENTS; T_NEW; T_THROW])) = true -> tight k.
Proof.
  intros H. apply andb_true_iff in H as [H1 H2]. split.
  - intros ->. rewrite is_refl in H1. discriminate.
  - intros I. replace (isIn k [T_EXTENDS; T_IMPLEMENTS; T_NEW; T_THROW]) with true in H2; [discriminate|]. symmetry. apply existsb_exists. exists k. split; [exact I|apply is_refl].
Qed.
Lemma with_gap fuel inClass following L c P k a w : gap w -> map pc L = rev (P ++ [(k, a)] ++ w) -> tight k ->
  (forall t, nth_error L 0 = Some t -> noComment code t) ->
  completeTokens cc env fuel inClass code following (rev L) = Ok c ->
  exists lws t R suf, rest fuel inClass lws following (mk (t :: R) suf) = Ok c /\ pc t = (k, a) /\ map pc R = rev P.
Proof.
  intros G M T N H. rewrite !rev_app_distr in M. cbn [rev app] in M. destruct G as [|b]; cbn [rev app] in M.
  - destruct L as [|t R]; [discriminate|]. cbn in M. injection M as M1 M2 M3. destruct T as [T1 T2].
    exists false, t, R, []. split; [|split; [unfold CtxProofs2.pc; now rewrite M1, M2|exact M3]].
    rewrite <- H. symmetry. apply start_tight; [congruence|exact (N t eq_refl)|congruence].
  - destruct L as [|ws [|t R]]; try discriminate. cbn in M. injection M as M0 _ M1 M2 M3.
    exists true, t, R, [ws]. split; [|split; [unfold CtxProofs2.pc; now rewrite M1, M2|exact M3]].
    rewrite <- H. symmetry. apply start_blank; [exact M0|exact (N ws eq_refl)].
Qed.

Lemma big_code fuel inClass lws following t R suf k : In k codeKinds -> t_kind t = k ->
  bigSwitch cc fuel inClass lws code following (mk (t :: R) suf) =
  Ok (mk (t :: R) suf, withOp ctx0 (if inClass then ClassMemberChoose else NoMemberAccess), false).
Proof.
  intros I K. unfold bigSwitch. rewrite type_mk. cbn [cbind]. rewrite K.
  cbn [codeKinds In] in I. repeat (destruct I as [<-|I]; [reflexivity|]). destruct I.
Qed.
Lemma big_modifier fuel inClass lws following t R suf k : In k modifiers -> t_kind t = k ->
  bigSwitch cc fuel inClass lws code following (mk (t :: R) suf) =
  Ok (mk (t :: R) suf, if inClass then withOp ctx0 ClassMemberChoose else invalid ctx0, false).
Proof.
  intros I K. unfold bigSwitch. rewrite type_mk. cbn [cbind]. rewrite K.
  cbn [modifiers In] in I. repeat (destruct I as [<-|I]; [destruct inClass; reflexivity|]). destruct I.
Qed.
Lemma big_dead fuel inClass lws following t R suf k : In k deadKinds -> t_kind t = k ->
  bigSwitch cc fuel inClass lws code following (mk (t :: R) suf) = Ok (mk (t :: R) suf, invalid ctx0, false).
Proof.
  intros I K. unfold bigSwitch. rewrite type_mk. cbn [cbind]. rewrite K.
  cbn [deadKinds In] in I. repeat (destruct I as [<-|I]; [reflexivity|]). destruct I.
Qed.
Lemma tight_code k : In k codeKinds -> tight k.
Proof. intros I. apply tightB. cbn [codeKinds In] in I. repeat (destruct I as [<-|I]; [reflexivity|]). destruct I. Qed.
Lemma tight_dead k : In k deadKinds -> tight k.
Proof. intros I. apply tightB. cbn [deadKinds In] in I. repeat (destruct I as [<-|I]; [reflexivity|]). destruct I. Qed.
Lemma tight_modifier k : In k modifiers -> tight k.
Proof. intros I. apply tightB. cbn [modifiers In] in I. repeat (destruct I as [<-|I]; [reflexivity|]). destruct I. Qed.

Lemma good_op op : good op [] (withOp ctx0 op).
Proof. unfold good. cbn. intuition. Qed.
Lemma good_forbid op ids forb : (forall n, In n ids <-> In n forb) -> good op forb (withForbid (withOp ctx0 op) ids).
Proof. intros H. unfold good. cbn. split; [reflexivity|]. split; [reflexivity|]. intros n. rewrite app_nil_r, <- in_rev. apply H. Qed.

Lemma nothing_l inClass P fuel following L c : offersNothing inClass P -> map pc L = rev P ->
  (forall t, nth_error L 0 = Some t -> noComment code t) ->
  completeTokens cc env fuel inClass code following (rev L) = Ok c -> c_valid c = false.
Proof.
  intros HO M N H. destruct HO as [pre k a w I G|pre k a I|pre k a w I G E].
  - destruct (with_gap _ _ _ _ _ _ _ _ _ G M (tight_dead _ I) N H) as (lws & t & R & suf & HR & P1 & P2). injection P1 as K S.
    unfold CtxProofs.rest in HR. rewrite (big_dead fuel inClass lws following t R suf k I K) in HR. cbn in HR. injection HR as <-. reflexivity.
  - rewrite rev_app_distr in M. cbn in M. destruct L as [|t R]; [discriminate|]. cbn in M. injection M as K _ _.
    eapply start_word; [|exact H]. rewrite K. exact I.
  - destruct (with_gap _ _ _ _ _ _ _ _ _ G M (tight_modifier _ I) N H) as (lws & t & R & suf & HR & P1 & P2). injection P1 as K S.
    unfold CtxProofs.rest in HR. rewrite (big_modifier fuel inClass lws following t R suf k I K), E in HR. cbn in HR. injection HR as <-. reflexivity.
Qed.

(** Behind a keyword and a blank. *)
Lemma with_blank fuel inClass following L c P k a b : map pc L = rev (P ++ [(k, a); blank b]) ->
  (forall t, nth_error L 0 = Some t -> noComment code t) ->
  completeTokens cc env fuel inClass code following (rev L) = Ok c ->
  exists t R suf, rest fuel inClass true following (mk (t :: R) suf) = Ok c /\ pc t = (k, a) /\ map pc R = rev P.
Proof.
  intros M N H. rewrite !rev_app_distr in M. cbn [rev app] in M.
  destruct L as [|ws [|t R]]; try discriminate. cbn in M. injection M as M0 _ M1 M2 M3.
  exists t, R, [ws]. split; [|split; [unfold CtxProofs2.pc; now rewrite M1, M2|exact M3]].
  rewrite <- H. symmetry. apply start_blank; [exact M0|exact (N ws eq_refl)].
Qed.

Lemma lparen_rest fuel inClass lws following t R suf c P k a w : t_kind t = T_LPAREN -> gap w -> map pc R = rev (P ++ [(k, a)] ++ w) -> k <> T_WHITESPACE ->
  rest fuel inClass lws following (mk (t :: R) suf) = Ok c ->
  (k = T_CATCH -> good ExceptionChoose [] c) /\ (k <> T_CATCH -> good NoMemberAccess [] c).
Proof.
  intros K G M NK HR. unfold CtxProofs.rest, bigSwitch in HR. rewrite type_mk in HR. cbn [cbind] in HR. rewrite K in HR.
  rewrite !rev_app_distr in M. cbn [rev app] in M.
  assert (ME : map pc (skipn 1 (t :: R)) = rev w ++ (k, a) :: rev P) by (cbn [skipn]; rewrite M, <- app_assoc; reflexivity).
  destruct (skip_gap code (t :: R) suf 1 w _ (-1) k a _ G ME NK eq_refl eq_refl) as (j & u & R' & E1 & E2 & P1 & P2).
  rewrite E1 in HR. injection P1 as KU _. rewrite (typeAt_s code (t :: R) suf (1 + j) 0 u) in HR by (rewrite ?E2; auto; lia). rewrite KU in HR.
  split; intros E.
  - subst k. rewrite E in HR. rewrite is_refl in HR. cbn [cbind] in HR. rewrite after_ok in HR by (cbn; auto; discriminate). injection HR as <-. apply good_op.
  - rewrite (is_neq k T_CATCH E) in HR. destruct (is k T_ARRAY); cbn [cbind] in HR.
    + injection HR as <-. unfold good. cbn. intuition.
    + eapply after_call in HR; auto.
Qed.

Lemma offers_l inClass P op forb fuel following L c : offers inClass P op forb -> map pc L = rev P ->
  (forall t, nth_error L 0 = Some t -> noComment code t) ->
  completeTokens cc env fuel inClass code following (rev L) = Ok c -> good op forb c.
Proof.
  intros HO M N H.
  destruct HO as [pre a b c' d|pre a b NT|pre a b|pre a w1 b w2 G1 G2|pre k a w1 b w2 G1 G2 N1 N2|pre a w G|pre a b n c' d e|pre a b n c' d e|pre a b n c' d e
                 |pre kw ext a b n c' d items names w HK HN HE G|pre k a w I G|pre k a w I G E].
  - (* throw new *)
    change [(T_THROW, a); blank b; (T_NEW, c'); blank d] with ([(T_THROW, a); blank b] ++ [(T_NEW, c'); blank d]) in M. rewrite app_assoc in M.
    destruct (with_blank _ _ _ _ _ _ _ _ _ M N H) as (t & R & suf & HR & P1 & P2). injection P1 as K _.
    unfold CtxProofs.rest, bigSwitch in HR. rewrite type_mk in HR. cbn [cbind] in HR. rewrite K in HR.
    rewrite rev_app_distr in P2. cbn in P2. destruct R as [|u1 [|u2 R]]; try discriminate. cbn in P2. injection P2 as A1 _ A2 _ _.
    destruct (prepended_match code [T_WHITESPACE; T_THROW] t (u1 :: u2 :: R) suf) as (p & EP & NP); [cbn; congruence|].
    rewrite EP in HR. cbn [cbind] in HR. apply Z.eqb_neq in NP. rewrite NP in HR. cbn [negb] in HR. rewrite after_ok in HR by (cbn; auto; discriminate). injection HR as <-. apply good_op.
  - (* new *)
    destruct (with_blank _ _ _ _ _ _ _ _ _ M N H) as (t & R & suf & HR & P1 & P2). injection P1 as K _.
    unfold CtxProofs.rest, bigSwitch in HR. rewrite type_mk in HR. cbn [cbind] in HR. rewrite K in HR.
    destruct (prependedBy (mk (t :: R) suf) [T_WHITESPACE; T_THROW] false) as [p| |] eqn:EP; try discriminate. cbn [cbind] in HR.
    destruct (Z.eqb_spec p (-1)) as [->|NP].
    + cbn [negb] in HR. rewrite after_ok in HR by (cbn; auto; discriminate). injection HR as <-. apply good_op.
    + exfalso. apply prepended_only in EP; [|exact NP]. destruct R as [|u1 [|u2 R]]; try discriminate. cbn in EP. injection EP as A1 A2.
      apply (NT (rev (map pc R)) (symbol code u2) (symbol code u1)). rewrite <- (rev_involutive pre), <- P2. cbn. unfold CtxProofs2.pc at 2 3. rewrite A1, A2, <- app_assoc. reflexivity.
  - (* throw *)
    destruct (with_blank _ _ _ _ _ _ _ _ _ M N H) as (t & R & suf & HR & P1 & P2). injection P1 as K _.
    unfold CtxProofs.rest, bigSwitch in HR. rewrite type_mk in HR. cbn [cbind] in HR. rewrite K in HR. cbn [cbind] in HR.
    rewrite after_ok in HR by (cbn; auto; discriminate). injection HR as <-. apply good_op.
  - (* catch *)
    rewrite !app_assoc in M. rewrite <- (app_assoc _ [(T_LPAREN, b)] w2) in M.
    destruct (with_gap _ _ _ _ _ _ _ _ _ G2 M (tightB T_LPAREN eq_refl) N H) as (lws & t & R & suf & HR & P1 & P2). injection P1 as K _.
    rewrite <- app_assoc in P2.
    eapply (lparen_rest _ _ _ _ _ _ _ _ _ _ _ _ K G1 P2 ltac:(discriminate) HR). reflexivity.
  - (* call *)
    rewrite !app_assoc in M. rewrite <- (app_assoc _ [(T_LPAREN, b)] w2) in M.
    destruct (with_gap _ _ _ _ _ _ _ _ _ G2 M (tightB T_LPAREN eq_refl) N H) as (lws & t & R & suf & HR & P1 & P2). injection P1 as K _.
    rewrite <- app_assoc in P2.
    eapply (lparen_rest _ _ _ _ _ _ _ _ _ _ _ _ K G1 P2 N2 HR). exact N1.
  - (* instanceof *)
    destruct (with_gap _ _ _ _ _ _ _ _ _ G M (tightB T_INSTANCEOF eq_refl) N H) as (lws & t & R & suf & HR & P1 & P2). injection P1 as K _.
    unfold CtxProofs.rest, bigSwitch in HR. rewrite type_mk in HR. cbn [cbind] in HR. rewrite K in HR. cbn [cbind] in HR.
    rewrite after_ok in HR by (cbn; auto; discriminate). injection HR as <-. apply good_op.
  - (* extends *)
    change [(T_CLASS, a); blank b; (T_STRING, n); blank c'; (T_EXTENDS, d); blank e] with ([(T_CLASS, a); blank b; (T_STRING, n); blank c'] ++ [(T_EXTENDS, d); blank e]) in M. rewrite app_assoc in M.
    destruct (with_blank _ _ _ _ _ _ _ _ _ M N H) as (t & R & suf & HR & P1 & P2). injection P1 as K _.
    unfold CtxProofs.rest, bigSwitch in HR. rewrite type_mk in HR. cbn [cbind] in HR. rewrite K in HR.
    rewrite rev_app_distr in P2. cbn in P2. destruct R as [|u1 [|u2 [|u3 [|u4 R]]]]; try discriminate. cbn in P2. injection P2 as A1 _ A2 B2 A3 _ A4 _ _.
    destruct (prepended_match code [T_WHITESPACE; T_STRING; T_WHITESPACE; T_CLASS] t (u1 :: u2 :: u3 :: u4 :: R) suf) as (p & EP & NP); [cbn; congruence|].
    rewrite EP in HR. cbn [cbind] in HR. apply Z.eqb_neq in NP. rewrite NP in HR. cbn [negb] in HR. rewrite stringAt_mk in HR by lia.
    change (Z.to_nat (- -2)) with 2 in HR. cbn [nth_error cbind] in HR. rewrite after_ok in HR by (cbn; auto; discriminate). injection HR as <-. rewrite B2. apply good_forbid. reflexivity.
  - (* interface extends *)
    change [(T_INTERFACE, a); blank b; (T_STRING, n); blank c'; (T_EXTENDS, d); blank e] with ([(T_INTERFACE, a); blank b; (T_STRING, n); blank c'] ++ [(T_EXTENDS, d); blank e]) in M. rewrite app_assoc in M.
    destruct (with_blank _ _ _ _ _ _ _ _ _ M N H) as (t & R & suf & HR & P1 & P2). injection P1 as K _.
    unfold CtxProofs.rest, bigSwitch in HR. rewrite type_mk in HR. cbn [cbind] in HR. rewrite K in HR.
    rewrite rev_app_distr in P2. cbn in P2. destruct R as [|u1 [|u2 [|u3 [|u4 R]]]]; try discriminate. cbn in P2. injection P2 as A1 _ A2 B2 A3 _ A4 _ _.
    destruct (prependedBy (mk (t :: _) suf) [T_WHITESPACE; T_STRING; T_WHITESPACE; T_CLASS] false) as [p| |] eqn:EP1; try discriminate. cbn [cbind] in HR.
    destruct (Z.eqb_spec p (-1)) as [->|NP1]; [|exfalso; apply prepended_only in EP1; [|exact NP1]; cbn in EP1; congruence]. cbn [negb] in HR.
    destruct (prepended_match code [T_WHITESPACE; T_STRING; T_WHITESPACE; T_INTERFACE] t (u1 :: u2 :: u3 :: u4 :: R) suf) as (p & EP & NP); [cbn; congruence|].
    rewrite EP in HR. cbn [cbind] in HR. apply Z.eqb_neq in NP. rewrite NP in HR. cbn [negb] in HR. rewrite stringAt_mk in HR by lia.
    change (Z.to_nat (- -2)) with 2 in HR. cbn [nth_error cbind] in HR. rewrite after_ok in HR by (cbn; auto; discriminate). injection HR as <-. rewrite B2. apply good_forbid. reflexivity.
  - (* implements *)
    change [(T_CLASS, a); blank b; (T_STRING, n); blank c'; (T_IMPLEMENTS, d); blank e] with ([(T_CLASS, a); blank b; (T_STRING, n); blank c'] ++ [(T_IMPLEMENTS, d); blank e]) in M. rewrite app_assoc in M.
    destruct (with_blank _ _ _ _ _ _ _ _ _ M N H) as (t & R & suf & HR & P1 & P2). injection P1 as K _.
    unfold CtxProofs.rest, bigSwitch in HR. rewrite type_mk in HR. cbn [cbind] in HR. rewrite K in HR.
    rewrite rev_app_distr in P2. cbn in P2. destruct R as [|u1 [|u2 [|u3 [|u4 R]]]]; try discriminate. cbn in P2. injection P2 as A1 _ A2 B2 A3 _ A4 _ _.
    destruct (prepended_match code [T_WHITESPACE; T_STRING; T_WHITESPACE; T_CLASS] t (u1 :: u2 :: u3 :: u4 :: R) suf) as (p & EP & NP); [cbn; congruence|].
    rewrite EP in HR. cbn [cbind] in HR. apply Z.eqb_neq in NP. rewrite NP in HR. cbn [negb] in HR. rewrite stringAt_mk in HR by lia.
    change (Z.to_nat (- -2)) with 2 in HR. cbn [nth_error cbind] in HR. rewrite after_ok in HR by (cbn; auto; discriminate). injection HR as <-. rewrite B2. apply good_forbid. reflexivity.
  - (* list *)
    destruct HN as [|items names w1 x w2 cm HN G1 G2]; [contradiction|].
    replace (pre ++ [(kw, a); blank b; (T_STRING, n); blank c'; (ext, d)] ++ (items ++ w1 ++ [(T_STRING, x)] ++ w2 ++ [(T_COMMA, cm)]) ++ w)
      with ((pre ++ [(kw, a); blank b; (T_STRING, n); blank c'; (ext, d)] ++ items ++ w1 ++ [(T_STRING, x)] ++ w2) ++ [(T_COMMA, cm)] ++ w) in M
      by (rewrite <- !app_assoc; cbn [app]; rewrite <- ?app_assoc; reflexivity).
    destruct (with_gap _ _ _ _ _ _ _ _ _ G M (tightB T_COMMA eq_refl) N H) as (lws & t & R & suf & HR & P1 & P2). injection P1 as K _.
    unfold CtxProofs.rest, bigSwitch in HR. rewrite type_mk in HR. cbn [cbind] in HR. rewrite K in HR.
    destruct (implLoop fuel (mk (t :: R) suf) (-1) []) as [r| |] eqn:EI; try discriminate. cbn [cbind] in HR.
    destruct (implLoop_list code pre kw ext a b n c' d HK items names HN w1 x w2 (t :: R) suf 1 fuel [] r G1 G2 P2 EI) as (ps & -> & HS).
    cbn [snd fst app] in HR. rewrite HS in HR. cbn [cbind] in HR. rewrite after_ok in HR by (cbn; auto; discriminate). injection HR as <-.
    apply good_forbid. intros y. cbn [In]. rewrite !in_app_iff, <- in_rev. cbn [In]. tauto.
  - (* code *)
    destruct (with_gap _ _ _ _ _ _ _ _ _ G M (tight_code _ I) N H) as (lws & t & R & suf & HR & P1 & P2). injection P1 as K _.
    unfold CtxProofs.rest in HR. rewrite (big_code fuel inClass lws following t R suf k I K) in HR. cbn [cbind] in HR.
    rewrite after_ok in HR by (destruct inClass; cbn; auto; discriminate). injection HR as <-. apply good_op.
  - (* modifier *)
    destruct (with_gap _ _ _ _ _ _ _ _ _ G M (tight_modifier _ I) N H) as (lws & t & R & suf & HR & P1 & P2). injection P1 as K _.
    unfold CtxProofs.rest in HR. rewrite (big_modifier fuel inClass lws following t R suf k I K), E in HR. cbn [cbind] in HR.
    rewrite after_ok in HR by (cbn; auto; discriminate). injection HR as <-. apply good_op.
Qed.
End C.
