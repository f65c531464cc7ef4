(** Parentheses and operators. *)
From Coq Require Import List Bool NArith ZArith Lia Arith.
From Verif Require Import Chars LexModel ParseModel ParseSpec ParseProofs PexSpec PexProofs PexProofs2.
Import ListNotations.
Open Scope nat_scope.

Section Ops.
Variable rs : Gen.
Context {Fs : Functions} {FsR : FunctionsRead rs}.
Notation Good := (Good rs).
Notation Reads := (Reads rs).

Lemma good_weak : forall l w e iv, Good l w e iv -> Good l w e false.
Proof.
  intros l w e iv [S0 G]. split; [exact S0|]. intros r ST s R V. destruct (G r ST s R V) as (t & s' & RU & RD & P1 & P2 & P3 & P4 & _).
  exists t, s'. repeat split; try assumption; discriminate.
Qed.

Lemma mem_setOf : forall k l, mem k (setOf l) = existsb (teq k) l.
Proof.
  intros k l. induction l as [|x l IH]; [apply mem_0|]. cbn [setOf fold_right existsb]. fold (setOf l).
  rewrite mem_lor, mem_single, IH. reflexivity.
Qed.

(** One of some tokens. *)
Lemma Runs_alts_tok : forall ks k s, In k ks -> yytoken s = k ->
  Runs rs (alts (map IT ks)) s (Ok [Leaf k (pos s)] (yylex s)).
Proof.
  induction ks as [|x ks IH]; intros k s I0 Y; [contradiction|]. cbn [map alts].
  destruct (teq k x) eqn:E.
  - apply Runs_alt_l; [cbn [test]; unfold enters; cbn [nullable nullableT first firstT]; rewrite Y; exact (eq_trans (mem_single k x) E)|].
    apply teq_eq in E. subst x. now apply Runs_tok.
  - apply Runs_alt_r; [cbn [test]; unfold enters; cbn [nullable nullableT first firstT]; rewrite Y; exact (eq_trans (mem_single k x) E)|].
    apply IH; [|exact Y]. destruct I0 as [->|I0]; [rewrite teq_refl in E; discriminate|exact I0].
Qed.

(** What begins with new: the rest is no closing parenthesis, or there is no rest. *)
Definition newOk (w : list Tok) (e : ex) : Prop := hd T_EOF w = T_NEW -> exists w1 w2 e1, w = w1 ++ w2
  /\ ((w2 = [] /\ e1 = e) \/ (w2 <> [] /\ hd T_EOF w2 <> T_RPAREN))
  /\ forall r s, rest s = w ++ T_RPAREN :: r -> vst s = Normal -> exists t s',
       Runs rs (IN n_varExpressionNewObject) s (Ok [t] s') /\ read t = VEx e1 /\ rest s' = w2 ++ T_RPAREN :: r
       /\ problems s' = problems s /\ vst s' = Normal /\ blocked s' = blocked s.

(** ( expression ) *)
Definition funStart (w : list Tok) : Prop := hd T_EOF w = T_FUNCTION -> exists f w2, funOk f = true /\ w = funText f ++ w2
  /\ (w2 = [] \/ (w2 <> [] /\ hd T_EOF w2 <> T_RPAREN)).
Lemma headParen : forallb (fun k => (teq k T_NEW || negb (mem k (first (rule n_varExpressionNewObject))))) (heads 0) = true.
Proof. vm_compute. reflexivity. Qed.
Lemma accessFirst : forall k, mem k (first (IN n_instantiationAccess)) = teq k T_OBJECT_OPERATOR.
Proof. intros k. replace (first (IN n_instantiationAccess)) with (setOf [T_OBJECT_OPERATOR]) by (vm_compute; reflexivity). rewrite mem_setOf. cbn [existsb]. now rewrite orb_false_r. Qed.
(** Not a function called where it stands. *)
Definition notIife (w : list Tok) : Prop := hd T_EOF w <> T_FUNCTION \/ exists r, w = T_FUNCTION :: T_BIT_AND :: r.
Lemma paren_no : forall w e iv, Good 0 w e iv -> newOk w e -> notIife w -> Good 21 (T_LPAREN :: w ++ [T_RPAREN]) e false.
Proof.
  intros w e iv [S0 G] NW NI. apply good_intro; [lia|split; [discriminate|right; right; left; reflexivity]|].
  intros r s ST R V. cbn [app] in R. rewrite <- app_assoc in R. cbn [app] in R.
  destruct (yylex_rest _ _ _ R) as (Y1 & Y2 & Y3 & Y4 & _). set (s1 := yylex s) in *.
  assert (HT : In (yytoken s1) (heads 0)) by (eapply starts_tok; eassumption).
  assert (HW : yytoken s1 = hd T_EOF w) by (rewrite (yytoken_hd _ _ Y1); apply hd_app, (proj1 S0)).
  pose proof (forallb_In _ _ _ _ headParen HT) as HP. cbv beta in HP. rename HP into HP2.
  assert (YT : yytoken s = T_LPAREN) by exact (yytoken_cons _ _ _ R).
  assert (GO : forall ts s', Runs rs (IRollback (seqs [IN n_varExpressionNewObject; IT T_RPAREN; IStar (IN n_instantiationAccess)]) (seqs [IN n_expr; IT T_RPAREN])) s1 (Ok ts s') ->
     Runs rs (rule (ntOf 21)) s (Ok ([Leaf T_LPAREN (pos s)] ++ ts) s')).
  { intros ts s' RU. change (rule (ntOf 21)) with (rule n_varExpressionNormal). cbn [rule alts].
    apply Runs_alt_r.
    { cbn [test holds]. destruct NI as [NI|(r0 & ->)].
      - replace (teq (la 2 s) T_FUNCTION) with false; [now rewrite andb_false_r|].
        symmetry. replace (la 2 s) with (yytoken s1); [rewrite HW; now apply teq_neq|]. subst s1. unfold yytoken, la. unfold yylex. rewrite R. reflexivity.
      - unfold la. rewrite R. reflexivity. }
    apply Runs_alt_l; [cbn [test seqs]; unfold enters; rewrite YT; vm_compute; reflexivity|].
    cbn [seqs]. eapply Runs_seq_ok; [apply Runs_tok, YT|exact RU]. }
  assert (CATCH : forall s0, Runs rs (seqs [IN n_varExpressionNewObject; IT T_RPAREN; IStar (IN n_instantiationAccess)]) (setBlocked s1 true) (Fail s0) ->
     problems s0 = problems s1 -> exists ts s', Runs rs (rule (ntOf 21)) s (Ok ts s') /\ readNode (ntOf 21) (map read ts) = VEx e /\ post s r false s').
  { intros s0 RF PF. set (s2 := rewind s1 (restoreState s1 (setBlocked s0 (blocked s1)))).
    assert (E2 : rest s2 = rest s1 /\ problems s2 = problems s1 /\ vst s2 = vst s1 /\ blocked s2 = blocked s1) by (cbn; repeat split; exact PF).
    destruct E2 as (E2a & E2b & E2c & E2d).
    destruct (G (T_RPAREN :: r) ltac:(vm_compute; reflexivity) s2 ltac:(congruence) ltac:(congruence)) as (t & s3 & RU & RD & P1 & P2 & P3 & P4 & _).
    destruct (yylex_rest _ _ _ P1) as (Z1 & Z2 & Z3 & Z4 & _).
    exists ([Leaf T_LPAREN (pos s)] ++ ([t] ++ [Leaf T_RPAREN (pos s3)])), (yylex s3).
    split; [|split; [cbn [map app read]; rewrite RD; reflexivity|repeat split; try congruence; discriminate]].
    apply GO. eapply Runs_rollback_catch; [exact RF|]. fold s2. cbn [seqs].
    eapply Runs_seq_ok; [exact RU|]. apply Runs_tok. exact (yytoken_cons _ _ _ P1). }
  destruct (teq (yytoken s1) T_NEW) eqn:EN.
  - apply teq_eq in EN. destruct (NW ltac:(congruence)) as (w1 & w2 & e1 & EW & CS & RN).
    destruct (RN r (setBlocked s1 true) Y1 ltac:(cbn; congruence)) as (t & s3 & RU & RD & P1 & P2 & P3 & P4).
    cbn [setBlocked problems blocked] in P2, P4. destruct CS as [[-> ->]|[N2 N3]].
    + cbn [app] in P1. destruct (yylex_rest _ _ _ P1) as (Z1 & Z2 & Z3 & Z4 & _).
      exists ([Leaf T_LPAREN (pos s)] ++ ([t] ++ [Leaf T_RPAREN (pos s3)] ++ [])), (setBlocked (yylex s3) (blocked s1)).
      split; [|split; [cbn [map app read]; rewrite RD; reflexivity|]].
      * apply GO. apply Runs_rollback_ok. cbn [seqs]. eapply Runs_seq_ok; [exact RU|].
        eapply Runs_seq_ok; [apply Runs_tok; exact (yytoken_cons _ _ _ P1)|]. apply Runs_star_stop. rewrite accessFirst, (yytoken_hd _ _ Z1).
        apply teq_neq. intros E. unfold stops in ST. rewrite E in ST. discriminate ST.
      * unfold post. cbn [setBlocked rest problems vst blocked]. repeat split; try congruence; discriminate.
    + apply (CATCH s3); [|congruence]. cbn [seqs].
      assert (RT : Runs rs (ISeq (IT T_RPAREN) (IStar (IN n_instantiationAccess))) s3 (Fail s3)).
      { apply Runs_seq_fail. pose proof (Runs_T rs T_RPAREN s3) as X. rewrite (yytoken_hd _ _ P1), hd_app in X by exact N2.
        rewrite (proj2 (teq_neq _ _) N3) in X. unfold expected in X. rewrite P4 in X. exact X. }
      pose proof (Runs_seq rs _ _ _ _ _ _ RU RT) as X. exact X.
  - cbn [orb] in HP2. apply negb_true_iff in HP2. apply (CATCH (expected (setBlocked s1 true))); [|reflexivity].
    cbn [seqs]. apply Runs_seq_fail. apply Runs_N_no. unfold enters. apply orb_false_iff. split; [vm_compute; reflexivity|exact HP2].
Qed.

(** [(function (..) {..} ..)]: the parser tries to read a call and goes back. *)
Lemma paren_fun : forall w e iv f w2, Good 0 w e iv -> funOk f = true -> w = funText f ++ w2 -> (exists r, w = T_FUNCTION :: T_LPAREN :: r) ->
  (w2 = [] \/ (w2 <> [] /\ hd T_EOF w2 <> T_RPAREN)) -> Good 21 (T_LPAREN :: w ++ [T_RPAREN]) e false.
Proof.
  intros w e iv f w2 [S0 G] OK EW (r0 & EB) CS. destruct (functions_read rs f OK) as [_ FR].
  apply good_intro; [lia|split; [discriminate|right; right; left; reflexivity]|].
  intros r s ST R V. cbn [app] in R. rewrite <- app_assoc in R. cbn [app] in R.
  destruct (yylex_rest _ _ _ R) as (Y1 & Y2 & Y3 & Y4 & _). set (s1 := yylex s) in *.
  assert (YT : yytoken s = T_LPAREN) by exact (yytoken_cons _ _ _ R).
  set (call := seqs [IN n_closure; IT T_RPAREN; IT T_LPAREN; IN n_functionCallParameterList; IT T_RPAREN]).
  assert (CATCH : exists s0, Runs rs call (setBlocked s1 true) (Fail s0) /\ problems s0 = problems s1).
  { destruct (FR (w2 ++ T_RPAREN :: r) (setBlocked s1 true)) as (t & s3 & RU & RD & P1 & P2 & P3 & P4);
      [cbn [setBlocked rest]; rewrite Y1, EW, <- app_assoc; reflexivity|cbn; congruence|].
    cbn [setBlocked problems blocked] in P2, P4. subst call. cbn [seqs].
    destruct CS as [->|[N2 N3]].
    - cbn [app] in P1. destruct (yylex_rest _ _ _ P1) as (Z1 & Z2 & Z3 & Z4 & _). exists (yylex s3). split; [|congruence].
      assert (RT : Runs rs (ISeq (IT T_LPAREN) (ISeq (IN n_functionCallParameterList) (IT T_RPAREN))) (yylex s3) (Fail (yylex s3))).
      { apply Runs_seq_fail. pose proof (Runs_T rs T_LPAREN (yylex s3)) as X. rewrite (yytoken_hd _ _ Z1) in X.
        assert (N : hd T_EOF r <> T_LPAREN) by (intros E; unfold stops in ST; rewrite E in ST; discriminate ST).
        rewrite (proj2 (teq_neq _ _) N) in X. unfold expected in X. rewrite Z4, P4 in X. exact X. }
      pose proof (Runs_seq rs _ _ _ _ _ _ (Runs_tok rs T_RPAREN s3 (yytoken_cons _ _ _ P1)) RT) as X1. cbn in X1.
      pose proof (Runs_seq rs _ _ _ _ _ _ RU X1) as X2. exact X2.
    - exists s3. split; [|congruence].
      assert (RT : Runs rs (ISeq (IT T_RPAREN) (ISeq (IT T_LPAREN) (ISeq (IN n_functionCallParameterList) (IT T_RPAREN)))) s3 (Fail s3)).
      { apply Runs_seq_fail. pose proof (Runs_T rs T_RPAREN s3) as X. rewrite (yytoken_hd _ _ P1), hd_app in X by exact N2.
        rewrite (proj2 (teq_neq _ _) N3) in X. unfold expected in X. rewrite P4 in X. exact X. }
      pose proof (Runs_seq rs _ _ _ _ _ _ RU RT) as X. exact X. }
  destruct CATCH as (s0 & RF & PF). set (s2 := rewind s1 (restoreState s1 (setBlocked s0 (blocked s1)))).
  assert (E2 : rest s2 = rest s1 /\ problems s2 = problems s1 /\ vst s2 = vst s1 /\ blocked s2 = blocked s1) by (cbn; repeat split; exact PF).
  destruct E2 as (E2a & E2b & E2c & E2d).
  destruct (G (T_RPAREN :: r) ltac:(vm_compute; reflexivity) s2 ltac:(congruence) ltac:(congruence)) as (t & s3 & RU & RD & P1 & P2 & P3 & P4 & _).
  destruct (yylex_rest _ _ _ P1) as (Z1 & Z2 & Z3 & Z4 & _).
  exists [Node n_iifeSyntax (pos s) ([Leaf T_LPAREN (pos s)] ++ ([t] ++ [Leaf T_RPAREN (pos s3)])) (pos (yylex s3))], (yylex s3).
  split; [|split; [cbn [map app read]; rewrite RD; reflexivity|repeat split; try congruence; discriminate]].
  change (rule (ntOf 21)) with (rule n_varExpressionNormal). cbn [rule alts]. apply Runs_alt_l.
  - cbn [test holds]. unfold la. rewrite R, EB. cbn [app nth Nat.sub nth_default nth_error hd]. unfold enters. rewrite YT. vm_compute. reflexivity.
  - apply Runs_cond. apply Runs_N_ok; [unfold enters; rewrite YT; vm_compute; reflexivity|]. cbn [rule seqs].
    eapply Runs_seq_ok; [apply Runs_tok, YT|]. eapply Runs_rollback_catch; [exact RF|]. fold s2. cbn [seqs].
    eapply Runs_seq_ok; [exact RU|]. apply Runs_tok. exact (yytoken_cons _ _ _ P1).
Qed.
Lemma paren : forall w e iv, Good 0 w e iv -> newOk w e -> funStart w -> Good 21 (T_LPAREN :: w ++ [T_RPAREN]) e false.
Proof.
  intros w e iv G NW FS. destruct (teq (hd T_EOF w) T_FUNCTION) eqn:E.
  - apply teq_eq in E. destruct (FS E) as (f & w2 & OK & EW & CS). destruct (functions_read rs f OK) as [[(r0 & B)|(r0 & B)] _].
    + eapply paren_fun; [exact G|exact OK|exact EW|exists (r0 ++ w2); rewrite EW, B; reflexivity|]. exact CS.
    + eapply paren_no; [exact G|exact NW|]. right. exists (T_LPAREN :: r0 ++ w2). rewrite EW, B. reflexivity.
  - eapply paren_no; [exact G|exact NW|]. left. intros X. rewrite X in E. discriminate E.
Qed.

Lemma wrap_good : forall l m e w iv, m <= 21 -> readLevel e <= 21 -> fits l m e = true -> newOk w e -> funStart w -> Good (readLevel e) w e iv -> Good m (wrap l e w) e false.
Proof.
  intros l m e w iv L LE F NW FS G. unfold wrap. unfold fits in F. destruct (level e <? l) eqn:E.
  - apply (up_le rs m 21); [exact L|lia|]. eapply paren; [|exact NW|exact FS]. apply (up_le rs 0 (readLevel e)); [lia|exact LE|exact G].
  - cbn [orb] in F. apply Nat.leb_le in F. apply (up_le rs m (readLevel e)); [exact F|exact LE|]. eapply good_weak, G.
Qed.

(** ** Left-associative levels *)
Definition starLevel (l : nat) : bool := existsb (Nat.eqb l) [15; 16; 17].
Definition restOf (l : nat) : NT :=
  match l with 15 => n_shiftExpressionRest | 16 => n_additiveExpressionRest | _ => n_multiplicativeExpressionRest end.
Definition restToks (l : nat) : list Tok :=
  match l with 15 => [T_SL; T_SR] | 16 => [T_PLUS; T_MINUS; T_CONCAT] | _ => [T_MUL; T_DIV; T_EXP; T_MOD] end.
Lemma star_cases : forall l, starLevel l = true -> l = 15 \/ l = 16 \/ l = 17.
Proof. intros l H. apply existsb_exists in H as (x & I0 & E). apply Nat.eqb_eq in E. cbn in I0. lia. Qed.
Lemma rule_star : forall l, starLevel l = true ->
  rule (ntOf l) = ISeq (IN (ntOf (S l))) (IStar (IN (restOf l)))
  /\ rule (restOf l) = ISeq (alts (map IT (restToks l))) (IN (ntOf (S l))).
Proof. intros l H. apply star_cases in H as [->|[->| ->]]; split; reflexivity. Qed.

Definition opPiece (l : nat) (p : piece) : Prop := exists o, gOp o = l /\ fst (fst p) = opTok o.

Lemma opRest : forall o l, gOp o = l -> starLevel l = true ->
  In (opTok o) (restToks l) /\ mem (opTok o) (cont (S l)) = false /\ mem (opTok o) (first (rule (restOf l))) = true
  /\ mem (opTok o) (cont l) = true /\ mem (opTok o) (first (IN (restOf l))) = true.
Proof.
  intros o l <- S0. destruct o; try discriminate S0; try congruence; (split; [cbn; tauto|repeat split; vm_compute; reflexivity]).
Qed.
Lemma restFirst : forall l, starLevel l = true -> N.ldiff (first (IN (restOf l))) (cont l) = 0%N.
Proof. intros l H. apply star_cases in H as [->|[->| ->]]; vm_compute; reflexivity. Qed.

Lemma star_reads : forall l, starLevel l = true -> forall (ps : list piece) r s,
  Forall (goodPiece rs l) ps -> Forall (opPiece l) ps ->
  rest s = chainText ps ++ r -> vst s = Normal -> stops l r ->
  exists ts s', Runs rs (IStar (IN (restOf l))) s (Ok ts s')
    /\ map read ts = chainRests ps /\ post s r false s'.
Proof.
  intros l SL. destruct (rule_star l SL) as [_ RR].
  assert (L : l < 21) by (apply star_cases in SL; lia).
  assert (RN : forall k e, readNode (restOf l) [VTok k; VEx e] = VRest k e) by (apply star_cases in SL as [->|[->| ->]]; reflexivity).
  induction ps as [|[[k1 w1] e1] ps IH]; intros r s PS PK R V ST.
  - exists [], s. split; [|split; [reflexivity|repeat split; auto; discriminate]]. apply Runs_star_stop.
    rewrite (yytoken_hd _ _ R). exact (not_in _ _ _ (restFirst l SL) ST).
  - inversion PS as [|x y P1 PS']; subst x y. inversion PK as [|x y K1 PK']; subst x y.
    destruct K1 as (o & OL & K1). cbn [fst snd] in K1. subst k1.
    unfold goodPiece in P1. cbn [fst snd] in P1.
    destruct (opRest o l OL SL) as (O1 & O2 & O3 & O4 & O5).
    cbn [chainText flat_map fst snd] in R. fold (chainText ps) in R. cbn [app] in R. rewrite <- app_assoc in R.
    destruct (yylex_rest _ _ _ R) as (Y1 & Y2 & Y3 & Y4 & _).
    assert (YT : yytoken s = opTok o) by exact (yytoken_cons _ _ _ R).
    assert (ST1 : stops (S l) (chainText ps ++ r)).
    { destruct ps as [|[[k2 w2] e2] ps]; [apply stops_S; assumption|].
      inversion PK' as [|x y K2 _]; subst x y. destruct K2 as (o2 & OL2 & K2). cbn [fst snd] in K2. subst k2.
      unfold stops. cbn [chainText flat_map fst snd app hd]. apply (opRest o2 l OL2 SL). }
    destruct (proj2 P1 _ ST1 (yylex s) Y1 ltac:(congruence)) as (t & s1 & RU & RD & A1 & A2 & A3 & A4 & _).
    destruct (IH r s1 PS' PK' A1 A3 ST) as (ts & s' & RU2 & RD2 & B1 & B2 & B3 & B4 & _).
    eexists _, s'. split; [eapply Runs_star_ok; [rewrite YT; exact O5| |exact RU2]|split].
    + apply Runs_N_ok; [unfold enters; rewrite YT, O3; apply orb_true_r|]. rewrite RR.
      eapply Runs_seq_ok; [apply Runs_alts_tok; [exact O1|exact YT]|exact RU].
    + cbn [map app]. rewrite RD2. cbn [chainRests map fst snd]. f_equal. rewrite read_node by (apply star_cases in SL as [->|[->| ->]]; discriminate). cbn [read map]. rewrite RD. apply RN.
    + repeat split; try congruence; discriminate.
Qed.

(** Operands of a level from left to right. *)
Fixpoint leftOf (e : ex) (ps : list piece) : option ex :=
  match ps with
  | [] => Some e
  | (k, _, a) :: r => match binOf k with Some o => leftOf (EBin o e a) r | None => None end
  end.
Lemma leftOf_vals : forall ps e e', leftOf e ps = Some e' -> chainL e (chainVals ps) = VEx e' /\ chainL e (chainRests ps) = VEx e'.
Proof.
  induction ps as [|[[k w] a] ps IH]; intros e e' H; cbn [leftOf] in H; [injection H as <-; split; reflexivity|].
  cbn [chainVals chainRests flat_map map app fst snd chainL]. unfold mkBin. destruct (binOf k); [|discriminate]. exact (IH _ _ H).
Qed.
Lemma leftOf_app : forall ps e e' q, leftOf e ps = Some e' -> leftOf e (ps ++ q) = leftOf e' q.
Proof.
  induction ps as [|[[k w] a] ps IH]; intros e e' q H; cbn [leftOf app] in *; [now injection H as <-|].
  destruct (binOf k); [|discriminate]. exact (IH _ _ q H).
Qed.
Lemma binOf_opTok : forall o, binOf (opTok o) = Some o.
Proof. intros []; vm_compute; reflexivity. Qed.

Definition Chain (l : nat) (w : list Tok) (e : ex) : Prop := exists w0 e0 ps,
  w = w0 ++ chainText ps /\ Good (S l) w0 e0 false /\ Forall (goodPiece rs l) ps /\ Forall (opPiece l) ps
  /\ leftOf e0 ps = Some e.

Definition leftLevels (l : nat) : bool := listLevel l || starLevel l.
Lemma opSep : forall o, listLevel (gOp o) = true -> opTok o = sepOf (gOp o).
Proof. intros []; intros H; try discriminate H; reflexivity. Qed.

Lemma chain_good : forall l w e, leftLevels l = true -> Chain l w e -> Good l w e false.
Proof.
  intros l w e LL (w0 & e0 & ps & -> & G & PS & PK & LO). destruct (leftOf_vals _ _ _ LO) as [CV CR].
  assert (L : l < 21).
  { apply orb_true_iff in LL as [H|H]; [apply level_cases in H; cbn in H; lia|apply star_cases in H; lia]. }
  apply good_intro; [lia|split; [destruct G as [[N _] _]; destruct w0; [congruence|discriminate]|]|].
  { destruct G as [[N I0] _]. rewrite hd_app by exact N. now apply heads_S. }
  intros r s ST R V. rewrite <- app_assoc in R. apply orb_true_iff in LL as [H|H].
  - assert (PK' : Forall (fun p : piece => fst (fst p) = sepOf l) ps).
    { eapply Forall_impl; [|exact PK]. intros p (o & OL & E). rewrite E, <- OL. apply opSep. now rewrite OL. }
    destruct (list_reads rs l (or_introl H) ps w0 e0 false r s G PS PK' R V ST) as (ts & s' & RU & RD & P1 & P2 & P3 & P4 & _).
    exists ts, s'. rewrite (rule_list l (or_introl H)). split; [exact RU|]. split; [|repeat split; try assumption; discriminate].
    rewrite RD, (readNode_list l _ _ H). exact CV.
  - assert (ST1 : stops (S l) (chainText ps ++ r)).
    { destruct ps as [|[[k2 w2] e2] ps]; [apply stops_S; assumption|].
      inversion PK as [|x y K2 _]; subst x y. destruct K2 as (o2 & OL2 & K2). cbn [fst snd] in K2. subst k2.
      unfold stops. cbn [chainText flat_map fst snd app hd]. apply (opRest o2 l OL2 H). }
    destruct (proj2 G _ ST1 s R V) as (t & s1 & RU & RD & A1 & A2 & A3 & A4 & _).
    destruct (star_reads l H ps r s1 PS PK A1 A3 ST) as (ts & s' & RU2 & RD2 & B1 & B2 & B3 & B4 & _).
    exists ([t] ++ ts), s'. destruct (rule_star l H) as [-> _]. split; [eapply Runs_seq_ok; eassumption|].
    split; [|repeat split; try congruence; discriminate]. cbn [map app]. rewrite RD, RD2.
    replace (readNode (ntOf l) (VEx e0 :: chainRests ps)) with (chainL e0 (chainRests ps)); [exact CR|].
    apply star_cases in H as [->|[->| ->]]; reflexivity.
Qed.

(** ** The right-associative level *)
Fixpoint rightOf (e : ex) (ps : list piece) : ex :=
  match ps with [] => e | (_, _, a) :: r => EBin OCoalesce e (rightOf a r) end.
Definition ChainR (w : list Tok) (e : ex) : Prop := exists w0 e0 ps,
  w = w0 ++ chainText ps /\ Good 8 w0 e0 false /\ Forall (goodPiece rs 7) ps
  /\ Forall (fun p : piece => fst (fst p) = T_NULL_COALESCE) ps /\ rightOf e0 ps = e.
Lemma rightOf_vals : forall ps e, Forall (fun p : piece => fst (fst p) = T_NULL_COALESCE) ps ->
  chainR e (chainVals ps) = VEx (rightOf e ps).
Proof.
  induction ps as [|[[k w] a] ps IH]; intros e H; [reflexivity|]. inversion H as [|x y K H']; subst x y. cbn [fst] in K. subst k.
  cbn [chainVals flat_map fst snd app chainR]. fold (chainVals ps). rewrite (IH a H'). reflexivity.
Qed.
Lemma chainR_good : forall w e, ChainR w e -> Good 7 w e false.
Proof.
  intros w e (w0 & e0 & ps & -> & G & PS & PK & LO).
  apply good_intro; [lia|split; [destruct G as [[N _] _]; destruct w0; [congruence|discriminate]|]|].
  { destruct G as [[N I0] _]. rewrite hd_app by exact N. now apply heads_S. }
  intros r s ST R V. rewrite <- app_assoc in R.
  destruct (list_reads rs 7 (or_intror eq_refl) ps w0 e0 false r s G PS PK R V ST) as (ts & s' & RU & RD & P1 & P2 & P3 & P4 & _).
  exists ts, s'. rewrite (rule_list 7 (or_intror eq_refl)). split; [exact RU|]. split; [|repeat split; try assumption; discriminate].
  rewrite RD. change (readNode (ntOf 7) (VEx e0 :: chainVals ps)) with (chainR e0 (chainVals ps)). rewrite rightOf_vals by exact PK. now rewrite LO.
Qed.
End Ops.
