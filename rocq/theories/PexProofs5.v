(** The other operators, and every expression. *)
From Coq Require Import List Bool NArith ZArith Lia Arith.
From Verif Require Import Chars LexModel ParseModel ParseSpec ParseProofs PexSpec PexProofs PexProofs2 PexProofs3 PexProofs4 PexPath PexPath2 PexAtoms PexAtoms2 PexAtoms3 PexAtoms4.
Import ListNotations.
Open Scope nat_scope.

Section All.
Variable rs : Gen.
Context {Fs : Functions} {FsR : FunctionsRead rs}.
Notation Good := (Good rs).

Lemma starts_app : forall l w r, starts (S l) w -> starts l (w ++ r).
Proof.
  intros l w r [N I0]. split; [destruct w; [congruence|discriminate]|]. rewrite hd_app by exact N. now apply heads_S.
Qed.

(** ** Comparisons *)
Definition nonLevel (l : nat) : bool := existsb (Nat.eqb l) [13; 14].
Definition nonRest (l : nat) : NT := match l with 13 => n_equalityExpressionRest | _ => n_relationalExpressionRest end.
Definition nonToks (l : nat) : list Tok :=
  match l with
  | 13 => [T_IS_EQUAL; T_IS_NOT_EQUAL; T_IS_IDENTICAL; T_IS_NOT_IDENTICAL; T_SPACESHIP]
  | _ => [T_IS_SMALLER; T_IS_GREATER; T_IS_SMALLER_OR_EQUAL; T_IS_GREATER_OR_EQUAL]
  end.
Lemma non_cases : forall l, nonLevel l = true -> l = 13 \/ l = 14.
Proof. intros l H. apply existsb_exists in H as (x & I0 & E). apply Nat.eqb_eq in E. cbn in I0. lia. Qed.
Lemma opNon : forall o, nonLevel (opLevel o) = true ->
  In (opTok o) (nonToks (opLevel o)) /\ mem (opTok o) (cont (S (opLevel o))) = false
  /\ (forall s, yytoken s = opTok o -> enters (rule (nonRest (opLevel o))) s = true /\ test (IN (nonRest (opLevel o))) s = true)
  /\ opLevel o < 21.
Proof.
  intros o H. destruct o; try discriminate H;
    (split; [cbn; tauto|]; split; [vm_compute; reflexivity|]; split; [|cbn; lia];
     intros s Y; cbn [test]; unfold enters; rewrite Y; split; vm_compute; reflexivity).
Qed.
Lemma non_good : forall o wa a wb b, nonLevel (opLevel o) = true -> Good (S (opLevel o)) wa a false -> Good (S (opLevel o)) wb b false ->
  Good (opLevel o) (wa ++ opTok o :: wb) (EBin o a b) false.
Proof.
  intros o wa a wb b NL GA GB. destruct (opNon o NL) as (O1 & O2 & O3 & O4).
  apply good_intro; [lia|apply starts_app, (proj1 GA)|]. intros r s ST R V. rewrite <- app_assoc in R. cbn [app] in R.
  destruct (proj2 GA (opTok o :: wb ++ r) O2 s R V) as (ta & s1 & RU1 & RD1 & A1 & A2 & A3 & A4 & _).
  destruct (yylex_rest _ _ _ A1) as (Y1 & Y2 & Y3 & Y4 & _).
  destruct (proj2 GB r (stops_S _ _ O4 ST) (yylex s1) Y1 ltac:(congruence)) as (tb & s2 & RU2 & RD2 & B1 & B2 & B3 & B4 & _).
  assert (YT : yytoken s1 = opTok o) by exact (yytoken_cons _ _ _ A1). destruct (O3 s1 YT) as [E1 E2].
  assert (RR : Runs rs (IN (nonRest (opLevel o))) s1 (Ok [Node (nonRest (opLevel o)) (pos s1) ([Leaf (opTok o) (pos s1)] ++ [tb]) (pos s2)] s2)).
  { apply Runs_N_ok; [exact E1|].
    assert (RL : rule (nonRest (opLevel o)) = ISeq (alts (map IT (nonToks (opLevel o)))) (IN (ntOf (S (opLevel o)))))
      by (destruct (non_cases _ NL) as [E| E]; rewrite E; reflexivity).
    rewrite RL. eapply Runs_seq_ok; [apply Runs_alts_tok; [exact O1|exact YT]|exact RU2]. }
  eexists _, s2. split; [|split; [|repeat split; try congruence; discriminate]].
  - instantiate (1 := [ta] ++ _).
    assert (RL : exists x, rule (ntOf (opLevel o)) = ISeq (IN (ntOf (S (opLevel o)))) (IAlt (IN (nonRest (opLevel o))) x))
      by (destruct (non_cases _ NL) as [E| E]; rewrite E; eexists; reflexivity).
    destruct RL as [x ->]. eapply Runs_seq_ok; [exact RU1|]. apply Runs_alt_l; [exact E2|]. exact RR.
  - cbn [map app read]. rewrite RD1, RD2. destruct o; try discriminate NL; reflexivity.
Qed.

(** ** Unary operators *)
Lemma un_good : forall o wa a, Good 18 wa a false -> Good 18 (unTok o :: wa) (EUn o a) false.
Proof.
  intros o wa a G. apply good_intro; [lia|split; [discriminate|destruct o; cbn; tauto]|]. intros r s ST R V. cbn [app] in R.
  destruct (yylex_rest _ _ _ R) as (Y1 & Y2 & Y3 & Y4 & _).
  destruct (proj2 G r ST (yylex s) Y1 ltac:(congruence)) as (t & s' & RU & RD & B1 & B2 & B3 & B4 & _).
  assert (YT : yytoken s = unTok o) by exact (yytoken_cons _ _ _ R).
  exists ([Leaf (unTok o) (pos s)] ++ [t]), s'. split; [|split; [cbn [map app read]; rewrite RD; destruct o; reflexivity|repeat split; try congruence; discriminate]].
  change (ntOf 18) with n_unaryExpression in *. cbn [rule alts].
  assert (EN : forall i, enters i s = nullable i || mem (unTok o) (first i)) by (intros i; unfold enters; now rewrite YT).
  destruct o; cbn [unTok] in *;
    repeat first [ apply Runs_alt_l; [cbn [test seqs]; rewrite EN; vm_compute; reflexivity|]; cbn [seqs];
                   eapply Runs_seq_ok; [apply Runs_tok, YT|exact RU]
                 | apply Runs_alt_r; [cbn [test seqs]; rewrite EN; vm_compute; reflexivity|] ].
Qed.

(** ** Assignments *)
Lemma asgFacts : forall o, mem (asgTok o) (cont 6) = false.
Proof. intros []; vm_compute; reflexivity. Qed.
Lemma headNoAmp : forallb (fun k => negb (mem k (first (ISeq (IT T_BIT_AND) (IAct ARefAssign))))) (heads 5) = true.
Proof. vm_compute. reflexivity. Qed.
Lemma asg_good : forall o wv v wa a, Good 6 wv v true -> Good 5 wa a false -> Good 5 (wv ++ asgTok o :: wa) (EAsg o v a) false.
Proof.
  intros o wv v wa a GV G. apply good_intro; [lia|apply starts_app, (proj1 GV)|]. intros r s ST R V. rewrite <- app_assoc in R. cbn [app] in R.
  destruct (proj2 GV (asgTok o :: wa ++ r) (asgFacts o) (setIsVar s false) R V) as (tv & s1 & RU1 & RD1 & A1 & A2 & A3 & A4 & A5).
  specialize (A5 eq_refl). cbn [setIsVar problems blocked] in A2, A4.
  destruct (yylex_rest _ _ _ A1) as (Y1 & Y2 & Y3 & Y4 & Y5 & _).
  destruct (proj2 G r ST (yylex s1) Y1 ltac:(congruence)) as (t & s2 & RU & RD & B1 & B2 & B3 & B4 & _).
  assert (YT : yytoken s1 = asgTok o) by exact (yytoken_cons _ _ _ A1).
  assert (EN : forall i, enters i s1 = nullable i || mem (asgTok o) (first i)) by (intros i; unfold enters; now rewrite YT).
  assert (CK : exists ck, Runs rs (IN n_assignmentExpressionCheckIfVariable) (yylex s1) (Ok [ck] (yylex s1)) /\ read ck = VNone).
  { eexists. split; [apply Runs_N_ok; [reflexivity|]|].
    - pose proof (Runs_act rs ACheckVariable (yylex s1)) as A. cbn [doAct] in A. rewrite Y5, A5 in A. exact A.
    - reflexivity. }
  destruct CK as (ck & CK & RCK).
  change (ntOf 5) with n_assignmentExpression in *. cbn [rule seqs alts].
  destruct (teq (asgTok o) T_ASSIGN) eqn:EQ.
  - apply teq_eq in EQ. assert (EO : o = AEq) by (destruct o; try discriminate EQ; reflexivity). subst o. cbn [asgTok] in *.
    exists ([] ++ [tv] ++ [Node n_assignmentExpressionEqual (pos s1) ([Leaf T_ASSIGN (pos s1)] ++ [ck] ++ [] ++ [t] ++ []) (pos s2)]), (setVst s2 Normal).
    split; [|split; [cbn [map app read]; rewrite RD, RD1, RCK; reflexivity|repeat split; cbn; try congruence; discriminate]].
    eapply Runs_seq_ok; [exact (Runs_act rs (ASetIsVariable false) s)|].
    eapply Runs_seq_ok; [exact RU1|].
    apply Runs_alt_l; [cbn [test]; rewrite EN; vm_compute; reflexivity|].
    apply (Runs_N_ok rs n_assignmentExpressionEqual s1 ([Leaf T_ASSIGN (pos s1)] ++ [ck] ++ [] ++ [t] ++ []) (setVst s2 Normal)); [rewrite EN; vm_compute; reflexivity|].
    cbn [rule seqs alts].
    eapply Runs_seq_ok; [apply Runs_tok, YT|]. eapply Runs_seq_ok; [exact CK|].
    eapply Runs_seq_ok.
    { apply Runs_opt_none; [discriminate|]. unfold enters. apply orb_false_iff. split; [reflexivity|].
      pose proof (starts_tok _ _ _ _ (proj1 G) Y1) as HI. pose proof (forallb_In _ _ _ _ headNoAmp HI) as HH. cbv beta in HH.
      now apply negb_true_iff in HH. }
    eapply Runs_seq_ok; [exact RU|]. exact (Runs_act rs ASetNormal s2).
  - exists ([] ++ [tv] ++ [Leaf (asgTok o) (pos s1)] ++ [ck] ++ [t]), s2.
    split; [|split; [cbn [map app read]; rewrite RD, RD1, RCK; destruct o; try discriminate EQ; reflexivity|repeat split; try congruence; discriminate]].
    eapply Runs_seq_ok; [exact (Runs_act rs (ASetIsVariable false) s)|].
    eapply Runs_seq_ok; [exact RU1|].
    apply Runs_alt_r; [cbn [test]; rewrite EN; destruct o; try discriminate EQ; vm_compute; reflexivity|].
    apply Runs_alt_l; [cbn [test seqs]; rewrite EN; destruct o; try discriminate EQ; vm_compute; reflexivity|].
    eapply Runs_seq_ok; [|eapply Runs_seq_ok; [exact CK|exact RU]].
    apply (Runs_alts_tok rs [T_PLUS_ASSIGN; T_MINUS_ASSIGN; T_MUL_ASSIGN; T_EXP_ASSIGN; T_DIV_ASSIGN; T_CONCAT_ASSIGN; T_MOD_ASSIGN;
      T_AND_ASSIGN; T_OR_ASSIGN; T_XOR_ASSIGN; T_SL_ASSIGN; T_SR_ASSIGN] (asgTok o) s1); [|exact YT].
    destruct o; try discriminate EQ; cbn; tauto.
Qed.

(** ** print *)
Lemma print_good : forall wa a, Good 5 wa a false -> Good 4 (T_PRINT :: wa) (EPrint a) false.
Proof.
  intros wa a G. apply good_intro; [lia|split; [discriminate|cbn; tauto]|]. intros r s ST R V. cbn [app] in R.
  destruct (yylex_rest _ _ _ R) as (Y1 & Y2 & Y3 & Y4 & _).
  destruct (proj2 G r (stops_S 4 _ ltac:(lia) ST) (yylex s) Y1 ltac:(congruence)) as (t & s' & RU & RD & B1 & B2 & B3 & B4 & _).
  assert (YT : yytoken s = T_PRINT) by exact (yytoken_cons _ _ _ R).
  exists ([Leaf T_PRINT (pos s)] ++ [t]), s'. split; [|split; [cbn [map app read]; rewrite RD; reflexivity|repeat split; try congruence; discriminate]].
  change (ntOf 4) with n_printExpression in *. cbn [rule seqs alts].
  eapply Runs_seq_ok; [|exact RU]. apply Runs_alt_l; [cbn [test]; unfold enters; rewrite YT; vm_compute; reflexivity|]. apply Runs_tok, YT.
Qed.

(** ** a ? b : c *)
Lemma headExpr : forallb (fun k => mem k (first (IN n_expr))) (heads 0) = true.
Proof. vm_compute. reflexivity. Qed.
Lemma cond_good : forall wa a wb b wc c, Good 7 wa a false -> Good 0 wb b false -> Good 6 wc c false ->
  Good 6 (wa ++ T_QUESTION :: wb ++ T_COLON :: wc) (ECond a b c) false.
Proof.
  intros wa a wb b wc c GA GB GC. apply good_intro; [lia|apply starts_app, (proj1 GA)|]. intros r s ST R V.
  repeat (rewrite <- app_assoc in R; cbn [app] in R).
  destruct (proj2 GA (T_QUESTION :: wb ++ T_COLON :: wc ++ r) ltac:(vm_compute; reflexivity) s R V) as (ta & s1 & RU1 & RD1 & A1 & A2 & A3 & A4 & _).
  destruct (yylex_rest _ _ _ A1) as (Y1 & Y2 & Y3 & Y4 & _).
  destruct (proj2 GB (T_COLON :: wc ++ r) ltac:(vm_compute; reflexivity) (yylex s1) Y1 ltac:(congruence)) as (tb & s2 & RU2 & RD2 & B1 & B2 & B3 & B4 & _).
  destruct (yylex_rest _ _ _ B1) as (Z1 & Z2 & Z3 & Z4 & _).
  destruct (proj2 GC r ST (yylex s2) Z1 ltac:(congruence)) as (tc & s3 & RU3 & RD3 & C1 & C2 & C3 & C4 & _).
  exists ([ta] ++ [Leaf T_QUESTION (pos s1)] ++ [tb] ++ [Leaf T_COLON (pos s2)] ++ [tc]), s3.
  split; [|split; [cbn [map app read]; rewrite RD1, RD2, RD3; reflexivity|repeat split; try congruence; discriminate]].
  change (ntOf 6) with n_conditionalExpression in *. cbn [rule seqs alts]. eapply Runs_seq_ok; [exact RU1|].
  assert (YT : yytoken s1 = T_QUESTION) by exact (yytoken_cons _ _ _ A1).
  apply Runs_alt_l; [cbn [test]; unfold enters; rewrite YT; vm_compute; reflexivity|].
  eapply Runs_seq_ok; [apply Runs_tok, YT|]. eapply Runs_seq_ok.
  - apply Runs_alt_l; [|exact RU2]. cbn [test]. unfold enters.
    pose proof (starts_tok _ _ _ _ (proj1 GB) Y1) as HI. pose proof (forallb_In _ _ _ _ headExpr HI) as HH. cbv beta in HH. rewrite HH. apply orb_true_r.
  - eapply Runs_seq_ok; [apply Runs_tok; exact (yytoken_cons _ _ _ B1)|exact RU3].
Qed.
Lemma elvis_good : forall wa a wc c, Good 7 wa a false -> Good 6 wc c false ->
  Good 6 (wa ++ T_QUESTION :: T_COLON :: wc) (EElvis a c) false.
Proof.
  intros wa a wc c GA GC. apply good_intro; [lia|apply starts_app, (proj1 GA)|]. intros r s ST R V.
  repeat (rewrite <- app_assoc in R; cbn [app] in R).
  destruct (proj2 GA (T_QUESTION :: T_COLON :: wc ++ r) ltac:(vm_compute; reflexivity) s R V) as (ta & s1 & RU1 & RD1 & A1 & A2 & A3 & A4 & _).
  destruct (yylex_rest _ _ _ A1) as (Y1 & Y2 & Y3 & Y4 & _).
  destruct (yylex_rest _ _ _ Y1) as (Z1 & Z2 & Z3 & Z4 & _).
  destruct (proj2 GC r ST (yylex (yylex s1)) Z1 ltac:(congruence)) as (tc & s3 & RU3 & RD3 & C1 & C2 & C3 & C4 & _).
  exists ([ta] ++ [Leaf T_QUESTION (pos s1)] ++ [] ++ [Leaf T_COLON (pos (yylex s1))] ++ [tc]), s3.
  split; [|split; [cbn [map app read]; rewrite RD1, RD3; reflexivity|repeat split; try congruence; discriminate]].
  change (ntOf 6) with n_conditionalExpression in *. cbn [rule seqs alts]. eapply Runs_seq_ok; [exact RU1|].
  assert (YT : yytoken s1 = T_QUESTION) by exact (yytoken_cons _ _ _ A1).
  apply Runs_alt_l; [cbn [test]; unfold enters; rewrite YT; vm_compute; reflexivity|].
  eapply Runs_seq_ok; [apply Runs_tok, YT|]. eapply Runs_seq_ok.
  - apply Runs_opt_none; [discriminate|]. unfold enters. rewrite (yytoken_cons _ _ _ Y1). vm_compute. reflexivity.
  - eapply Runs_seq_ok; [apply Runs_tok; exact (yytoken_cons _ _ _ Y1)|exact RU3].
Qed.

(** ** Paths *)
Notation goodPart := (goodPart rs).
Notation goodSeg := (goodSeg rs).
Definition PathOf (e : ex) (w : list Tok) : Prop := exists b g gs,
  goodSeg g /\ baseOk b g /\ Forall goodSeg gs /\ w = pathText b g gs /\ e = pathVal b g gs
  /\ (callable e = true -> sCall (last gs g) = None).
Lemma PathOf_good : forall e w, PathOf e w -> Good 21 w e true.
Proof. intros e w (b & g & gs & G & OK & GS & -> & E & _). rewrite E. now apply path_good. Qed.

Definition addDim (g : seg) (p : part) : seg :=
  match sCall g with
  | None => {| sDims := sDims g ++ [p]; sCall := None |}
  | Some (a, d) => {| sDims := sDims g; sCall := Some (a, d ++ [p]) |}
  end.
Definition setCall (g : seg) (args : list part) : seg := {| sDims := sDims g; sCall := Some (args, []) |}.
Lemma dimsText_snoc : forall d p, dimsText (d ++ [p]) = dimsText d ++ dimText p.
Proof. intros d p. unfold dimsText. rewrite flat_map_app. cbn. now rewrite app_nil_r. Qed.
Lemma dimSteps_snoc : forall d p, dimSteps (d ++ [p]) = dimSteps d ++ [MIndex (snd p)].
Proof. intros d p. unfold dimSteps. now rewrite map_app. Qed.
Lemma addDim_text : forall g p, segText (addDim g p) = segText g ++ dimText p.
Proof.
  intros [ds [[a d]|]] p; unfold segText, addDim; cbn [sDims sCall callText]; rewrite dimsText_snoc.
  - now rewrite <- !app_assoc.
  - now rewrite !app_nil_r.
Qed.
Lemma addDim_steps : forall g p, segSteps (addDim g p) = segSteps g ++ [MIndex (snd p)].
Proof.
  intros [ds [[a d]|]] p; unfold segSteps, addDim; cbn [sDims sCall]; rewrite dimSteps_snoc.
  - now rewrite <- app_assoc.
  - now rewrite !app_nil_r.
Qed.
Lemma addDim_good : forall g p, goodSeg g -> goodPart p -> goodSeg (addDim g p).
Proof.
  intros [ds [[a d]|]] p [GD GC] GP; unfold addDim; split; cbn [sDims sCall] in *.
  - exact GD.
  - split; [tauto|]. apply Forall_app. split; [tauto|auto].
  - apply Forall_app. auto.
  - exact I.
Qed.
Lemma addDim_base : forall b g p, baseOk b g -> baseOk b (addDim g p) /\ baseVal b (addDim g p) = EIndex (baseVal b g) (snd p).
Proof.
  intros b g p OK. assert (S1 : forall e, apply e (segSteps (addDim g p)) = EIndex (apply e (segSteps g)) (snd p)).
  { intros e. rewrite addDim_steps. exact (apply_app e (segSteps g) [MIndex (snd p)]). }
  destruct b; unfold baseOk, baseVal in *; [split; [exact I|apply S1]| |split; [exact I|apply S1]|];
    destruct OK as [E N]; destruct (sCall g) as [[a d]|] eqn:C; try congruence; unfold addDim; rewrite C; cbn [sDims sCall];
    (split; [split; [exact E|discriminate]|]); rewrite dimSteps_snoc; rewrite apply_app; reflexivity.
Qed.
Lemma setCall_text : forall g args, sCall g = None -> segText (setCall g args) = segText g ++ T_LPAREN :: commas (map fst args) ++ [T_RPAREN].
Proof. intros [ds c] args E. cbn in E. subst c. unfold segText, setCall. cbn [sDims sCall callText dimsText flat_map]. now rewrite !app_nil_r. Qed.
Lemma setCall_steps : forall g args, sCall g = None -> segSteps (setCall g args) = segSteps g ++ [MInvoke (map snd args)].
Proof. intros [ds c] args E. cbn in E. subst c. unfold segSteps, setCall. cbn [sDims sCall dimSteps map]. now rewrite !app_nil_r. Qed.

Lemma last_app : forall (A : Type) (l : list A) x d, last (l ++ [x]) d = x.
Proof. intros A l x d. induction l as [|y l IH]; [reflexivity|]. cbn. destruct (l ++ [x]) eqn:E; [destruct l; discriminate|exact IH]. Qed.
Lemma propsText_snoc : forall gs g, propsText (gs ++ [g]) = propsText gs ++ T_OBJECT_OPERATOR :: T_STRING :: segText g.
Proof. intros gs g. unfold propsText. rewrite flat_map_app. cbn. now rewrite app_nil_r. Qed.
Lemma pathVal_snoc : forall b g gs l, pathVal b g (gs ++ [l]) = apply (EProp (pathVal b g gs)) (segSteps l).
Proof. intros b g gs l. unfold pathVal. rewrite flat_map_app, apply_app. cbn [flat_map]. rewrite app_nil_r. reflexivity. Qed.

Lemma path_index : forall a wa i wi, PathOf a wa -> Good 0 wi i false -> PathOf (EIndex a i) (wa ++ T_LBRACKET :: wi ++ [T_RBRACKET]).
Proof.
  intros a wa i wi (b & g & gs & G & OK & GS & -> & -> & CL) GI. set (p := (wi, i) : part).
  assert (GP : goodPart p) by exact GI. change (T_LBRACKET :: wi ++ [T_RBRACKET]) with (dimText p).
  assert (AN : forall h, sCall h = None -> sCall (addDim h p) = None) by (intros h E; unfold addDim; now rewrite E).
  destruct gs as [|l gs _] using rev_ind.
  - destruct (addDim_base b g p OK) as [OK' V']. exists b, (addDim g p), []. split; [now apply addDim_good|]. split; [exact OK'|]. split; [constructor|].
    split; [unfold pathText; cbn [propsText flat_map]; rewrite !app_nil_r, addDim_text, app_assoc; reflexivity|].
    split; [unfold pathVal; cbn [flat_map]; rewrite V'; reflexivity|]. cbn [callable last] in *. auto.
  - apply Forall_app in GS as [GS GL]. inversion GL as [|x y GL' _]; subst x y.
    exists b, g, (gs ++ [addDim l p]). split; [exact G|]. split; [exact OK|].
    split; [apply Forall_app; split; [exact GS|constructor; [now apply addDim_good|constructor]]|].
    split; [unfold pathText; rewrite !propsText_snoc, addDim_text, <- !app_assoc; reflexivity|].
    split; [rewrite !pathVal_snoc, addDim_steps, apply_app; reflexivity|]. rewrite last_app in *. cbn [callable]. auto.
Qed.
Lemma path_prop : forall a wa, PathOf a wa -> PathOf (EProp a) (wa ++ [T_OBJECT_OPERATOR; T_STRING]).
Proof.
  intros a wa (b & g & gs & G & OK & GS & -> & -> & CL). exists b, g, (gs ++ [{| sDims := []; sCall := None |}]).
  split; [exact G|]. split; [exact OK|]. split; [apply Forall_app; split; [exact GS|repeat constructor]|].
  split; [unfold pathText; rewrite propsText_snoc; cbn [segText sDims sCall dimsText callText flat_map app]; now rewrite <- !app_assoc|].
  split; [now rewrite pathVal_snoc|]. rewrite last_app. reflexivity.
Qed.
Lemma path_invoke : forall a wa args, PathOf a wa -> callable a = true -> Forall goodPart args ->
  PathOf (EInvoke a (map snd args)) (wa ++ T_LPAREN :: commas (map fst args) ++ [T_RPAREN]).
Proof.
  intros a wa args (b & g & gs & G & OK & GS & -> & -> & CL) CA GA. specialize (CL CA).
  destruct gs as [|l gs _] using rev_ind.
  - cbn [last] in CL. exists b, (setCall g args), []. split; [split; [exact (proj1 G)|split; [exact GA|constructor]]|].
    split; [destruct b; try exact I; exfalso; destruct OK; congruence|]. split; [constructor|].
    split; [unfold pathText; cbn [propsText flat_map]; rewrite !app_nil_r, (setCall_text g args CL), app_assoc; reflexivity|].
    split; [|discriminate]. unfold pathVal, baseVal. cbn [flat_map apply fold_left].
    assert (S1 : forall e, apply e (segSteps (setCall g args)) = EInvoke (apply e (segSteps g)) (map snd args)).
    { intros e. rewrite (setCall_steps g args CL). rewrite apply_app; reflexivity. }
    destruct b; try (exfalso; destruct OK; congruence); symmetry; apply S1.
  - rewrite last_app in CL. apply Forall_app in GS as [GS GL]. inversion GL as [|x y GL' _]; subst x y.
    exists b, g, (gs ++ [setCall l args]). split; [exact G|]. split; [exact OK|].
    split; [apply Forall_app; split; [exact GS|constructor; [split; [exact (proj1 GL')|split; [exact GA|constructor]]|constructor]]|].
    split; [unfold pathText; rewrite !propsText_snoc, (setCall_text l args CL), <- !app_assoc; reflexivity|].
    split; [rewrite !pathVal_snoc, (setCall_steps l args CL), apply_app; reflexivity|]. discriminate.
Qed.
Lemma path_var : PathOf EVar [T_VARIABLE].
Proof. exists BVar, {| sDims := []; sCall := None |}, []. repeat split; constructor. Qed.
Lemma path_static : PathOf EStatic [T_STRING; T_PAAMAYIM_NEKUDOTAYIM; T_VARIABLE].
Proof. exists BStatic, {| sDims := []; sCall := None |}, []. repeat split; constructor. Qed.
Lemma path_call : forall args, Forall goodPart args -> PathOf (ECall (map snd args)) (T_STRING :: T_LPAREN :: commas (map fst args) ++ [T_RPAREN]).
Proof.
  intros args GA. exists BName, {| sDims := []; sCall := Some (args, []) |}, []. split; [split; [constructor|split; [exact GA|constructor]]|].
  split; [split; [reflexivity|discriminate]|]. split; [constructor|].
  split; [unfold pathText; cbn [propsText flat_map baseText segText sDims sCall callText dimsText app]; now rewrite !app_nil_r|].
  split; [reflexivity|discriminate].
Qed.
Lemma path_scall : forall args, Forall goodPart args ->
  PathOf (ESCall (map snd args)) (T_STRING :: T_PAAMAYIM_NEKUDOTAYIM :: T_STRING :: T_LPAREN :: commas (map fst args) ++ [T_RPAREN]).
Proof.
  intros args GA. exists BMeth, {| sDims := []; sCall := Some (args, []) |}, []. split; [split; [constructor|split; [exact GA|constructor]]|].
  split; [split; [reflexivity|discriminate]|]. split; [constructor|].
  split; [unfold pathText; cbn [propsText flat_map baseText segText sDims sCall callText dimsText app]; now rewrite !app_nil_r|].
  split; [reflexivity|discriminate].
Qed.


Lemma PathOf_var : forall e w, PathOf e w -> goodVar rs (w, e).
Proof.
  intros e w (b & g & gs & G & OK & GS & -> & E & _). subst e. split; [destruct b; discriminate|]. split; [destruct b; cbn; tauto|].
  intros r EP. now apply takes_variable.
Qed.

(** What is reached from a new object. *)
Definition InstOf (e : ex) (w : list Tok) : Prop := exists c args gs g,
  goodArgs rs args /\ Forall goodSeg gs /\ goodSeg g /\ w = T_LPAREN :: newText c args ++ T_RPAREN :: propsText (gs ++ [g])
  /\ e = apply (newVal c args) (flat_map propSteps (gs ++ [g])) /\ (callable e = true -> sCall g = None).
Lemma InstOf_good : forall e w, InstOf e w -> Good 21 w e false.
Proof.
  intros e w (c & args & gs & g & GA & GS & G & -> & -> & _). apply inst_good; [exact GA|]. apply Forall_app. split; [exact GS|constructor; [exact G|constructor]].
Qed.
Lemma instVal_snoc : forall x gs g, apply x (flat_map propSteps (gs ++ [g])) = apply (EProp (apply x (flat_map propSteps gs))) (segSteps g).
Proof. intros x gs g. rewrite flat_map_app, apply_app. cbn [flat_map]. rewrite app_nil_r. reflexivity. Qed.
Lemma inst_new : forall c args, goodArgs rs args -> InstOf (EProp (newVal c args)) ((T_LPAREN :: newText c args ++ [T_RPAREN]) ++ [T_OBJECT_OPERATOR; T_STRING]).
Proof.
  intros c args GA. exists c, args, [], {| sDims := []; sCall := None |}. split; [exact GA|]. split; [constructor|]. split; [repeat constructor|].
  split; [cbn [app propsText flat_map propText segText sDims sCall dimsText callText]; now rewrite <- app_assoc|]. split; reflexivity.
Qed.
Lemma inst_index : forall a wa i wi, InstOf a wa -> Good 0 wi i false -> InstOf (EIndex a i) (wa ++ T_LBRACKET :: wi ++ [T_RBRACKET]).
Proof.
  intros a wa i wi (c & args & gs & g & GA & GS & G & -> & -> & CL) GI. set (p := (wi, i) : part).
  change (T_LBRACKET :: wi ++ [T_RBRACKET]) with (dimText p). exists c, args, gs, (addDim g p).
  split; [exact GA|]. split; [exact GS|]. split; [apply addDim_good; [exact G|exact GI]|].
  split; [rewrite !propsText_snoc, addDim_text; cbn [app]; rewrite <- !app_assoc; cbn [app]; rewrite <- !app_assoc; reflexivity|].
  split; [rewrite !instVal_snoc, addDim_steps, apply_app; reflexivity|]. cbn [callable]. intros H. specialize (CL H). unfold addDim. now rewrite CL.
Qed.
Lemma inst_prop : forall a wa, InstOf a wa -> InstOf (EProp a) (wa ++ [T_OBJECT_OPERATOR; T_STRING]).
Proof.
  intros a wa (c & args & gs & g & GA & GS & G & -> & -> & CL). exists c, args, (gs ++ [g]), {| sDims := []; sCall := None |}.
  split; [exact GA|]. split; [apply Forall_app; split; [exact GS|constructor; [exact G|constructor]]|]. split; [repeat constructor|].
  split; [rewrite (propsText_snoc (gs ++ [g])); cbn [segText sDims sCall dimsText callText flat_map app]; rewrite <- !app_assoc; reflexivity|].
  split; [now rewrite (instVal_snoc _ (gs ++ [g]))|]. reflexivity.
Qed.
Lemma inst_invoke : forall a wa args, InstOf a wa -> callable a = true -> Forall goodPart args ->
  InstOf (EInvoke a (map snd args)) (wa ++ T_LPAREN :: commas (map fst args) ++ [T_RPAREN]).
Proof.
  intros a wa args (c & args0 & gs & g & GA & GS & G & -> & -> & CL) C GG. specialize (CL C). exists c, args0, gs, (setCall g args).
  split; [exact GA|]. split; [exact GS|]. split; [split; [exact (proj1 G)|split; [exact GG|constructor]]|].
  split; [rewrite !propsText_snoc, (setCall_text g args CL); cbn [app]; rewrite <- !app_assoc; cbn [app]; rewrite <- !app_assoc; reflexivity|].
  split; [rewrite !instVal_snoc, (setCall_steps g args CL), apply_app; reflexivity|]. discriminate.
Qed.

(** Elements of an array literal. *)
Definition ElemOf (e : ex) (w : list Tok) : Prop := exists short comma l ds,
  (forall n, In n l -> goodEntry rs n) /\ (comma = true -> l <> []) /\ Forall goodPart ds
  /\ w = aText short comma l ++ dimsText ds /\ e = apply (EArray short comma l) (dimSteps ds).
Lemma ElemOf_good : forall e w, ElemOf e w -> Good 20 w e false.
Proof. intros e w (short & comma & l & ds & G & C & GD & -> & ->). now apply array_good. Qed.
Lemma elem_index : forall a wa i wi, ElemOf a wa -> Good 0 wi i false -> ElemOf (EIndex a i) (wa ++ T_LBRACKET :: wi ++ [T_RBRACKET]).
Proof.
  intros a wa i wi (short & comma & l & ds & G & C & GD & -> & ->) GI. set (p := (wi, i) : part). change (T_LBRACKET :: wi ++ [T_RBRACKET]) with (dimText p).
  exists short, comma, l, (ds ++ [p]). split; [exact G|]. split; [exact C|]. split; [apply Forall_app; split; [exact GD|constructor; [exact GI|constructor]]|].
  split; [rewrite dimsText_snoc, app_assoc; reflexivity|]. rewrite dimSteps_snoc. symmetry. rewrite apply_app; reflexivity.
Qed.

(** Texts that begin with new. *)
Definition NewStart0 (w : list Tok) (e : ex) : Prop := hd T_EOF w = T_NEW -> exists c args w2, goodArgs rs args /\ w = newText c args ++ w2
  /\ ((w2 = [] /\ e = newVal c args) \/ ((forall c a, e <> ENew c a) /\ w2 <> [] /\ hd T_EOF w2 <> T_RPAREN /\ endsPath w2)).
Lemma newStart_ok0 : forall w e, NewStart0 w e -> newOk rs w e.
Proof.
  intros w e H N. destruct (H N) as (c & args & w2 & GA & -> & C). exists (newText c args), w2, (newVal c args). split; [reflexivity|].
  split; [destruct C as [[-> ->]|(_ & N2 & N3 & _)]; [left; split; reflexivity|right; split; assumption]|].
  intros r s R V. rewrite <- app_assoc in R.
  assert (EP : endsPath (w2 ++ T_RPAREN :: r)).
  { destruct C as [[-> _]|(_ & N2 & _ & EP)]; [repeat split; discriminate|]. unfold endsPath, quiet, nodim in *. now rewrite hd_app. }
  destruct (takes_new rs c args _ GA EP s R V) as (ts & s' & RU & RD & A1 & A2 & A3 & A4).
  destruct ts as [|t [|t2 ts]]; try discriminate RD. injection RD as RD. exists t, s'. repeat split; assumption.
Qed.
(** Texts that begin with new or function. *)
Definition NewStart (w : list Tok) (e : ex) : Prop := NewStart0 w e /\ funStart w.
Definition starter (k : Tok) : bool := match k with T_NEW | T_FUNCTION => true | _ => false end.
Lemma newStart_ok : forall w e, NewStart w e -> newOk rs w e.
Proof. intros w e [H _]. now apply newStart_ok0. Qed.
Lemma newStart_no : forall w e, starter (hd T_EOF w) <> true -> NewStart w e.
Proof. intros w e N. split; intros H; rewrite H in N; exfalso; apply N; reflexivity. Qed.
Definition follows : list Tok := T_QUESTION :: T_INSTANCEOF :: map opTok allBin ++ map asgTok allAsg.
Lemma newStart_left : forall l a w e k w', (forall c a, e <> ENew c a) -> starts 21 w \/ w <> [] -> NewStart w a -> In k follows -> NewStart (wrap l a w ++ k :: w') e.
Proof.
  intros l a w e k w' NN NE [H0 HF] K. unfold wrap. destruct (level a <? l); [apply newStart_no; discriminate|]. split.
  2:{ assert (NW : w <> []) by (destruct NE as [[X _]|X]; exact X). intros N. rewrite hd_app in N by exact NW. destruct (HF N) as (f & w2 & OK & -> & CS).
      exists f, (w2 ++ k :: w'). split; [exact OK|]. split; [now rewrite <- app_assoc|]. right. split; [destruct w2; discriminate|].
      destruct CS as [->|[N2 N3]]; [|rewrite hd_app by exact N2; exact N3]. cbn [app hd]. cbn in K. repeat (destruct K as [<-|K]; [discriminate|]). contradiction. }
  rename H0 into H. assert (NW : w <> []) by (destruct NE as [[X _]|X]; exact X). intros N. rewrite hd_app in N by exact NW. destruct (H N) as (c & args & w2 & GA & -> & C).
  exists c, args, (w2 ++ k :: w'). split; [exact GA|]. split; [now rewrite <- app_assoc|]. right. split; [exact NN|].
  split; [destruct w2; discriminate|].
  assert (KE : endsPath (k :: w') /\ k <> T_RPAREN).
  { unfold endsPath, quiet, nodim. cbn [hd]. cbn in K. repeat (destruct K as [<-|K]; [repeat split; discriminate|]). contradiction. }
  destruct C as [[-> _]|(_ & N2 & N3 & EP)]; [exact (conj (proj2 KE) (proj1 KE))|]. unfold endsPath, quiet, nodim in *. rewrite hd_app by exact N2. split; [exact N3|exact EP].
Qed.
Lemma op_follows : forall o, In (opTok o) follows.
Proof. intros o. right. right. apply in_or_app. left. apply in_map. destruct o; cbn; tauto. Qed.
Lemma asg_follows : forall o, In (asgTok o) follows.
Proof. intros o. right. right. apply in_or_app. right. apply in_map. destruct o; cbn; tauto. Qed.

(** ** Every expression *)
Lemma read_le : forall e, readLevel e <= 21.
Proof. intros e. destruct e; unfold readLevel; try lia; try (apply Nat.le_min_l); [destruct o; try (apply Nat.le_min_l); lia|]. destruct (element _); lia. Qed.
Definition chained (e : ex) : Prop :=
  match e with
  | EBin OExp _ _ => Chain rs 17 (text e) e
  | EBin o _ _ => match opAssoc o with LeftAssoc => Chain rs (opLevel o) (text e) e | RightAssoc => ChainR rs (text e) e | NonAssoc => True end
  | _ => True
  end.
Lemma same_left : forall a l, leftLevels l = true -> readLevel a = l -> chained a -> Chain rs l (text a) a.
Proof.
  intros a l H E C. destruct a as [| |o b c| | | | | | | | | | | | |a i| | | | | | | | | | | | | | | |]; try (cbn in E; subst l; discriminate H).
  - cbn [chained] in C. destruct o; cbn in E; subst l; try discriminate H; exact C.
  - unfold readLevel in E. destruct (element _); subst l; discriminate H.
Qed.
Lemma chain_snoc : forall l wa a o wb b, leftLevels l = true -> gOp o = l ->
  Chain rs l wa a -> Good (S l) wb b false -> Chain rs l (wa ++ opTok o :: wb) (EBin o a b).
Proof.
  intros l wa a o wb b LL OL (w0 & e0 & ps & -> & G & PS & PK & LO) GB.
  exists w0, e0, (ps ++ [(opTok o, wb, b)]). split; [|split; [exact G|split; [|split]]].
  - unfold chainText. rewrite flat_map_app. cbn. rewrite app_nil_r, <- app_assoc. reflexivity.
  - apply Forall_app. split; [exact PS|]. constructor; [exact GB|constructor].
  - apply Forall_app. split; [exact PK|]. constructor; [exists o; auto|constructor].
  - rewrite (leftOf_app _ _ _ _ LO). cbn [leftOf]. now rewrite binOf_opTok.
Qed.
Lemma chain_one : forall l w e, Good (S l) w e false -> Chain rs l w e.
Proof. intros l w e G. exists w, e, []. split; [cbn; now rewrite app_nil_r|]. split; [exact G|]. repeat split; constructor. Qed.

Lemma left_facts : forall o, opAssoc o = LeftAssoc -> leftLevels (opLevel o) = true /\ opLevel o < 21 /\ gOp o = opLevel o /\ leftLevel o = opLevel o /\ rightLevel o = S (opLevel o).
Proof. intros []; intros H; try discriminate H; repeat split; try reflexivity; try discriminate; cbn; lia. Qed.
Lemma non_facts : forall o, opAssoc o = NonAssoc -> nonLevel (opLevel o) = true /\ S (opLevel o) <= 21 /\ leftLevel o = S (opLevel o) /\ rightLevel o = S (opLevel o).
Proof. intros []; intros H; try discriminate H; repeat split; try reflexivity; cbn; lia. Qed.

(** Induction on expressions. *)
Definition entrySubs (n : entry ex) : list ex := match n with NVal a => [a] | NPair k a => [k; a] | NRef v => [v] | NPairRef k v => [k; v] end.
Definition bitSubs (b : bit ex) : list ex := match b with BCurly a => [a] | _ => [] end.
Definition optSubs (o : option ex) : list ex := match o with Some a => [a] | None => [] end.
Definition subs (e : ex) : list ex :=
  match e with
  | EVar | ENum | EConst | EClassConst | EStatic | ELit _ => []
  | EBin _ a b | EAsg _ a b | EElvis a b | EIndex a b => [a; b]
  | EUn _ a | EPrint a | EInstanceof a | EInclude _ a | EProp a | EEmpty a | EEval a | EClone a | EIncDec _ _ a | EYieldFrom a => [a]
  | ECond a b c => [a; b; c]
  | ECall l | ESCall l | EIsset l => l
  | EInvoke a l => a :: l
  | EString _ l => flat_map bitSubs l
  | EArray _ _ l => flat_map entrySubs l
  | ENew _ None => []
  | ENew _ (Some l) => l
  | EExit (Some (Some a)) => [a]
  | EExit _ => []
  | EList l a => a :: flat_map optSubs l
  | EYield None => []
  | EYield (Some (None, a)) => [a]
  | EYield (Some (Some k, a)) => [k; a]
  | EClosure _ => []
  end.
Lemma ex_induction : forall P : ex -> Prop, (forall e, (forall a, In a (subs e) -> P a) -> P e) -> forall e, P e.
Proof.
  intros P H. fix IH 1. intros e.
  pose (L := fix IHL (l : list ex) : forall a, In a l -> P a :=
    match l with [] => fun a I => match I with end | x :: r => fun a I => match I with or_introl E => eq_ind x P (IH x) a E | or_intror I' => IHL r a I' end end).
  apply H. destruct e as [| |o a b|o a|o v a|a b c|a c|a|a|k a| | |l| |l|a i|a|a l|k|q l|s c l|c args|l|a|a|o|a|pre inc v|l a|o|a|f]; cbn [subs].
  all: try (intros x [<-|[<-|[<-|[]]]]; apply IH).
  all: try (intros x [<-|[<-|[]]]; apply IH).
  all: try (intros x [<-|[]]; apply IH).
  all: try (intros x []; fail).
  - exact (L l).
  - exact (L l).
  - intros x [<-|Hx]; [apply IH|exact (L l x Hx)].
  - induction l as [|b l IHl]; [contradiction|]. intros x Hx. cbn [flat_map] in Hx. apply in_app_or in Hx as [Hx|Hx]; [|exact (IHl x Hx)].
    destruct b as [| | |f|a]; try contradiction. destruct Hx as [<-|[]]. apply IH.
  - induction l as [|n l IHl]; [contradiction|]. intros x Hx. cbn [flat_map] in Hx. apply in_app_or in Hx as [Hx|Hx]; [|exact (IHl x Hx)].
    destruct n as [a|k a|v|k v]; cbn [entrySubs] in Hx; [destruct Hx as [<-|[]]|destruct Hx as [<-|[<-|[]]]|destruct Hx as [<-|[]]|destruct Hx as [<-|[<-|[]]]]; apply IH.
  - destruct args as [l|]; [exact (L l)|contradiction].
  - exact (L l).
  - destruct o as [[a|]|]; try contradiction. intros x [<-|[]]. apply IH.
  - intros x [<-|Hx]; [apply IH|]. revert x Hx. induction l as [|o l IHl]; [contradiction|]. intros x Hx. cbn [flat_map] in Hx. apply in_app_or in Hx as [Hx|Hx]; [|exact (IHl x Hx)].
    destruct o as [v|]; try contradiction. destruct Hx as [<-|[]]. apply IH.
  - destruct o as [[[k|] a]|]; [intros x [<-|[<-|[]]]; apply IH|intros x [<-|[]]; apply IH|contradiction].
Qed.
End All.
