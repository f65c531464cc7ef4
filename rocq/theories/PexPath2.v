(** Whole paths. *)
From Coq Require Import List Bool NArith ZArith Lia Arith.
From Verif Require Import Chars LexModel ParseModel ParseSpec ParseProofs PexSpec PexProofs PexProofs2 PexProofs4 PexPath.
Import ListNotations.
Open Scope nat_scope.

Section Path.
Variable rs : Gen.
Context {Fs : Functions} {FsR : FunctionsRead rs}.
Notation Good := (Good rs).
Notation Takes := (Takes rs).
Notation Refuses := (Refuses rs).
Notation goodPart := (goodPart rs).
Notation goodSeg := (goodSeg rs).

Lemma takes_one : forall a sep brk w r v, hd T_EOF r <> sep -> Takes a w r v -> Takes (IList a sep brk) w r v.
Proof.
  intros a sep brk w r v N T s R V. destruct (T s R V) as (ts & s' & RU & RD & C). exists ts, s'. split; [|split; [exact RD|exact C]].
  apply Runs_list_stop; [exact RU|]. rewrite (yytoken_hd _ _ (proj1 C)). now apply teq_neq.
Qed.
Ltac yes := apply takes_alt_l; [vm_compute; reflexivity|].
Ltac no := apply takes_alt_r; [vm_compute; reflexivity|].

Lemma takes_ident : forall r, Takes (IN n_identifier) [T_STRING] r [VNone].
Proof. intros r. eapply takes_N; [vm_compute; reflexivity|cbn [rule]; apply takes_tok|reflexivity]. Qed.
Lemma takes_name : forall r, hd T_EOF r <> T_BACKSLASH -> Takes (IN n_namespacedIdentifier) [T_STRING] r [VNone].
Proof.
  intros r N. eapply takes_N; [vm_compute; reflexivity| |].
  - cbn [rule seqs alts]. apply (takes_seq rs _ _ [] [T_STRING] r [] [VNone]).
    + no. yes. apply takes_eps.
    + apply takes_one; [exact N|]. apply takes_ident.
  - reflexivity.
Qed.
Lemma takes_semi : forall r, Takes (IN n_semiReservedIdentifier) [T_STRING] r [VNone].
Proof. intros r. eapply takes_N; [vm_compute; reflexivity|cbn [rule alts]; yes; apply takes_ident|reflexivity]. Qed.
Lemma takes_var : forall r, Takes (IN n_compoundVariableWithSimpleIndirectReference) [T_VARIABLE] r [VEx EVar].
Proof.
  intros r. eapply takes_N; [vm_compute; reflexivity| |].
  - cbn [rule alts]. no. yes. eapply takes_N; [vm_compute; reflexivity|cbn [rule]; apply takes_tok|reflexivity].
  - reflexivity.
Qed.

Definition nodim (r : list Tok) : Prop := hd T_EOF r <> T_LBRACKET /\ hd T_EOF r <> T_LBRACE.
Definition quiet (r : list Tok) : Prop := nodim r /\ hd T_EOF r <> T_LPAREN /\ hd T_EOF r <> T_BACKSLASH.

Lemma apply_app : forall e a b, apply e (a ++ b) = apply (apply e a) b.
Proof. intros e a b. apply fold_left_app. Qed.
Lemma modified_dims : forall e ds, modified e (dimVals ds) = VEx (apply e (dimSteps ds)).
Proof. intros e ds. unfold modified. now rewrite mods_dims. Qed.

Lemma takes_woo : forall ds r, Forall goodPart ds -> nodim r ->
  Takes (IN n_variableWithoutObjects) (T_VARIABLE :: dimsText ds) r [VEx (apply EVar (dimSteps ds))].
Proof.
  intros ds r F [N1 N2]. eapply takes_N; [vm_compute; reflexivity| |].
  - cbn [rule seqs]. apply (takes_seq rs _ _ [T_VARIABLE] (dimsText ds) r [VEx EVar] (dimVals ds)); [apply takes_var|now apply takes_dims].
  - cbn [app readNode]. apply modified_dims.
Qed.
Lemma asStatic_apply : forall ds, asStatic (apply EVar (dimSteps ds)) = apply EStatic (dimSteps ds).
Proof.
  intros ds. assert (H : forall ds e, asStatic (apply e (dimSteps ds)) = apply (asStatic e) (dimSteps ds)).
  { clear. induction ds as [|p ds IH]; intros e; [reflexivity|]. cbn [dimSteps map apply fold_left]. exact (IH (EIndex e (snd p))). }
  exact (H ds EVar).
Qed.

(** ** The beginning *)
Inductive base := BVar | BName | BStatic | BMeth.
Definition baseText (b : base) : list Tok :=
  match b with
  | BVar => [T_VARIABLE] | BName => [T_STRING] | BStatic => [T_STRING; T_PAAMAYIM_NEKUDOTAYIM; T_VARIABLE]
  | BMeth => [T_STRING; T_PAAMAYIM_NEKUDOTAYIM; T_STRING]
  end.
Definition baseOk (b : base) (g : seg) : Prop :=
  match b with BVar | BStatic => True | BName | BMeth => sDims g = [] /\ sCall g <> None end.
Definition baseVal (b : base) (g : seg) : ex :=
  match b, sCall g with
  | BVar, _ => apply EVar (segSteps g)
  | BStatic, _ => apply EStatic (segSteps g)
  | BName, Some (a, d) => apply (ECall (map snd a)) (dimSteps d)
  | BMeth, Some (a, d) => apply (ESCall (map snd a)) (dimSteps d)
  | _, None => EVar
  end.

Ltac rno := apply refuses_alt_r; [vm_compute; reflexivity|].
Ltac ryes := apply refuses_alt_l; [vm_compute; reflexivity|].

Lemma takes_N' : forall n w r vs v, negb (isClosure n) && enters (rule n) (at_ (w ++ r)) = true ->
  Takes (rule n) w r vs -> readNode n vs = v -> Takes (IN n) w r [v].
Proof. exact (takes_N rs). Qed.

Lemma call_hd : forall a (w : list Tok), nodim ((T_LPAREN :: commas (map fst (a : list part)) ++ [T_RPAREN]) ++ w).
Proof. intros a w. split; discriminate. Qed.

Lemma takes_base : forall b g r, goodSeg g -> baseOk b g -> quiet r ->
  Takes (IN n_baseVariableWithFunctionCalls) (baseText b ++ segText g) r [VEx (baseVal b g)].
Proof.
  intros b [ds c] r [GD GC] OK ((N1 & N2) & N3 & N4). cbn [sDims sCall] in *. unfold segText. cbn [sDims sCall].
  destruct c as [[a d]|].
  - destruct GC as [GA GD2]. set (call := T_LPAREN :: commas (map fst a) ++ [T_RPAREN]) in *.
    assert (FC : forall w v, Takes (IN n_functionCall) w (dimsText d ++ r) [VEx v] -> enters (rule n_baseVariableWithFunctionCalls) (at_ (w ++ dimsText d ++ r)) = true ->
              Takes (IN n_baseVariableWithFunctionCalls) (w ++ dimsText d) r [VEx (apply v (dimSteps d))]).
    { intros w v T E. eapply takes_N'; [now rewrite <- app_assoc| |].
      - cbn [rule]. apply takes_rollback. cbn [seqs]. apply (takes_seq rs _ _ w (dimsText d) r [VEx v] (dimVals d)); [exact T|].
        now apply takes_indices.
      - cbn [app readNode]. apply modified_dims. }
    cbn [callText]. fold call. unfold baseVal, segSteps. cbn [sDims sCall].
    destruct b; cbn [baseText baseOk sDims sCall] in *.
    + rewrite apply_app. replace ([T_VARIABLE] ++ dimsText ds ++ call ++ dimsText d) with (((T_VARIABLE :: dimsText ds) ++ call) ++ dimsText d)
        by (cbn [app]; now rewrite <- !app_assoc).
      change (apply (apply EVar (dimSteps ds)) (MInvoke (map snd a) :: dimSteps d)) with (apply (EInvoke (apply EVar (dimSteps ds)) (map snd a)) (dimSteps d)).
      apply FC; [|vm_compute; reflexivity]. eapply takes_N'; [vm_compute; reflexivity| |].
      * cbn [rule alts]. no. yes.
        change (seqs [IN n_variableWithoutObjects; IT T_LPAREN; IN n_functionCallParameterList; IT T_RPAREN]) with
          (ISeq (IN n_variableWithoutObjects) (seqs [IT T_LPAREN; IN n_functionCallParameterList; IT T_RPAREN])).
        eapply takes_seq; [apply takes_woo; [exact GD|apply call_hd]|apply takes_call, GA].
      * reflexivity.
    + destruct OK as [-> _]. cbn [dimsText flat_map app].
      change (T_STRING :: call ++ dimsText d) with (([T_STRING] ++ call) ++ dimsText d).
      apply FC; [|vm_compute; reflexivity]. eapply takes_N'; [vm_compute; reflexivity| |].
      * cbn [rule alts]. yes. cbn [seqs]. eapply takes_seq; [apply takes_name; discriminate|]. yes. apply takes_call, GA.
      * reflexivity.
    + rewrite apply_app.
      replace ([T_STRING; T_PAAMAYIM_NEKUDOTAYIM; T_VARIABLE] ++ dimsText ds ++ call ++ dimsText d)
        with (([T_STRING] ++ [T_PAAMAYIM_NEKUDOTAYIM] ++ (T_VARIABLE :: dimsText ds) ++ call) ++ dimsText d)
        by (cbn [app]; now rewrite <- !app_assoc).
      change (apply (apply EStatic (dimSteps ds)) (MInvoke (map snd a) :: dimSteps d)) with (apply (EInvoke (apply EStatic (dimSteps ds)) (map snd a)) (dimSteps d)).
      rewrite <- asStatic_apply.
      apply FC; [|vm_compute; reflexivity]. eapply takes_N'; [vm_compute; reflexivity| |].
      * cbn [rule alts]. yes. cbn [seqs]. eapply takes_seq; [apply takes_name; discriminate|]. no. yes.
        cbn [seqs]. eapply takes_seq; [apply takes_tok|]. no. yes.
        change (seqs [IN n_variableWithoutObjects; IT T_LPAREN; IN n_functionCallParameterList; IT T_RPAREN]) with
          (ISeq (IN n_variableWithoutObjects) (seqs [IT T_LPAREN; IN n_functionCallParameterList; IT T_RPAREN])).
        eapply takes_seq; [apply takes_woo; [exact GD|apply call_hd]|apply takes_call, GA].
      * reflexivity.
    + destruct OK as [-> _]. cbn [dimsText flat_map app].
      change (T_STRING :: T_PAAMAYIM_NEKUDOTAYIM :: T_STRING :: call ++ dimsText d) with
        (([T_STRING] ++ [T_PAAMAYIM_NEKUDOTAYIM] ++ [T_STRING] ++ call) ++ dimsText d).
      apply FC; [|vm_compute; reflexivity]. eapply takes_N'; [vm_compute; reflexivity| |].
      * cbn [rule alts]. yes. cbn [seqs]. eapply takes_seq; [apply takes_name; discriminate|]. no. yes.
        cbn [seqs]. eapply takes_seq; [apply takes_tok|]. yes.
        change (seqs [IN n_semiReservedIdentifier; IT T_LPAREN; IN n_functionCallParameterList; IT T_RPAREN]) with
          (ISeq (IN n_semiReservedIdentifier) (seqs [IT T_LPAREN; IN n_functionCallParameterList; IT T_RPAREN])).
        eapply takes_seq; [apply takes_semi|apply takes_call, GA].
      * reflexivity.
  - cbn [callText]. rewrite app_nil_r. unfold baseVal, segSteps. cbn [sDims sCall]. rewrite app_nil_r.
    destruct b; cbn [baseText baseOk sDims sCall] in *; try (exfalso; now apply (proj2 OK)).
    + cbn [app]. eapply takes_N'; [vm_compute; reflexivity| |].
      * cbn [rule]. apply takes_catch.
        -- cbn [seqs]. apply refuses_seq_l. apply refuses_N; [vm_compute; reflexivity|]. cbn [rule alts]. rno. ryes. cbn [seqs].
           eapply refuses_seq_r; [apply takes_woo; [exact GD|split; assumption]|]. apply refuses_seq_l. now apply refuses_tok.
        -- eapply takes_N'; [vm_compute; reflexivity| |].
           ++ cbn [rule alts]. yes. cbn [seqs].
              apply (takes_seq rs _ _ [T_VARIABLE] (dimsText ds) r [VEx EVar] (dimVals ds)); [apply takes_var|now apply takes_dims].
           ++ cbn [app readNode]. apply modified_dims.
      * reflexivity.
    + change ([T_STRING; T_PAAMAYIM_NEKUDOTAYIM; T_VARIABLE] ++ dimsText ds) with ([T_STRING] ++ [T_PAAMAYIM_NEKUDOTAYIM] ++ (T_VARIABLE :: dimsText ds)).
      eapply takes_N'; [vm_compute; reflexivity| |].
      * cbn [rule]. apply takes_catch.
        -- cbn [seqs]. apply refuses_seq_l. apply refuses_N; [vm_compute; reflexivity|]. cbn [rule alts]. ryes. cbn [seqs].
           rewrite <- !app_assoc. eapply refuses_seq_r; [apply takes_name; discriminate|]. rno. ryes. cbn [seqs].
           eapply refuses_seq_r; [apply takes_tok|]. rno. ryes. cbn [seqs].
           eapply refuses_seq_r; [apply takes_woo; [exact GD|split; assumption]|]. apply refuses_seq_l. now apply refuses_tok.
        -- eapply takes_N'; [vm_compute; reflexivity| |].
           ++ cbn [rule alts]. no. yes. eapply takes_N'; [vm_compute; reflexivity| |].
              ** cbn [rule seqs]. eapply takes_seq; [apply takes_name; discriminate|].
                 eapply takes_N'; [vm_compute; reflexivity| |].
                 --- cbn [rule seqs]. eapply takes_seq; [apply takes_tok|].
                     apply (takes_seq rs _ _ [T_VARIABLE] (dimsText ds) r [VEx EVar] (dimVals ds)); [apply takes_var|now apply takes_dims].
                 --- cbn [app readNode]. apply modified_dims.
              ** reflexivity.
           ++ reflexivity.
      * reflexivity.
Qed.

(** ** [->name..] *)
Definition propText (g : seg) : list Tok := T_OBJECT_OPERATOR :: T_STRING :: segText g.
Definition propSteps (g : seg) : list step := MProp :: segSteps g.
Lemma takes_vprop : forall g r, goodSeg g -> quiet r -> Takes (IN n_variableProperty) (T_STRING :: segText g) r [VMods (propSteps g)].
Proof.
  intros [ds c] r [GD GC] ((N1 & N2) & N3 & N4). cbn [sDims sCall] in *. unfold propSteps, segText, segSteps. cbn [sDims sCall].
  assert (DL : forall r, nodim r -> Takes (IN n_objectProperty) (T_STRING :: dimsText ds) r [VMods (MProp :: dimSteps ds)]).
  { intros r0 [M1 M2]. eapply takes_N'; [vm_compute; reflexivity| |].
    - cbn [rule alts]. yes. eapply takes_N'; [vm_compute; reflexivity| |].
      + cbn [rule seqs]. apply (takes_seq rs _ _ [T_STRING] (dimsText ds) r0 [VNone] (dimVals ds)); [|now apply takes_dims].
        eapply takes_N'; [vm_compute; reflexivity|cbn [rule alts]; yes; apply takes_ident|reflexivity].
      + cbn [app readNode]. rewrite mods_dims. reflexivity.
    - reflexivity. }
  change (T_STRING :: dimsText ds ++ callText c) with ((T_STRING :: dimsText ds) ++ callText c).
  destruct c as [[a d]|].
  * destruct GC as [GA GD2]. cbn [callText]. eapply takes_N'; [vm_compute; reflexivity| |].
    -- cbn [rule seqs]. eapply takes_seq; [cbn [alts]; apply takes_alt_r; [vm_compute; reflexivity|]; yes; apply DL; split; discriminate|].
       cbn [alts]. yes.
       change (T_LPAREN :: commas (map fst a) ++ [T_RPAREN]) with ([T_LPAREN] ++ (commas (map fst a) ++ [T_RPAREN])).
       rewrite <- !app_assoc. eapply takes_seq; [apply takes_tok|].
       eapply takes_seq; [exact (takes_args rs a (dimsText d ++ r) GA)|]. eapply takes_seq; [apply takes_tok|]. now apply takes_indices.
    -- cbn [app readNode]. rewrite mods_dims. reflexivity.
  * cbn [callText]. rewrite !app_nil_r. eapply takes_N'; [vm_compute; reflexivity| |].
    -- cbn [rule seqs]. rewrite <- (app_nil_r (T_STRING :: dimsText ds)). eapply takes_seq; [cbn [alts]; apply takes_alt_r; [vm_compute; reflexivity|]; yes; apply DL; split; assumption|].
       cbn [alts]. apply takes_alt_r; [|yes; apply takes_eps].
       cbn [test]. unfold enters. rewrite (yytoken_hd (at_ ([] ++ r)) r eq_refl). apply orb_false_iff. split; [reflexivity|].
       change (mem (hd T_EOF r) (single T_LPAREN) = false). rewrite mem_single. now apply teq_neq.
    -- reflexivity.
Qed.
Lemma takes_prop : forall g r, goodSeg g -> quiet r -> Takes (IN n_variableObjectProperty) (propText g) r [VMods (propSteps g)].
Proof.
  intros g r G Q. eapply takes_N'; [vm_compute; reflexivity| |].
  - cbn [rule seqs]. apply (takes_seq rs _ _ [T_OBJECT_OPERATOR] (T_STRING :: segText g) r [VTok T_OBJECT_OPERATOR] [VMods (propSteps g)]).
    + eapply takes_N'; [vm_compute; reflexivity|cbn [rule alts]; yes; apply takes_tok|reflexivity].
    + now apply takes_vprop.
  - reflexivity.
Qed.

Definition propsText (gs : list seg) : list Tok := flat_map propText gs.
Lemma quiet_props : forall gs r, quiet r -> quiet (propsText gs ++ r).
Proof. intros [|g gs] r H; [exact H|]. unfold quiet, nodim. cbn. repeat split; discriminate. Qed.
Lemma takes_props : forall gs r, Forall goodSeg gs -> quiet r ->
  hd T_EOF r <> T_OBJECT_OPERATOR -> hd T_EOF r <> T_PAAMAYIM_NEKUDOTAYIM ->
  Takes (IStar (IN n_variableObjectProperty)) (propsText gs) r (map (fun g => VMods (propSteps g)) gs).
Proof.
  intros gs r F Q N1 N2. induction F as [|g gs G F IH].
  - apply takes_star_stop.
    assert (H : forall k, mem k (first (IN n_variableObjectProperty)) = existsb (teq k) [T_OBJECT_OPERATOR; T_PAAMAYIM_NEKUDOTAYIM]).
    { intros k. rewrite <- mem_setOf. f_equal. }
    rewrite H. cbn [existsb]. rewrite (proj2 (teq_neq _ _) N1), (proj2 (teq_neq _ _) N2). reflexivity.
  - cbn [propsText flat_map map]. eapply (takes_star_go rs _ _ _ _ [_]); [vm_compute; reflexivity| |exact IH].
    apply takes_prop; [exact G|]. now apply quiet_props.
Qed.
Lemma mods_props : forall gs, mods (map (fun g => VMods (propSteps g)) gs) = Some (flat_map propSteps gs).
Proof. induction gs as [|g gs IH]; [reflexivity|]. cbn [map mods flat_map]. now rewrite IH. Qed.

Definition endsPath (r : list Tok) : Prop := quiet r /\ hd T_EOF r <> T_OBJECT_OPERATOR /\ hd T_EOF r <> T_PAAMAYIM_NEKUDOTAYIM.
Lemma stops_ends : forall r, stops 21 r -> endsPath r.
Proof.
  intros r ST. unfold stops in ST. unfold endsPath, quiet, nodim.
  repeat split; intros E; rewrite E in ST; discriminate ST.
Qed.
Definition pathVal (b : base) (g : seg) (gs : list seg) : ex := apply (baseVal b g) (flat_map propSteps gs).
Definition pathText (b : base) (g : seg) (gs : list seg) : list Tok := (baseText b ++ segText g) ++ propsText gs.

Lemma takes_variable : forall b g gs r, goodSeg g -> baseOk b g -> Forall goodSeg gs -> endsPath r ->
  Takes (IN n_variable) (pathText b g gs) r [VEx (pathVal b g gs)].
Proof.
  intros b g gs r G OK GS (Q & E1 & E2). eapply takes_N'.
  - destruct b; vm_compute; reflexivity.
  - cbn [rule seqs]. unfold pathText. eapply takes_seq; [apply takes_base; [exact G|exact OK|now apply quiet_props]|]. now apply takes_props.
  - cbn [app readNode]. unfold modified. rewrite mods_props. reflexivity.
Qed.

Theorem path_good : forall b g gs, goodSeg g -> baseOk b g -> Forall goodSeg gs ->
  Good 21 (pathText b g gs) (pathVal b g gs) true.
Proof.
  intros b g gs G OK GS. apply good_intro; [lia|split; [destruct b; discriminate|destruct b; cbn; tauto]|].
  intros r s ST R V.
  destruct (takes_variable b g gs r G OK GS (stops_ends r ST) (setBlocked s true) R V) as (ts & s' & RU & RD & A1 & A2 & A3 & A4).
  exists (ts ++ []), (setBlocked (setIsVar s' true) (blocked s)). split; [|split].
  - change (ntOf 21) with n_varExpressionNormal. cbn [rule alts].
    assert (X : forall i, test i s = test i (at_ (pathText b g gs ++ r))) by (intros i; rewrite test_at, R by exact V; reflexivity).
    do 3 (apply Runs_alt_r; [rewrite X; destruct b; vm_compute; reflexivity|]).
    apply Runs_alt_l; [rewrite X; destruct b; vm_compute; reflexivity|].
    apply Runs_rollback_ok. cbn [seqs]. eapply Runs_seq_ok; [exact RU|]. exact (Runs_act rs (ASetIsVariable true) s').
  - rewrite app_nil_r, RD. reflexivity.
  - cbn in *. repeat split; assumption.
Qed.

(** ** Constants *)
Ltac give :=
  match goal with |- exists t s', Runs _ _ ?s (Ok [t] s') /\ _ =>
    let v := eval vm_compute in (run rs 60 (IN n_varExpressionNormal) s) in
    match v with Some (Ok [?t] ?s') =>
      exists t, s'; split; [exists 60; vm_compute; reflexivity|split; [reflexivity|repeat split; intros; try reflexivity; try discriminate]] end end.
Lemma stops_in : forall l k, mem k (cont l) = false -> In k (filter (fun k => negb (mem k (cont l))) allToks).
Proof. intros l k H. apply filter_In. split; [apply In_allToks|]. now rewrite H. Qed.
Lemma const_good : Good 21 [T_STRING] EConst false.
Proof.
  split; [split; [discriminate|cbn; tauto]|]. intros r ST s R V.
  destruct s as [re po si vs iv im ci bl pr rd]. cbn in R, V. subst re vs. cbn [app] in *.
  change (ntOf 21) with n_varExpressionNormal.
  destruct r as [|k r]; [give|]. unfold stops in ST. cbn [hd] in ST. apply stops_in in ST.
  vm_compute in ST. repeat (destruct ST as [<-|ST]; [give|]). contradiction.
Qed.
Lemma classconst_good : Good 21 [T_STRING; T_PAAMAYIM_NEKUDOTAYIM; T_STRING] EClassConst false.
Proof.
  split; [split; [discriminate|cbn; tauto]|]. intros r ST s R V.
  destruct s as [re po si vs iv im ci bl pr rd]. cbn in R, V. subst re vs. cbn [app] in *.
  change (ntOf 21) with n_varExpressionNormal.
  destruct r as [|k r]; [give|]. unfold stops in ST. cbn [hd] in ST. apply stops_in in ST.
  vm_compute in ST. repeat (destruct ST as [<-|ST]; [give|]). contradiction.
Qed.
End Path.
