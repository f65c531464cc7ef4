(** New objects, isset, empty, clone, eval, exit, include, list, ++, --, instanceof, yield. *)
From Coq Require Import List Bool NArith ZArith Lia Arith.
From Verif Require Import Chars LexModel ParseModel ParseSpec ParseProofs PexSpec PexProofs PexProofs2 PexProofs4 PexPath PexPath2 PexAtoms PexAtoms2 PexAtoms3.
Import ListNotations.
Open Scope nat_scope.

Section Atoms4.
Variable rs : Gen.
Context {Fs : Functions} {FsR : FunctionsRead rs}.
Notation Good := (Good rs).
Notation Reads := (Reads rs).
Notation Takes := (Takes rs).
Notation goodPart := (goodPart rs).
Notation goodSeg := (goodSeg rs).
Notation goodVar := (goodVar rs).
Ltac yes := apply takes_alt_l; [vm_compute; reflexivity|].
Ltac no := apply takes_alt_r; [vm_compute; reflexivity|].
Ltac nav := first [yes|no; nav].
Ltac neq := eapply stop_neq; [eassumption|vm_compute; reflexivity].
Ltac tnot ks := apply (test_not _ ks); [discriminate|vm_compute; reflexivity|vm_compute; reflexivity|].

(** ** new *)
Definition newText (c : cls) (args : option (list part)) : list Tok :=
  T_NEW :: clsTok c :: match args with None => [] | Some l => T_LPAREN :: commas (map fst l) ++ [T_RPAREN] end.
Definition newVal (c : cls) (args : option (list part)) : ex := ENew c (option_map (map snd) args).
Definition goodArgs (args : option (list part)) : Prop := match args with None => True | Some l => Forall goodPart l end.
Lemma star_not : forall i ks r, first i = setOf ks -> (forall k, In k ks -> hd T_EOF r <> k) -> Takes (IStar i) [] r [].
Proof.
  intros i ks r F H. apply takes_star_stop. rewrite F, mem_setOf. clear F. induction ks as [|k ks IH]; [reflexivity|]. cbn [existsb].
  apply orb_false_iff. split; [apply teq_neq, H; now left|]. apply IH. intros k0 I0. apply H. now right.
Qed.
Lemma takes_cls : forall c r, nodim r -> hd T_EOF r <> T_BACKSLASH -> hd T_EOF r <> T_OBJECT_OPERATOR -> hd T_EOF r <> T_PAAMAYIM_NEKUDOTAYIM ->
  Takes (IN n_classNameReference) [clsTok c] r [VCls c].
Proof.
  intros c r ND N1 N2 N3. destruct c; cbn [clsTok].
  - apply (takes_N rs _ _ _ [VCls CName]); [vm_compute; reflexivity| |reflexivity]. cbn [rule alts]. yes. cbn [seqs].
    apply (takes_cons rs _ _ [T_STRING] [] r (VCls CName) []).
    + apply (takes_N rs _ _ _ [VNone]); [vm_compute; reflexivity| |reflexivity]. cbn [rule alts]. yes. apply takes_name. exact N1.
    + apply takes_opt_no. tnot [T_PAAMAYIM_NEKUDOTAYIM]. intros k [<-|[]]. exact N3.
  - apply (takes_N rs _ _ _ [VCls CStatic]); [vm_compute; reflexivity| |reflexivity]. cbn [rule alts]. yes. cbn [seqs].
    apply (takes_cons rs _ _ [T_STATIC] [] r (VCls CStatic) []).
    + apply (takes_N rs _ _ _ [VTok T_STATIC]); [vm_compute; reflexivity| |reflexivity]. cbn [rule alts]. no. yes. apply takes_tok.
    + apply takes_opt_no. tnot [T_PAAMAYIM_NEKUDOTAYIM]. intros k [<-|[]]. exact N3.
  - apply (takes_N rs _ _ _ [VEx EVar]); [vm_compute; reflexivity| |reflexivity]. cbn [rule alts]. no. yes. cbn [seqs].
    apply (takes_cons rs _ _ [T_VARIABLE] [] r (VEx EVar) []).
    + exact (takes_woo rs [] r (Forall_nil _) ND).
    + apply (star_not _ [T_PAAMAYIM_NEKUDOTAYIM; T_OBJECT_OPERATOR]); [vm_compute; reflexivity|]. intros k [<-|[<-|[]]]; assumption.
Qed.
Lemma takes_new : forall c args r, goodArgs args -> endsPath r -> Takes (IN n_varExpressionNewObject) (newText c args) r [VEx (newVal c args)].
Proof.
  intros c args r GA ((ND & NP & NB) & NO & NN).
  assert (RN : forall v, readNode n_varExpressionNewObject [VTok T_NEW; VCls c; v] = match v with VNone => VEx (ENew c None) | VArgs l => VEx (ENew c (Some l)) | _ => VBad end)
    by (intros v; destruct v; reflexivity).
  destruct args as [l|]; unfold newText, newVal; cbn [option_map].
  - apply (takes_N rs _ _ _ [VTok T_NEW; VCls c; VArgs (map snd l)]); [vm_compute; reflexivity| |exact (RN _)]. cbn [rule seqs]. apply takes_T.
    apply (takes_cons rs _ _ [clsTok c] (T_LPAREN :: commas (map fst l) ++ [T_RPAREN]) r (VCls c) [VArgs (map snd l)]).
    + apply takes_cls; [split|..]; discriminate.
    + apply (takes_N rs _ _ _ [VTok T_LPAREN; VArgs (map snd l); VTok T_RPAREN]); [vm_compute; reflexivity| |reflexivity]. cbn [rule].
      change (alts [?a; ?b]) with (IAlt a (IAlt b IFail)). yes. now apply takes_call.
  - apply (takes_N rs _ _ _ [VTok T_NEW; VCls c; VNone]); [vm_compute; reflexivity| |exact (RN _)]. cbn [rule seqs]. apply takes_T.
    apply (takes_cons rs _ _ [clsTok c] [] r (VCls c) [VNone]).
    + apply takes_cls; assumption.
    + apply (takes_N rs _ _ _ []); [|cbn [rule alts]; apply takes_opt_no|reflexivity].
      * unfold enters. now replace (nullable (rule n_ctorArguments)) with true by (vm_compute; reflexivity).
      * tnot [T_LPAREN]. intros k [<-|[]]. exact NP.
Qed.
Lemma new_good : forall c args, goodArgs args -> Good 21 (newText c args) (newVal c args) false.
Proof.
  intros c args GA. apply good_takes; [lia|split; [discriminate|cbn; tauto]|]. intros r ST. exists [VEx (newVal c args)]. split; [|reflexivity].
  change (ntOf 21) with n_varExpressionNormal. cbn [rule alts]. do 6 no. yes. apply takes_new; [exact GA|now apply stops_ends].
Qed.
(** What is reached from a new object. *)
Lemma inst_good : forall c args gs, goodArgs args -> Forall goodSeg gs ->
  Good 21 (T_LPAREN :: newText c args ++ T_RPAREN :: propsText gs) (apply (newVal c args) (flat_map propSteps gs)) false.
Proof.
  intros c args gs GA GS. apply good_takes; [lia|split; [discriminate|cbn; tauto]|]. intros r ST.
  destruct (stops_ends r ST) as (Q & E1 & E2).
  exists (VTok T_LPAREN :: VEx (newVal c args) :: VTok T_RPAREN :: map (fun g => VMods (propSteps g)) gs). split.
  - change (ntOf 21) with n_varExpressionNormal. cbn [rule alts]. no. yes.
    change (seqs [IT T_LPAREN; ?a]) with (ISeq (IT T_LPAREN) a). apply takes_T, takes_rollback. cbn [seqs].
    apply takes_cons; [apply takes_new; [exact GA|repeat split; discriminate]|]. apply takes_T.
    clear ST. revert r Q E1 E2. induction GS as [|g gs G GS IH]; intros r Q E1 E2.
    + apply (star_not _ [T_OBJECT_OPERATOR]); [vm_compute; reflexivity|]. intros k [<-|[]]. exact E1.
    + cbn [map]. change (propsText (g :: gs)) with (propText g ++ propsText gs).
      apply (takes_star_go rs _ (propText g) (propsText gs) r [VMods (propSteps g)]); [vm_compute; reflexivity| |now apply IH].
      apply (takes_N rs _ _ _ [VTok T_OBJECT_OPERATOR; VMods (propSteps g)]); [vm_compute; reflexivity| |reflexivity]. cbn [rule seqs].
      apply takes_T. apply takes_vprop; [exact G|now apply quiet_props].
  - change (ntOf 21) with n_varExpressionNormal. cbn [readNode]. unfold modified. now rewrite mods_props.
Qed.

(** ** isset, empty, clone *)
Lemma takes_vars : forall l r, l <> [] -> (forall v, In v l -> asVar rs v) -> endsPath r -> hd T_EOF r <> T_COMMA ->
  exists vs, Takes (IList (IN n_variable) T_COMMA None) (commas (map text l)) r vs /\ argsOf vs = Some l.
Proof.
  intros l r N G E NC. exists (cellVals (map (fun v => (text v, VEx v)) l)). split.
  - replace (map text l) with (map fst (map (fun v => (text v, VEx v)) l)) by (rewrite map_map; reflexivity).
    apply takes_cells; [destruct l; [congruence|discriminate]|exact NC| |discriminate].
    intros p r' Hp Hr. apply in_map_iff in Hp as (v & <- & Hv). cbn [fst snd]. apply (proj2 (proj2 (G v Hv))).
    destruct Hr as [[r2 ->]| ->]; [unfold endsPath, quiet, nodim; cbn; repeat split; discriminate|exact E].
  - clear. induction l as [|v l IH]; [reflexivity|]. destruct l as [|u l]; [reflexivity|].
    change (cellVals (map (fun v => (text v, VEx v)) (v :: u :: l))) with (VEx v :: VTok T_COMMA :: cellVals (map (fun v => (text v, VEx v)) (u :: l))).
    cbn [argsOf]. now rewrite IH.
Qed.
Lemma isset_good : forall l, l <> [] -> (forall v, In v l -> asVar rs v) -> Good 21 (T_ISSET :: T_LPAREN :: commas (map text l) ++ [T_RPAREN]) (EIsset l) false.
Proof.
  intros l N G. apply good_takes; [lia|split; [discriminate|cbn; tauto]|]. intros r ST.
  destruct (takes_vars l (T_RPAREN :: r) N G) as (vs & T & EA); [unfold endsPath, quiet, nodim; cbn; repeat split; discriminate|discriminate|].
  exists (VTok T_ISSET :: VTok T_LPAREN :: (vs ++ [VTok T_RPAREN])). split.
  - change (ntOf 21) with n_varExpressionNormal. cbn [rule alts]. do 4 no. yes. cbn [seqs]. apply takes_T, takes_T.
    apply (takes_seq rs _ _ (commas (map text l)) [T_RPAREN] r vs [VTok T_RPAREN]); [exact T|apply takes_tok].
  - change (ntOf 21) with n_varExpressionNormal. cbn [readNode]. now rewrite upTo_app, EA.
Qed.
Lemma empty_good : forall w a, Good 0 w a false -> Good 21 (T_EMPTY :: T_LPAREN :: w ++ [T_RPAREN]) (EEmpty a) false.
Proof.
  intros w a G. apply good_takes; [lia|split; [discriminate|cbn; tauto]|]. intros r ST. exists [VTok T_EMPTY; VTok T_LPAREN; VEx a; VTok T_RPAREN]. split; [|reflexivity].
  change (ntOf 21) with n_varExpressionNormal. cbn [rule alts]. do 5 no. yes. cbn [seqs]. apply takes_T, takes_T.
  apply takes_cons; [|apply takes_tok]. apply takes_expr; [exact G|vm_compute; reflexivity].
Qed.
Lemma clone_good : forall w a, Good 21 w a false -> Good 21 (T_CLONE :: w) (EClone a) false.
Proof.
  intros w a G. apply good_takes; [lia|split; [discriminate|cbn; tauto]|]. intros r ST. exists [VTok T_CLONE; VEx a]. split; [|reflexivity].
  change (ntOf 21) with n_varExpressionNormal. cbn [rule alts]. do 7 no. yes. cbn [seqs]. apply takes_T. exact (takes_good rs 21 _ _ _ _ G ST).
Qed.

(** Functions without a name, also called where they stand. *)
Lemma takes_fun : forall f r, funOk f = true -> Takes (IN n_closure) (funText f) r [VEx (EClosure f)].
Proof.
  intros f r OK s R V. destruct (functions_read rs f OK) as [_ H]. destruct (H r s R V) as (t & s' & RU & RD & A).
  exists [t], s'. split; [exact RU|]. split; [cbn [map]; now rewrite RD|exact A].
Qed.
Lemma takes_cond : forall c a w r vs, Takes a w r vs -> Takes (ICond c a) w r vs.
Proof. intros c a w r vs T s R V. destruct (T s R V) as (ts & s' & RU & RD). exists ts, s'. split; [now apply Runs_cond|exact RD]. Qed.
Lemma fun_hd : forall f, funOk f = true -> exists k w, funText f = T_FUNCTION :: k :: w.
Proof. intros f OK. destruct (functions_read rs f OK) as [[(w & E)|(w & E)] _]; rewrite E; eauto. Qed.
Lemma fun_good : forall f, funOk f = true -> Good 21 (funText f) (EClosure f) false.
Proof.
  intros f OK. destruct (fun_hd f OK) as (k & w & E). apply good_takes; [lia|split; rewrite E; [discriminate|cbn; tauto]|]. intros r ST.
  exists [VEx (EClosure f)]. split; [|reflexivity]. change (ntOf 21) with n_varExpressionNormal. cbn [rule alts].
  pose proof (takes_fun f r OK) as T. rewrite E in *. do 8 no. yes. exact T.
Qed.
Lemma call_good : forall f args, funOk f = true -> calledHere (EClosure f) = true -> Forall goodPart args ->
  Good 21 (T_LPAREN :: funText f ++ T_RPAREN :: T_LPAREN :: commas (map fst args) ++ [T_RPAREN]) (EInvoke (EClosure f) (map snd args)) false.
Proof.
  intros f args OK CH GA. destruct (functions_read rs f OK) as [[(w & E)|(w & E)] _]; [|cbn [calledHere] in CH; rewrite E in CH; discriminate CH].
  apply good_takes; [lia|split; [discriminate|cbn; tauto]|]. intros r ST.
  exists [VEx (EInvoke (EClosure f) (map snd args))]. split; [|reflexivity]. change (ntOf 21) with n_varExpressionNormal. cbn [rule alts].
  apply takes_alt_l; [rewrite E; vm_compute; reflexivity|]. apply takes_cond.
  apply (takes_N rs _ _ _ [VTok T_LPAREN; VEx (EClosure f); VTok T_RPAREN; VTok T_LPAREN; VArgs (map snd args); VTok T_RPAREN]); [vm_compute; reflexivity| |reflexivity].
  cbn [rule seqs]. apply takes_T. apply takes_rollback. apply takes_cons; [apply takes_fun, OK|]. apply takes_T, takes_T.
  apply takes_cons; [apply takes_args, GA|apply takes_tok].
Qed.

(** ** Read like unary operators: eval, exit, include, list *)
Lemma eval_good : forall w a, Good 0 w a false -> Good 18 (T_EVAL :: T_LPAREN :: w ++ [T_RPAREN]) (EEval a) false.
Proof.
  intros w a G. apply good_takes; [lia|split; [discriminate|cbn; tauto]|]. intros r ST. exists [VTok T_EVAL; VTok T_LPAREN; VEx a; VTok T_RPAREN]. split; [|reflexivity].
  change (ntOf 18) with n_unaryExpression. cbn [rule alts]. nav. cbn [seqs]. apply takes_T, takes_T.
  apply takes_cons; [|apply takes_tok]. apply takes_expr; [exact G|vm_compute; reflexivity].
Qed.
Lemma exit_good : forall o : option (option part), (forall p, o = Some (Some p) -> goodPart p) ->
  Good 18 (match o with None => [T_EXIT] | Some None => [T_EXIT; T_LPAREN; T_RPAREN] | Some (Some p) => T_EXIT :: T_LPAREN :: fst p ++ [T_RPAREN] end)
          (EExit (option_map (option_map snd) o)) false.
Proof.
  intros o G. apply good_takes; [lia|split; [destruct o as [[p|]|]; discriminate|destruct o as [[p|]|]; cbn; tauto]|]. intros r ST.
  change (ntOf 18) with n_unaryExpression. destruct o as [[p|]|]; cbn [option_map].
  - specialize (G p eq_refl). exists [VTok T_EXIT; VTok T_LPAREN; VEx (snd p); VTok T_RPAREN]. split; [|reflexivity]. cbn [rule alts]. nav. cbn [seqs].
    apply takes_T. nav. apply takes_T. apply takes_cons; [|apply takes_tok].
    apply takes_alt_l; [eapply (test_part rs 0); [exact G|discriminate|vm_compute; reflexivity]|]. apply takes_expr; [exact G|vm_compute; reflexivity].
  - exists [VTok T_EXIT; VTok T_LPAREN; VTok T_RPAREN]. split; [|reflexivity]. cbn [rule alts]. nav. cbn [seqs].
    apply takes_T. nav. apply takes_T. apply (takes_0 rs _ _ [T_RPAREN] r); [|apply takes_tok]. nav. apply takes_eps.
  - exists [VTok T_EXIT]. split; [|reflexivity]. cbn [rule alts]. nav. cbn [seqs]. apply takes_T. apply takes_opt_no. tnot [T_LPAREN]. intros k [<-|[]]. neq.
Qed.
Lemma include_good : forall k w a, Good 18 w a false -> Good 18 (inclTok k :: w) (EInclude k a) false.
Proof.
  intros k w a G. apply good_takes; [lia|split; [discriminate|destruct k; cbn; tauto]|]. intros r ST. exists [VTok (inclTok k); VEx a]. split; [|destruct k; reflexivity].
  change (ntOf 18) with n_unaryExpression. cbn [rule alts].
  destruct k; cbn [inclTok]; nav; cbn [seqs]; apply takes_T; exact (takes_good rs 18 _ _ _ _ G ST).
Qed.
Definition slotText (o : option ex) : list Tok := match o with None => [] | Some v => text v end.
Definition slotVal (o : option ex) : val := match o with None => VNone | Some v => VEx v end.
Lemma takes_slot : forall o r, (forall v, o = Some v -> asVar rs v) -> endsEntry r -> Takes (IN n_assignmentListElement) (slotText o) r [slotVal o].
Proof.
  intros o r G E. destruct o as [v|]; cbn [slotText slotVal].
  - specialize (G v eq_refl). apply (takes_N rs _ _ _ [VEx v]); [|cbn [rule alts]; apply takes_alt_l|reflexivity].
    + unfold enters. now replace (nullable (rule n_assignmentListElement)) with true by (vm_compute; reflexivity).
    + apply (test_var rs _ _ r G); [discriminate|vm_compute; reflexivity].
    + apply (proj2 (proj2 G)). now apply ends_path.
  - apply (takes_N rs _ _ _ []); [|cbn [rule alts]|reflexivity].
    + unfold enters. now replace (nullable (rule n_assignmentListElement)) with true by (vm_compute; reflexivity).
    + assert (X : forall i, (forall c a, i <> ICond c a) -> nullable i = false -> mem T_COMMA (first i) = false -> mem T_RPAREN (first i) = false -> mem T_RBRACKET (first i) = false -> test i (at_ r) = false).
      { intros i NC N0 F1 F2 F3. replace (test i (at_ r)) with (enters i (at_ r)) by (destruct i; try reflexivity; exfalso; eapply NC; reflexivity).
        unfold enters. rewrite N0, (yytoken_hd (at_ r) r eq_refl). destruct E as [E|[E|E]]; rewrite E; assumption. }
      cbn [app]. apply takes_alt_r; [apply X; [discriminate|vm_compute; reflexivity..]|]. apply takes_opt_no. apply X; [discriminate|vm_compute; reflexivity..].
Qed.
Lemma list_good : forall l w a, l <> [] -> (forall v, In (Some v) l -> asVar rs v) -> Good 18 w a false ->
  Good 18 (T_LIST :: T_LPAREN :: commas (map slotText l) ++ T_RPAREN :: T_ASSIGN :: w) (EList l a) false.
Proof.
  intros l w a N G GA. apply good_takes; [lia|split; [discriminate|cbn; tauto]|]. intros r ST.
  exists [VTok T_LIST; VTok T_LPAREN; VSlots l; VTok T_RPAREN; VTok T_ASSIGN; VEx a]. split; [|reflexivity].
  change (ntOf 18) with n_unaryExpression. cbn [rule alts]. nav. cbn [seqs]. apply takes_T, takes_T.
  apply takes_cons; [|apply takes_T, takes_T; exact (takes_good rs 18 _ _ _ _ GA ST)].
  set (f := fun o => (slotText o, slotVal o) : cell). apply (takes_N rs _ _ _ (cellVals (map f l))).
  - unfold enters. now replace (nullable (rule n_assignmentList)) with true by (vm_compute; reflexivity).
  - cbn [rule]. replace (map slotText l) with (map fst (map f l)) by (rewrite map_map; reflexivity).
    apply takes_cells; [destruct l; [congruence|discriminate]|discriminate| |discriminate].
    intros p r' Hp Hr. apply in_map_iff in Hp as (o & <- & Ho). cbn [f fst snd]. apply takes_slot; [intros v ->; now apply G|].
    unfold endsEntry. destruct Hr as [[r2 ->]| ->]; cbn; tauto.
  - assert (X : slotsOf (cellVals (map f l)) = Some l).
    { clear G. induction l as [|o l IH]; [congruence|]. destruct l as [|u l]; [destruct o; reflexivity|].
      change (cellVals (map f (o :: u :: l))) with (slotVal o :: VTok T_COMMA :: cellVals (map f (u :: l))).
      cbn [slotsOf]. rewrite IH by discriminate. destruct o; reflexivity. }
    cbn [readNode]. rewrite X. reflexivity.
Qed.

(** ** ++ and -- *)
Lemma takes_post : forall inc r, Takes (IN n_postprefixOperator) [stepTok inc] r [VTok (stepTok inc)].
Proof.
  intros inc r. apply (takes_N rs _ _ _ [VTok (stepTok inc)]); [destruct inc; vm_compute; reflexivity| |reflexivity].
  cbn [rule alts]. destruct inc; cbn [stepTok]; nav; apply takes_tok.
Qed.
Lemma postFirst : first (IN n_postprefixOperator) = setOf [T_INC; T_DEC].
Proof. vm_compute. reflexivity. Qed.
Lemma incdec_good : forall (pre inc : bool) w v, Good 20 w v false -> Good 19 (if pre then stepTok inc :: w else w ++ [stepTok inc]) (EIncDec pre inc v) false.
Proof.
  intros pre inc w v G. pose proof G as [[NW HW] _].
  assert (NPH : forall r0, (forall k, In k [T_INC; T_DEC] -> hd T_EOF (w ++ r0) <> k)).
  { intros r0 k I0 E. rewrite hd_app in E by exact NW. rewrite E in HW. cbn in I0. destruct I0 as [<-|[<-|[]]]; cbn in HW; repeat (destruct HW as [HW|HW]; [discriminate HW|]); contradiction. }
  apply good_takes; [lia|destruct pre|].
  - split; [discriminate|destruct inc; cbn; tauto].
  - split; [destruct w; [congruence|discriminate]|]. rewrite hd_app by exact NW. now apply heads_S.
  - intros r ST. change (ntOf 19) with n_unaryExpressionNotPlusminus. destruct pre.
    + exists [VTok (stepTok inc); VEx v]. split; [|destruct inc; reflexivity]. cbn [rule seqs].
      apply (takes_seq rs _ _ [stepTok inc] w r [VTok (stepTok inc)] [VEx v]).
      * apply (takes_star_go rs _ [stepTok inc] [] (w ++ r) [VTok (stepTok inc)] []); [destruct inc; vm_compute; reflexivity|apply takes_post|].
        apply (star_not _ [T_INC; T_DEC]); [exact postFirst|apply NPH].
      * apply (takes_seq rs _ _ w [] r [VEx v] []) || (rewrite <- (app_nil_r w); apply (takes_seq rs _ _ w [] r [VEx v] [])).
        -- apply (takes_good rs 20 _ _ _ _ G). cbn [app]. apply stops_S; [lia|exact ST].
        -- apply (star_not _ [T_INC; T_DEC]); [exact postFirst|]. intros k [<-|[<-|[]]]; neq.
    + exists [VEx v; VTok (stepTok inc)]. split; [|destruct inc; reflexivity]. cbn [rule seqs].
      apply (takes_seq rs _ _ [] (w ++ [stepTok inc]) r [] [VEx v; VTok (stepTok inc)]).
      * apply (star_not _ [T_INC; T_DEC]); [exact postFirst|]. rewrite <- app_assoc. apply NPH.
      * apply takes_cons; [apply (takes_good rs 20 _ _ _ _ G); destruct inc; vm_compute; reflexivity|].
        apply (takes_star_go rs _ [stepTok inc] [] r [VTok (stepTok inc)] []); [destruct inc; vm_compute; reflexivity|apply takes_post|].
        apply (star_not _ [T_INC; T_DEC]); [exact postFirst|]. intros k [<-|[<-|[]]]; neq.
Qed.

(** ** instanceof *)
Lemma instanceof_good : forall w a, Good 15 w a false -> Good 14 (w ++ [T_INSTANCEOF; T_STRING]) (EInstanceof a) false.
Proof.
  intros w a G. pose proof G as [[NW HW] _]. apply good_takes; [lia|split; [destruct w; [congruence|discriminate]|rewrite hd_app by exact NW; now apply heads_S]|].
  intros r ST. change (ntOf 14) with n_relationalExpression. exists [VEx a; VTok T_INSTANCEOF; VCls CName]. split; [|reflexivity]. cbn [rule seqs].
  apply takes_cons; [apply (takes_good rs 15 _ _ _ _ G); vm_compute; reflexivity|]. cbn [alts]. no. yes. apply takes_T.
  apply (takes_cls CName); [split|..]; neq.
Qed.

(** ** yield *)
Lemma yieldFirst : N.ldiff (first (seqs [IN n_printExpression; alts [seqs [IT T_DOUBLE_ARROW; IN n_printExpression]; IEps]])) (cont 4) = 0%N.
Proof. vm_compute. reflexivity. Qed.
Lemma yield_reads : forall (o : option (option part * part)) r, stops 4 r ->
  (forall k p, o = Some (Some k, p) -> Good 5 (fst k) (snd k) false) -> (forall k p, o = Some (k, p) -> Good 4 (fst p) (snd p) false) ->
  Reads 4 (T_YIELD :: match o with None => [] | Some (None, p) => fst p | Some (Some k, p) => fst k ++ T_DOUBLE_ARROW :: fst p end)
    (EYield (match o with None => None | Some (None, p) => Some (None, snd p) | Some (Some k, p) => Some (Some (snd k), snd p) end)) false r.
Proof.
  intros o r ST GK GP. set (w := T_YIELD :: _). set (e := EYield _).
  assert (S20 : starts 20 w) by (split; [discriminate|cbn; tauto]).
  apply (up_reads_le rs 4 20); [lia|lia|exact S20|exact ST|].
  assert (Y : exists vs, Takes (rule n_varExpression) w r vs /\ readNode n_varExpression vs = VEx e); [|destruct Y as (vs & T & RN); exact (reads_takes rs 20 w e r vs ltac:(lia) S20 T RN)].
  subst w e. destruct o as [[[k|] p]|].
  - specialize (GK k p eq_refl). specialize (GP _ _ eq_refl). exists [VTok T_YIELD; VEx (snd k); VTok T_DOUBLE_ARROW; VEx (snd p)]. split; [|reflexivity].
    cbn [rule alts]. nav. cbn [seqs]. apply takes_T. apply takes_alt_l.
    + rewrite <- app_assoc. eapply (test_part rs 5); [exact GK|discriminate|vm_compute; reflexivity].
    + apply takes_cons; [exact (reads_takes_N rs 4 _ _ _ _ (proj1 (key_reads rs _ _ _ _ GK)))|]. nav. apply takes_T. exact (takes_good rs 4 _ _ _ _ GP ST).
  - specialize (GP _ _ eq_refl). exists [VTok T_YIELD; VEx (snd p)]. split; [|reflexivity].
    cbn [rule alts]. nav. cbn [seqs]. apply takes_T. apply takes_alt_l.
    + eapply (test_part rs 4); [exact GP|discriminate|vm_compute; reflexivity].
    + rewrite <- (app_nil_r (fst p)). apply takes_cons; [exact (takes_good rs 4 _ _ _ _ GP ST)|]. apply takes_opt_no. tnot [T_DOUBLE_ARROW]. intros k [<-|[]]. neq.
  - exists [VTok T_YIELD]. split; [|reflexivity]. cbn [rule alts]. nav. cbn [seqs]. apply takes_T. apply takes_opt_no. cbn [app].
    eapply (test_stop 4); [exact ST|discriminate|vm_compute; reflexivity|exact yieldFirst].
Qed.
Lemma yield_good : forall (o : option (option part * part)),
  (forall k p, o = Some (Some k, p) -> Good 5 (fst k) (snd k) false) -> (forall k p, o = Some (k, p) -> Good 4 (fst p) (snd p) false) ->
  Good 4 (T_YIELD :: match o with None => [] | Some (None, p) => fst p | Some (Some k, p) => fst k ++ T_DOUBLE_ARROW :: fst p end)
    (EYield (match o with None => None | Some (None, p) => Some (None, snd p) | Some (Some k, p) => Some (Some (snd k), snd p) end)) false.
Proof. intros o GK GP. split; [split; [discriminate|cbn; tauto]|]. intros r ST. now apply yield_reads. Qed.
Lemma yieldfrom_good : forall w a, Good 4 w a false -> Good 4 (T_YIELD_FROM :: w) (EYieldFrom a) false.
Proof.
  intros w a G. split; [split; [discriminate|cbn; tauto]|]. intros r ST.
  assert (S20 : starts 20 (T_YIELD_FROM :: w)) by (split; [discriminate|cbn; tauto]).
  apply (up_reads_le rs 4 20); [lia|lia|exact S20|exact ST|].
  apply (reads_takes rs 20 _ _ r [VTok T_YIELD_FROM; VEx a]); [lia|exact S20| |reflexivity].
  change (ntOf 20) with n_varExpression. cbn [rule alts]. nav. cbn [seqs]. apply takes_T. exact (takes_good rs 4 _ _ _ _ G ST).
Qed.
End Atoms4.
