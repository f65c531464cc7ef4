(** Variables, parameters, functions and classes get their own type whatever surrounds them. *)
From Verif Require Export RecProofs.
Open Scope nat_scope.

Lemma sure_app : forall a b, ordinary (a ++ b) = ordinary a ++ ordinary b.
Proof. intros. unfold ordinary. apply filter_app. Qed.
Definition Keeps (ts : list (sort * N * option rty)) (s s' : st) : Prop :=
  stack s' = stack s /\ ordinary (trace s') = ordinary (trace s) ++ ordinary ts.
Lemma keeps_refl : forall s, Keeps [] s s.
Proof. intros s. split; [reflexivity|]. now rewrite app_nil_r. Qed.
Lemma keeps_seq : forall t1 t2 s1 s2 s3, Keeps t1 s1 s2 -> Keeps t2 s2 s3 -> Keeps (t1 ++ t2) s1 s3.
Proof. intros t1 t2 s1 s2 s3 [A B] [A' B']. split; [congruence|]. rewrite B', B, sure_app, app_assoc. reflexivity. Qed.
Lemma keeps_open : forall ts t s s', Keeps ts (openT t s) s' -> Keeps ts s (closeT s') /\ last (closeT s') = Some t.
Proof. intros ts t s s' [A B]. unfold Keeps. cbn [closeT openT stack last trace] in *. rewrite A. repeat split. exact B. Qed.
Lemma keeps_close : forall ts t d s s', Keeps ts s s' -> last s' = Some t -> Keeps (ts ++ one Ordinary d t) s (closeDecl Ordinary d s').
Proof. intros ts t d s s' [A B] L. split; [assumption|]. cbn [closeDecl record trace]. rewrite L, !sure_app, B, app_assoc. reflexivity. Qed.
Lemma keeps_other : forall k ts t u d s s', k <> Ordinary -> Keeps ts s s' -> Keeps (ts ++ [(k, d, u)]) s (record k d t s').
Proof. intros k ts t u d s s' H [A B]. split; [assumption|]. cbn [record trace]. rewrite !sure_app, B. destruct k; try congruence; cbn; now rewrite !app_nil_r. Qed.
Lemma keeps_inside : forall ts t d s s', Keeps ts (openT t s) s' -> Keeps (ts ++ one Ordinary d t) s (closeDecl Ordinary d (closeT s')).
Proof. intros ts t d s s' H. destruct (keeps_open _ _ _ _ H). now apply keeps_close. Qed.
Lemma parseDoc_keeps : forall g s, fst (parseDoc g s) = tagType g /\ Keeps [] s (snd (parseDoc g s)).
Proof. intros g s. destruct g as [|[o|]|t]; cbn; (split; [reflexivity|]); (split; [reflexivity|]); cbn; now rewrite app_nil_r. Qed.
Lemma getType_keeps : forall v s, exists s', getType (Some v) s = (valueType v, s') /\ Keeps [] s s'.
Proof.
  intros v s. unfold getType. destruct (parseDoc_keeps (v_tag v) s) as [A B]. destruct (parseDoc (v_tag v) s) as [t s']. cbn in A, B. subst t.
  exists s'. split; [reflexivity|exact B].
Qed.
Lemma keeps_own : forall t d s, Keeps (one Ordinary d t) s (closeDecl Ordinary d (closeT (openT t s))).
Proof. intros t d s. apply (keeps_inside [] t d s). apply keeps_refl. Qed.
Lemma params_keep : forall ps s, Keeps (flat_map (fun p => one Ordinary (fst p) (plainT (snd p))) ps) s (runParams ps s).
Proof. induction ps as [|[d t] ps IH]; intros s; [apply keeps_refl|]. cbn [flat_map runParams fst snd]. eapply keeps_seq; [apply keeps_own|apply IH]. Qed.
Lemma traits_keep : forall ps s, Keeps (flat_map (fun p => one Ordinary (fst p) (plainT (snd p))) ps) s (runTraits ps s).
Proof. induction ps as [|[d t] ps IH]; intros s; [apply keeps_refl|]. cbn [flat_map runTraits fst snd]. eapply keeps_seq; [apply keeps_own|apply IH]. Qed.
Lemma keeps_balanced : forall t s, Keeps [] s (closeT (openT t s)).
Proof. intros t s. split; [reflexivity|]. cbn. now rewrite app_nil_r. Qed.
Lemma const_keeps : forall d v u s, Keeps [(Constant, d, u)] s (runConst d v s).
Proof.
  intros d v u s. unfold runConst, closeDecl. apply (keeps_other Constant []); [discriminate|].
  destruct (negb (gotDoc s) || _); [|apply keeps_refl]. destruct (getType_keeps v s) as (s' & -> & K).
  apply (keeps_seq [] [] _ _ _ K). apply keeps_balanced.
Qed.
Lemma consts_keep : forall cs s, Keeps (flat_map (fun c => one Constant (fst c) (valueType (snd c), true)) cs) s (runConsts cs s).
Proof. induction cs as [|[d v] cs IH]; intros s; [apply keeps_refl|]. cbn [flat_map runConsts fst snd]. eapply keeps_seq; [apply const_keeps|apply IH]. Qed.
Lemma var_keeps : forall d v u s, Keeps [(Property, d, u)] s (runVar d v s).
Proof.
  intros d v u s. unfold runVar, closeDecl. apply (keeps_other Property []); [discriminate|].
  destruct (negb (gotDoc s) && negb (gotHint s)); [|apply keeps_refl]. destruct v as [v|]; [|apply keeps_balanced].
  destruct (getType_keeps v s) as (s' & -> & K). apply (keeps_seq [] [] _ _ _ K). apply keeps_balanced.
Qed.
Lemma vars_keep : forall f vs s, Keeps (flat_map (fun p => one Property (fst p) (f (snd p))) vs) s (runVars vs s).
Proof. intros f. induction vs as [|[d v] vs IH]; intros s; [apply keeps_refl|]. cbn [flat_map runVars fst snd]. eapply keeps_seq; [apply var_keeps|apply IH]. Qed.
Lemma keeps_ext : forall ts a b c, Keeps ts a b -> stack c = stack b -> trace c = trace b -> Keeps ts a c.
Proof. intros ts a b c [A B] E F. split; congruence. Qed.
Lemma props_keep : forall hint doc vs s, Keeps (typesOf (MProps hint doc vs)) s (runProps hint doc vs s).
Proof.
  intros hint doc vs s. cbn [typesOf]. set (f := fun v => plainT (property hint doc v)).
  change (Keeps (flat_map (fun p => one Property (fst p) (f (snd p))) vs) s (runProps hint doc vs s)). clearbody f.
  destruct hint as [h|]; cbn [runProps].
  - destruct (parseDoc_keeps doc (setHint true s)) as [_ K]. destruct (parseDoc doc (setHint true s)) as [t s1]. cbn [snd] in K.
    pose proof (vars_keep f vs (injectT (plainT (propType h t)) s1)) as V.
    match goal with |- Keeps _ _ (if _ then _ else ?x) => assert (X : Keeps (flat_map (fun p => one Property (fst p) (f (snd p))) vs) s x) end.
    { eapply keeps_ext; [eapply (keeps_seq [] _ s s1); [|eapply (keeps_seq [] _ s1); [apply keeps_balanced|exact V]]|reflexivity|reflexivity].
      destruct K as [K1 K2]. split; [exact K1|exact K2]. }
    destruct (gotDoc _); [eapply keeps_ext; [exact X|reflexivity|reflexivity]|exact X].
  - destruct (parseDoc_keeps doc s) as [_ K]. destruct (parseDoc doc s) as [t s1]. cbn [snd] in *.
    pose proof (keeps_seq [] _ _ _ _ K (vars_keep f vs s1)) as X.
    destruct (gotDoc _); [eapply keeps_ext; [exact X|reflexivity|reflexivity]|exact X].
Qed.
Lemma function_keeps : forall d doc hinted params tsb body s,
  (forall s1, Keeps tsb s1 (body s1)) ->
  Keeps (flat_map (fun p => one Ordinary (fst p) (plainT (snd p))) params ++ tsb ++ one Ordinary d (plainT (Func d))) s
    (closeDecl Ordinary d (closeT (body (runParams params (openFun d doc hinted s))))).
Proof.
  intros d doc hinted params tsb body s H. rewrite app_assoc. apply keeps_inside.
  eapply (keeps_seq [] _ _ (openFun d doc hinted s)); [|eapply keeps_seq; [apply params_keep|apply H]].
  unfold openFun. destruct (parseDoc_keeps doc (openT (plainT (Func d)) s)) as [_ K]. destruct (parseDoc doc _) as [t s1]. cbn [snd] in K.
  eapply keeps_ext; [exact K|reflexivity|reflexivity].
Qed.
Lemma run_keeps :
  (forall n s, Keeps (types n) s (run n s)) /\ (forall l s, Keeps (typesL l) s (runs l s)) /\
  (forall l s, Keeps (typesM l) s (runms l s)) /\ (forall m s, Keeps (typesOf m) s (runm m s)).
Proof.
  apply tree_i.
  - intros d isArray v kids IH s. cbn [types run]. destruct (getType_keeps v s) as (s1 & -> & K).
    pose proof (IH (openT (plainT (valueType v)) s1)) as Q. set (s2 := runs kids (openT (plainT (valueType v)) s1)) in *.
    assert (L : hd_error (stack s2) = Some (plainT (valueType v))) by (rewrite (proj1 Q); reflexivity).
    rewrite L. destruct (keeps_open _ _ _ _ Q) as [Q' _]. destruct (keeps_seq _ _ _ _ _ K Q') as [A B]. cbn [app closeT trace] in B.
    split; [exact A|]. cbn [closeT record trace]. rewrite !sure_app, B, <- app_assoc. f_equal. f_equal. destruct isArray; reflexivity.
  - intros d v s. cbn [types run]. destruct v as [v|]; [|apply keeps_own]. destruct (getType_keeps v s) as (s1 & -> & K).
    apply (keeps_seq [] _ _ _ _ K). apply keeps_own.
  - intros v kids IH s. cbn [types run]. destruct (negb (gotRet (runs kids s)) && inFunction (runs kids s)); [|apply IH].
    destruct (getType_keeps v (runs kids s)) as (s1 & -> & K). rewrite <- (app_nil_r (typesL kids)). eapply keeps_seq; [apply IH|exact K].
  - intros d doc hinted params body IH s. cbn [types run]. apply (function_keeps d doc hinted params _ (runs body) s IH).
  - intros d ms IH s. cbn [types run]. apply keeps_inside. apply IH.
  - intros d classes kids IH s. cbn [types run]. apply keeps_other; [discriminate|].
    rewrite <- (app_nil_r (typesL kids)). eapply keeps_seq; [apply IH|].
    destruct classes as [|[c|] [|c' r]]; cbn [catchType]; try apply keeps_balanced; apply keeps_refl.
  - intros key val elem kids IH s. cbn [types run]. rewrite app_assoc.
    set (t := plainT (match elem with Some t => t | None => Integral KMixed end)).
    assert (X : Keeps (typesL kids ++ one Ordinary val t) s (record Ordinary val (last (injectT t (runs kids s))) (injectT t (runs kids s)))).
    { eapply keeps_seq; [apply IH|apply keeps_own]. }
    destruct key as [k|]; [apply keeps_other; [discriminate|exact X]|]. rewrite app_nil_r. exact X.
  - intros cs s. cbn [types run]. apply consts_keep.
  - intros d v kids IH s. cbn [types run]. destruct v as [v|]; [|apply keeps_other; [discriminate|apply IH]].
    destruct (getType_keeps v (runs kids s)) as (s1 & -> & K). apply keeps_other; [discriminate|].
    rewrite <- (app_nil_r (typesL kids)). eapply keeps_seq; [apply IH|]. apply (keeps_seq [] [] _ _ _ K). apply keeps_balanced.
  - intros d kids IH s. cbn [types run]. apply keeps_other; [discriminate|apply IH].
  - intros kids IH s. apply IH.
  - intros s. apply keeps_refl.
  - intros n IHn l IHl s. cbn [typesL runs]. eapply keeps_seq; [apply IHn|apply IHl].
  - intros s. apply keeps_refl.
  - intros m IHm l IHl s. cbn [typesM runms]. eapply keeps_seq; [apply IHm|apply IHl].
  - intros d doc hinted params body IH s. cbn [typesOf runm]. apply (function_keeps d doc hinted params _ (runs body) s IH).
  - intros cs s. cbn [typesOf runm]. apply consts_keep.
  - intros hint doc vs s. apply props_keep.
  - intros ds s. cbn [typesOf runm]. apply traits_keep.
Qed.
Lemma recorded_ordinary : forall file, ordinary (recorded file) = ordinary (typesL file) /\ stack (runs file start) = [].
Proof. intros file. destruct run_keeps as (_ & H & _). destruct (H file start) as [A B]. split; [exact B|exact A]. Qed.
