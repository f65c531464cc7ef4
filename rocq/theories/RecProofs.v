(** Proofs about RecModel.v. *)
From Verif Require Export RecSpec.
Open Scope nat_scope.

Fixpoint after (b : bool) (l : list event) : bool :=
  match l with [] => b | Found :: l => after true l | _ :: l => after false l end.
Fixpoint ok (b : bool) (l : list event) : Prop :=
  match l with
  | [] => True
  | Found :: l => ok true l
  | Nothing :: l => ok false l
  | OwnValue :: l => b = false /\ ok false l
  end.
Lemma after_app : forall l m b, after b (l ++ m) = after (after b l) m.
Proof. induction l as [|[]]; cbn; auto. Qed.
Lemma ok_app : forall l m b, ok b (l ++ m) -> ok b l /\ ok (after b l) m.
Proof. induction l as [|[] l IH]; cbn; intros m b H; auto. destruct H as [E H]. destruct (IH _ _ H). auto. Qed.
Lemma ok_iff : forall l b, (forall a c, l <> a ++ Found :: OwnValue :: c) -> (b = true -> forall c, l <> OwnValue :: c) -> ok b l.
Proof.
  induction l as [|e l IH]; cbn; intros b H G; auto.
  assert (H' : forall a c, l <> a ++ Found :: OwnValue :: c) by (intros a c ->; exact (H (e :: a) c eq_refl)).
  destruct e.
  - apply IH; auto. intros _ c ->. exact (H [] c eq_refl).
  - apply IH; auto. discriminate.
  - split; [destruct b; auto; exfalso; exact (G eq_refl l eq_refl)|]. apply IH; auto. discriminate.
Qed.
Lemma undisturbed_ok : forall l, undisturbed l -> ok false l.
Proof. intros l H. apply ok_iff; [exact H|discriminate]. Qed.

Lemma ord_app : forall a b, typed (a ++ b) = typed a ++ typed b.
Proof. intros. unfold typed. apply filter_app. Qed.

(** What visiting something does to the builder. *)
Record Step (b : bool) (ev : list event) (ts : list (sort * N * option rty)) (s s' : st) : Prop := {
  sp_stack : stack s' = stack s;
  sp_hint : gotHint s' = false;
  sp_got : gotDoc s' = true -> after b ev = true;
  sp_trace : typed (trace s') = typed (trace s) ++ typed ts
}.
Definition Ready (b : bool) (s : st) : Prop := gotHint s = false /\ (gotDoc s = true -> b = true).
Lemma step_ready : forall b ev ts s s', Step b ev ts s s' -> Ready (after b ev) s'.
Proof. intros b ev ts s s' [_ H G _]. split; auto. Qed.
Lemma step_refl : forall b s, Ready b s -> Step b [] [] s s.
Proof. intros b s [H G]. constructor; auto. now rewrite app_nil_r. Qed.
Lemma step_seq : forall b e1 e2 t1 t2 s1 s2 s3, Step b e1 t1 s1 s2 -> Step (after b e1) e2 t2 s2 s3 -> Step b (e1 ++ e2) (t1 ++ t2) s1 s3.
Proof.
  intros b e1 e2 t1 t2 s1 s2 s3 [A B C D] [A' B' C' D']. constructor.
  - congruence.
  - assumption.
  - intros H. rewrite after_app. auto.
  - rewrite D', D, ord_app, app_assoc. reflexivity.
Qed.
Lemma step_open : forall b ev ts t s s', Step b ev ts (openT t s) s' -> Step b ev ts s (closeT s').
Proof. intros b ev ts t s s' [A B C D]. constructor; auto. cbn. rewrite A. reflexivity. Qed.
Lemma step_last : forall b ev ts t s s', Step b ev ts (openT t s) s' -> last (closeT s') = Some t.
Proof. intros b ev ts t s s' [A _ _ _]. cbn. rewrite A. reflexivity. Qed.
Lemma step_close : forall k b ev ts t d s s', Step b ev ts s s' -> last s' = Some t -> Step b ev (ts ++ one k d t) s (closeDecl k d s').
Proof.
  intros k b ev ts t d s s' [A B C D] L. constructor; auto. cbn [closeDecl record trace]. rewrite L, !ord_app, D, app_assoc. reflexivity.
Qed.
(** A function's body between openType and closeDeclaration. *)
Lemma step_inside : forall k b ev ts t d s s', Step b ev ts (openT t s) s' -> Step b ev (ts ++ one k d t) s (closeDecl k d (closeT s')).
Proof. intros. eapply step_close; [eapply step_open; eassumption|eapply step_last; eassumption]. Qed.

Lemma parseDoc_spec : forall b g s, Ready b s -> exists s',
  parseDoc g s = (tagType g, s') /\ Step b (look g) [] s s' /\
  gotDoc s' = match tagType g with Some _ => true | None => false end /\ gotRet s' = gotRet s /\
  (forall t, g = TypeTag t -> last s' = Some (plainT t)).
Proof.
  intros b g s [H G]. unfold parseDoc, look. destruct g as [|[o|]|t]; cbn [tagType]; eexists; (split; [reflexivity|]).
  all: split; [constructor; cbn; auto; try discriminate; now rewrite app_nil_r|].
  all: cbn; repeat split; try congruence; intros; discriminate.
Qed.
Lemma getType_spec : forall b v s, Ready b s -> exists s', getType (Some v) s = (valueType v, s') /\ Step b (look (v_tag v)) [] s s'.
Proof.
  intros b v s R. unfold getType. destruct (parseDoc_spec b (v_tag v) s R) as (s' & E & S' & _). rewrite E. exists s'. split; auto.
Qed.
Lemma step_eq : forall b ev ts ev' ts' s s', ev = ev' -> ts = ts' -> Step b ev ts s s' -> Step b ev' ts' s s'.
Proof. intros. subst. assumption. Qed.
Lemma ready_open : forall b t s, Ready b s -> Ready b (openT t s).
Proof. intros b t s H. exact H. Qed.
(** A type opened, closed and recorded. *)
Lemma step_own : forall k b t d s, Ready b s -> Step b [] (one k d t) s (closeDecl k d (closeT (openT t s))).
Proof. intros k b t d s R. apply (step_inside k b [] [] t d s (openT t s)). apply step_refl. apply ready_open, R. Qed.

Lemma runParams_spec : forall b ps s, Ready b s -> Step b [] (flat_map (fun p => one Ordinary (fst p) (plainT (snd p))) ps) s (runParams ps s).
Proof.
  intros b. induction ps as [|[d t] ps IH]; cbn [runParams flat_map fst snd]; intros s R; [apply step_refl, R|].
  pose proof (step_own Ordinary b (plainT t) d s R) as P. apply (step_seq b [] [] _ _ _ _ _ P). apply IH. exact (step_ready _ _ _ _ _ P).
Qed.
Lemma runTraits_spec : forall b ps s, Ready b s -> Step b [] (flat_map (fun p => one Ordinary (fst p) (plainT (snd p))) ps) s (runTraits ps s).
Proof.
  intros b. induction ps as [|[d t] ps IH]; cbn [runTraits flat_map fst snd]; intros s R; [apply step_refl, R|].
  pose proof (step_own Ordinary b (plainT t) d s R) as P. apply (step_seq b [] [] _ _ _ _ _ P). apply IH. exact (step_ready _ _ _ _ _ P).
Qed.
Lemma const_eval : forall b v d s, Ready b s -> Step b (look (v_tag v)) (one Constant d (valueType v, true)) s
  (closeDecl Constant d (let (t, s) := getType (Some v) s in closeT (openT (t, true) s))).
Proof.
  intros b v d s R. destruct (getType_spec b v s R) as (s' & -> & P).
  pose proof (step_own Constant _ (valueType v, true) d s' (step_ready _ _ _ _ _ P)) as Q.
  eapply step_eq; [| |exact (step_seq _ _ _ _ _ _ _ _ P Q)]; rewrite ?app_nil_r; reflexivity.
Qed.
(** Constants of a class. *)
Lemma runConsts_spec : forall cs b s, Ready b s -> ok b (constEvents cs) ->
  Step b (constEvents cs) (flat_map (fun c => one Constant (fst c) (valueType (snd c), true)) cs) s (runConsts cs s).
Proof.
  induction cs as [|[d v] cs IH]; intros b s R O; [apply step_refl, R|].
  cbn [runConsts flat_map fst snd constEvents] in *. cbn [app] in O. destruct O as [-> O].
  assert (G : gotDoc s = false) by (destruct R as [_ R]; destruct (gotDoc s); [discriminate (R eq_refl)|reflexivity]).
  apply ok_app in O. destruct O as [_ O].
  pose proof (const_eval false v d s R) as P.
  assert (E : runConst d v s = closeDecl Constant d (let (t, s) := getType (Some v) s in closeT (openT (t, true) s))).
  { unfold runConst. rewrite G. reflexivity. }
  rewrite E. pose proof (step_seq _ _ _ _ _ _ _ _ P (IH _ _ (step_ready _ _ _ _ _ P) O)) as Q.
  destruct Q as [Q1 Q2 Q3 Q4]. constructor; assumption.
Qed.
(** Constants outside classes. *)
Lemma runConsts_top : forall cs b s, Ready b s -> stack s = [] ->
  Step b (flat_map (fun c => look (v_tag (snd c))) cs) (flat_map (fun c => one Constant (fst c) (valueType (snd c), true)) cs) s (runConsts cs s).
Proof.
  induction cs as [|[d v] cs IH]; intros b s R O; [apply step_refl, R|].
  cbn [runConsts flat_map fst snd] in *.
  pose proof (const_eval b v d s R) as P.
  assert (E : runConst d v s = closeDecl Constant d (let (t, s) := getType (Some v) s in closeT (openT (t, true) s))).
  { unfold runConst. rewrite O, orb_true_r. reflexivity. }
  rewrite E. apply (step_seq _ _ _ _ _ _ _ _ P). apply IH; [exact (step_ready _ _ _ _ _ P)|]. rewrite (sp_stack _ _ _ _ _ P). exact O.
Qed.

(** Properties. *)
Lemma runVars_given : forall t (vs : list (N * option value)) s, gotDoc s = true \/ gotHint s = true -> last s = Some t ->
  stack (runVars vs s) = stack s /\ gotDoc (runVars vs s) = gotDoc s /\ gotHint (runVars vs s) = gotHint s /\
  typed (trace (runVars vs s)) = typed (trace s) ++ typed (flat_map (fun p => one Property (fst p) t) vs).
Proof.
  intros t. induction vs as [|[d v] vs IH]; intros s G L; cbn [runVars flat_map fst].
  - repeat split. now rewrite app_nil_r.
  - assert (E : runVar d v s = closeDecl Property d s).
    { unfold runVar. destruct G as [-> | ->]; [reflexivity|]. now rewrite andb_false_r. }
    rewrite E. destruct (IH (closeDecl Property d s) G L) as (A & B & C & D).
    repeat split; [exact A|exact B|exact C|]. rewrite D. cbn [closeDecl record trace]. rewrite L, !ord_app, <- app_assoc. reflexivity.
Qed.
Definition varEvents (vs : list (N * option value)) : list event :=
  flat_map (fun p => OwnValue :: match snd p with Some v => look (v_tag v) | None => [] end) vs.
Lemma runVars_own : forall vs b s, Ready b s -> ok b (varEvents vs) ->
  Step b (varEvents vs) (flat_map (fun p => one Property (fst p) (plainT (property None NoTag (snd p)))) vs) s (runVars vs s).
Proof.
  induction vs as [|[d v] vs IH]; intros b s R O; [apply step_refl, R|].
  cbn [runVars flat_map fst snd varEvents property tagType] in *. cbn [app] in O. destruct O as [-> O].
  assert (G : gotDoc s = false) by (destruct R as [_ R]; destruct (gotDoc s); [discriminate (R eq_refl)|reflexivity]).
  apply ok_app in O. destruct O as [_ O].
  assert (P : Step false (match v with Some v => look (v_tag v) | None => [] end) (one Property d (plainT (match v with Some v => valueType v | None => Integral KNull end))) s (runVar d v s)).
  { unfold runVar. rewrite G. destruct R as [R1 R2]. rewrite R1. cbn [negb andb].
    destruct v as [v|]; [|apply step_own; split; assumption].
    destruct (getType_spec false v s (conj R1 R2)) as (s' & -> & P).
    pose proof (step_own Property _ (plainT (valueType v)) d s' (step_ready _ _ _ _ _ P)) as Q.
    eapply step_eq; [| |exact (step_seq _ _ _ _ _ _ _ _ P Q)]; rewrite ?app_nil_r; reflexivity. }
  pose proof (step_seq _ _ _ _ _ _ _ _ P (IH _ _ (step_ready _ _ _ _ _ P) O)) as Q.
  destruct Q as [Q1 Q2 Q3 Q4]. constructor; assumption.
Qed.
Definition reset (s : st) : st := if gotDoc s then setGot false (setLast None s) else s.
Lemma reset_spec : forall s, stack (reset s) = stack s /\ gotHint (reset s) = gotHint s /\ gotDoc (reset s) = false /\ trace (reset s) = trace s.
Proof. intros s. unfold reset. destruct (gotDoc s) eqn:E; auto. Qed.
Lemma flat_map_eq : forall A B (f g : A -> list B) l, (forall x, f x = g x) -> flat_map f l = flat_map g l.
Proof. intros A B f g l H. induction l; cbn; congruence. Qed.

Lemma runProps_spec : forall hint doc vs b s, Ready b s -> completeOf (MProps hint doc vs) -> ok b (eventsOf (MProps hint doc vs)) ->
  Step b (eventsOf (MProps hint doc vs)) (typesOf (MProps hint doc vs)) s (runProps hint doc vs s).
Proof.
  intros hint doc vs b s R C O. destruct hint as [h|].
  - (* with a hint *)
    cbn [runProps]. 
    assert (E : eventsOf (MProps (Some h) doc vs) = [Nothing]) by reflexivity. rewrite E. clear E O C.
    destruct R as [R1 R2].
    assert (X : exists s1, parseDoc doc (setHint true s) = (tagType doc, s1) /\ stack s1 = stack s /\ trace s1 = trace s /\ gotHint s1 = true).
    { destruct doc as [|[o|]|t]; cbn; eexists; repeat split. }
    destruct X as (s1 & -> & X1 & X2 & X3).
    set (t := plainT (propType h (tagType doc))).
    destruct (runVars_given t vs (injectT t s1) (or_intror X3) eq_refl) as (Y1 & Y2 & Y3 & Y4).
    change (Step b [Nothing] (typesOf (MProps (Some h) doc vs)) s (reset (setHint false (setLast None (runVars vs (injectT t s1)))))).
    destruct (reset_spec (setHint false (setLast None (runVars vs (injectT t s1))))) as (Z1 & Z2 & Z3 & Z4).
    constructor.
    + rewrite Z1. cbn [setHint setLast stack]. rewrite Y1. exact X1.
    + rewrite Z2. reflexivity.
    + rewrite Z3. discriminate.
    + rewrite Z4. cbn [setHint setLast trace]. rewrite Y4. cbn [injectT closeT openT trace]. rewrite X2. reflexivity.
  - destruct doc as [|o|t]; [| destruct C |].
    + (* own values *)
      cbn [eventsOf] in *. change (Nothing :: flat_map (fun p : N * option value => OwnValue :: match snd p with Some v => look (v_tag v) | None => [] end) vs ++ [Nothing]) with ([Nothing] ++ (varEvents vs ++ [Nothing])) in *.
      cbn [runProps]. destruct (parseDoc_spec b NoTag s R) as (s1 & E & P & _). rewrite E. cbn [snd].
      cbn [app ok] in O. apply ok_app in O. destruct O as [O _].
      pose proof (runVars_own vs _ s1 (step_ready _ _ _ _ _ P) O) as Q.
      change (Step b ([Nothing] ++ varEvents vs ++ [Nothing]) (typesOf (MProps None NoTag vs)) s (reset (runVars vs s1))).
      destruct (reset_spec (runVars vs s1)) as (Z1 & Z2 & Z3 & Z4).
      destruct (step_seq _ _ _ _ _ _ _ _ P Q) as [A1 A2 A3 A4].
      constructor; [congruence|congruence|rewrite Z3; discriminate|]. rewrite Z4, A4. reflexivity.
    + (* documented *)
      cbn [eventsOf runProps]. destruct (parseDoc_spec b (TypeTag t) s R) as (s1 & E & P & G & _ & L). rewrite E. cbn [snd].
      destruct (runVars_given (plainT t) vs s1 (or_introl G) (L t eq_refl)) as (Y1 & Y2 & Y3 & Y4).
      change (Step b [Nothing] (typesOf (MProps None (TypeTag t) vs)) s (reset (runVars vs s1))).
      destruct (reset_spec (runVars vs s1)) as (Z1 & Z2 & Z3 & Z4). destruct P as [A1 A2 A3 A4].
      constructor; [congruence|congruence|rewrite Z3; discriminate|]. rewrite Z4, Y4, A4, app_nil_r. reflexivity.
Qed.

(** The head of a function with its parameters. *)
Lemma openFun_spec : forall b d doc hinted s, Ready b s -> Step b (look doc) [] (openT (plainT (Func d)) s) (openFun d doc hinted s).
Proof.
  intros b d doc hinted s R. unfold openFun. destruct (parseDoc_spec b doc _ (ready_open b (plainT (Func d)) s R)) as (s' & -> & P & _).
  destruct P as [A B C D]. constructor; assumption.
Qed.
Lemma function_spec : forall b d doc hinted params evb tsb body s, Ready b s ->
  (forall s1, Ready (after b (look doc)) s1 -> Step (after b (look doc)) evb tsb s1 (body s1)) ->
  Step b (look doc ++ evb) (flat_map (fun p => one Ordinary (fst p) (plainT (snd p))) params ++ tsb ++ one Ordinary d (plainT (Func d))) s
    (closeDecl Ordinary d (closeT (body (runParams params (openFun d doc hinted s))))).
Proof.
  intros b d doc hinted params evb tsb body s R IH.
  pose proof (openFun_spec b d doc hinted s R) as P.
  pose proof (runParams_spec _ params _ (step_ready _ _ _ _ _ P)) as Q.
  pose proof (step_seq _ _ _ _ _ _ _ _ P Q) as PQ. rewrite app_nil_r in PQ. cbn [app] in PQ.
  pose proof (step_seq _ _ _ _ _ _ _ _ PQ (IH _ (step_ready _ _ _ _ _ PQ))) as T.
  rewrite app_assoc. apply step_inside. exact T.
Qed.

Scheme node_i := Induction for node Sort Prop
with nodes_i := Induction for nodes Sort Prop
with members_i := Induction for members Sort Prop
with member_i := Induction for member Sort Prop.
Combined Scheme tree_i from node_i, nodes_i, members_i, member_i.

Lemma run_spec :
  (forall n top b s, Ready b s -> (top = true -> stack s = []) -> complete top n -> ok b (events n) -> Step b (events n) (types n) s (run n s)) /\
  (forall l top b s, Ready b s -> (top = true -> stack s = []) -> completeL top l -> ok b (eventsL l) -> Step b (eventsL l) (typesL l) s (runs l s)) /\
  (forall l b s, Ready b s -> completeM l -> ok b (eventsM l) -> Step b (eventsM l) (typesM l) s (runms l s)) /\
  (forall m b s, Ready b s -> completeOf m -> ok b (eventsOf m) -> Step b (eventsOf m) (typesOf m) s (runm m s)).
Proof.
  apply tree_i.
  - (* assignment *)
    intros d isArray v kids IH top b s R T C O. cbn [events types run complete] in *.
    destruct (getType_spec b v s R) as (s1 & -> & P). apply ok_app in O. destruct O as [_ O].
    pose proof (IH false _ (openT (plainT (valueType v)) s1) (step_ready _ _ _ _ _ P) ltac:(discriminate) C O) as Q.
    set (s2 := runs kids (openT (plainT (valueType v)) s1)) in *.
    assert (L : hd_error (stack s2) = Some (plainT (valueType v))) by (rewrite (sp_stack _ _ _ _ _ Q); reflexivity).
    rewrite L. pose proof (step_open _ _ _ _ _ _ Q) as Q'. pose proof (step_seq _ _ _ _ _ _ _ _ P Q') as [A1 A2 A3 A4].
    constructor; [exact A1|exact A2|exact A3|].
    cbn [closeT record trace]. cbn [closeT trace app] in A4. rewrite !ord_app, A4, <- app_assoc. f_equal. f_equal.
    destruct isArray; reflexivity.
  - (* static *)
    intros d v top b s R T C O. cbn [events types run] in *. destruct v as [v|].
    + destruct (getType_spec b v s R) as (s1 & -> & P).
      pose proof (step_own Ordinary _ (plainT (valueType v)) d s1 (step_ready _ _ _ _ _ P)) as Q.
      eapply step_eq; [| |exact (step_seq _ _ _ _ _ _ _ _ P Q)]; rewrite ?app_nil_r; reflexivity.
    + apply step_own. exact R.
  - (* return *)
    intros v kids IH top b s R T C O. cbn [events types run complete] in *.
    apply ok_app in O. destruct O as [O _]. pose proof (IH top b s R T C O) as P.
    destruct (negb (gotRet (runs kids s)) && inFunction (runs kids s)).
    + destruct (getType_spec _ v _ (step_ready _ _ _ _ _ P)) as (s1 & -> & Q). cbn [snd].
      pose proof (step_seq _ _ _ _ _ _ _ _ P Q) as [A1 A2 A3 A4]. rewrite app_nil_r in A4.
      constructor; auto. intros H. specialize (A3 H). revert A3. unfold look. rewrite !after_app.
      destruct (tagType (v_tag v)); [auto|]. cbn. discriminate.
    + destruct P as [A1 A2 A3 A4]. constructor; auto. intros H. rewrite after_app, (A3 H). destruct (tagType (v_tag v)); reflexivity.
  - (* function *)
    intros d doc hinted params body IH top b s R T C O. cbn [events types run complete] in *.
    apply ok_app in O. destruct O as [_ O]. apply (function_spec b d doc hinted params _ _ (runs body) s R).
    intros s1 R1. apply (IH false); auto. discriminate.
  - (* class *)
    intros d ms IH top b s R T C O. cbn [events types run complete] in *. apply step_inside. apply IH; auto.
  - (* catch *)
    intros d classes kids IH top b s R T [C1 C2] O. cbn [events types run] in *. pose proof (IH top b s R T C1 O) as P.
    assert (X : exists t, caught classes = Some t /\ catchType classes (runs kids s) = injectT (plainT t) (runs kids s)).
    { destruct classes as [|[c|] [|c' r]]; cbn; eauto. destruct C2. reflexivity. }
    destruct X as (t & -> & ->). cbn [option_map].
    pose proof (step_own Caught _ (plainT t) d _ (step_ready _ _ _ _ _ P)) as Q.
    eapply step_eq; [| |exact (step_seq _ _ _ _ _ _ _ _ P Q)]; rewrite ?app_nil_r; reflexivity.
  - (* foreach *)
    intros key val elem kids IH top b s R T C O. cbn [events types run complete] in *. pose proof (IH top b s R T C O) as P.
    set (t := plainT (match elem with Some t => t | None => Integral KMixed end)).
    pose proof (step_own Ordinary _ t val _ (step_ready _ _ _ _ _ P)) as Q.
    pose proof (step_seq _ _ _ _ _ _ _ _ P Q) as PQ. rewrite app_nil_r in PQ. rewrite app_assoc.
    destruct key as [k|]; [|rewrite app_nil_r; exact PQ].
    destruct PQ as [A1 A2 A3 A4]. constructor; [exact A1|exact A2|exact A3|].
    rewrite (ord_app _ [(ForeachKey, k, None)]). change (typed [(ForeachKey, k, None)]) with (@nil (sort * N * option rty)). rewrite app_nil_r, <- A4.
    cbn [record trace]. rewrite (ord_app _ [(ForeachKey, k, _)]). change (typed [(ForeachKey, k, last (record Ordinary val (last (injectT t (runs kids s))) (injectT t (runs kids s))))]) with (@nil (sort * N * option rty)). rewrite app_nil_r. reflexivity.
  - (* const *)
    intros cs top b s R T C O. cbn [events types run complete] in *. apply runConsts_top; auto.
  - (* define *)
    intros d v kids IH top b s R T [C1 C2] O. cbn [events types run] in *. apply ok_app in O. destruct O as [O _].
    pose proof (IH top b s R T C1 O) as P. destruct v as [v|]; [|destruct C2; reflexivity].
    destruct (getType_spec _ v _ (step_ready _ _ _ _ _ P)) as (s1 & -> & Q). cbn [snd].
    pose proof (step_seq _ _ _ _ _ _ _ _ P Q) as PQ. rewrite app_nil_r in PQ.
    pose proof (step_own Constant _ (valueType v, true) d _ (step_ready _ _ _ _ _ PQ)) as V.
    eapply step_eq; [| |exact (step_seq _ _ _ _ _ _ _ _ PQ V)]; rewrite ?app_nil_r; reflexivity.
  - (* namespace *)
    intros d kids IH top b s R T C O. cbn [events types run complete] in *. destruct (IH top b s R T C O) as [A1 A2 A3 A4].
    constructor; auto. cbn [closeDecl record trace]. rewrite !ord_app, A4. cbn. now rewrite !app_nil_r.
  - intros kids IH top b s R T C O. cbn [events types run complete] in *. apply (IH top); auto.
  - intros top b s R T C O. apply step_refl, R.
  - intros n IHn l IHl top b s R T [C1 C2] O. cbn [eventsL typesL runs] in *. apply ok_app in O. destruct O as [O1 O2].
    pose proof (IHn top b s R T C1 O1) as P. apply (step_seq _ _ _ _ _ _ _ _ P).
    apply (IHl top); auto; [exact (step_ready _ _ _ _ _ P)|]. intros E. rewrite (sp_stack _ _ _ _ _ P). auto.
  - intros b s R C O. apply step_refl, R.
  - intros m IHm l IHl b s R [C1 C2] O. cbn [eventsM typesM runms] in *. apply ok_app in O. destruct O as [O1 O2].
    pose proof (IHm b s R C1 O1) as P. apply (step_seq _ _ _ _ _ _ _ _ P). apply IHl; auto. exact (step_ready _ _ _ _ _ P).
  - (* method *)
    intros d doc hinted params body IH b s R C O. cbn [eventsOf typesOf runm completeOf] in *.
    apply ok_app in O. destruct O as [_ O]. apply (function_spec b d doc hinted params _ _ (runs body) s R).
    intros s1 R1. apply (IH false); auto. discriminate.
  - intros cs b s R C O. cbn [eventsOf typesOf runm] in *. apply runConsts_spec; auto.
  - intros hint doc vs b s R C O. cbn [runm]. apply runProps_spec; auto.
  - intros ds b s R C O. cbn [eventsOf typesOf runm] in *. apply runTraits_spec; auto.
Qed.

Lemma recorded_types : forall file, completeL true file -> undisturbed (eventsL file) -> typed (recorded file) = typed (typesL file).
Proof.
  intros file C U. destruct run_spec as (_ & H & _).
  destruct (H file true false start (conj eq_refl (fun e => e)) (fun _ => eq_refl) C (undisturbed_ok _ U)) as [_ _ _ T]. exact T.
Qed.
