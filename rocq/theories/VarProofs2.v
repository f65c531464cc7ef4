(** Proofs for C66: the walk declares what is given a value (proof file). *)
From Coq Require Import List Bool Arith Lia.
From Verif Require Import PhpTypes MergeModel VarModel VarSpec VarProofs.
Import ListNotations.
Open Scope nat_scope.

Lemma Res_ext V D I a a' b b' :
  cft a' = cft a -> cur a' = cur a -> outer a' = outer a -> closed a' = closed a ->
  cft b' = cft b -> cur b' = cur b -> outer b' = outer b -> closed b' = closed b ->
  Res V D I a b -> Res V D I a' b'.
Proof.
  intros A1 A2 A3 A4 B1 B2 B3 B4 [H1 H2 H3 H4 H5 H6]. split; rewrite ?A1, ?A2, ?A3, ?A4, ?B1, ?B2, ?B3, ?B4; auto.
  unfold globals, topOf in *. rewrite A2, A3, B2, B3. exact H5.
Qed.
Lemma Env_ext V N G a b : cur b = cur a -> outer b = outer a -> Env V N G a -> Env V N G b.
Proof.
  intros E1 E2 [H1 H2 H3 H4 H5]. unfold globals, topOf in *. split; unfold globals, topOf; rewrite ?E1, ?E2; auto.
Qed.
Lemma Res_pushed V D I f s : Res V D I (setFnd fresh s) (f (setFnd fresh s)) -> Res V D I s (pushed f s).
Proof. apply Res_ext; reflexivity. Qed.
Lemma Res_none V D I (s : st) : (forall x, ~ D x) -> (forall f, ~ I f) -> Res V D I s s.
Proof. intros HD HI. apply Res_iff with (D := fun _ => False) (I := fun _ => False); [firstorder|firstorder|]. apply Res_same; reflexivity. Qed.
Lemma Res_then V D I s s1 s2 : Res V D I s s1 -> cft s2 = cft s1 -> cur s2 = cur s1 -> outer s2 = outer s1 -> closed s2 = closed s1 -> Res V D I s s2.
Proof. intros H E1 E2 E3 E4. exact (Res_ext _ _ _ s s s1 s2 eq_refl eq_refl eq_refl eq_refl E1 E2 E3 E4 H). Qed.

Lemma lookup_dec x l : ~ ~ anyDeclared l x -> anyDeclared l x.
Proof.
  intros H. destruct (lookup x l) as [|e r] eqn:E.
  - exfalso. apply H. now apply lookup_nil.
  - assert (HN : lookup x l <> []) by congruence. clear -HN. induction l as [|c l IH]; cbn in HN; [congruence|].
    destruct (inScope x c) as [|d m] eqn:E.
    + destruct (IH HN) as (c' & H1 & H2). exists c'. split; [now right|exact H2].
    + exists c. split; [now left|]. exists d. apply inScope_In. rewrite E. now left.
Qed.
(** The names of the steps. *)
Lemma lastOf_step (V : nat -> Prop) ss t : Forall (stepName V) ss -> lastOf ss = Some t -> stepName V t.
Proof. intros H E. apply lastOf_In in E. rewrite Forall_forall in H. auto. Qed.
Lemma lastOf_none {A} (l : list A) : lastOf l = None -> l = [].
Proof. induction l as [|a l IH]; [reflexivity|]. cbn. destruct l; [discriminate|]. intros H. apply IH in H. discriminate. Qed.

(** What was found, and what it leads to. *)
Definition namesVar (b : base) (ss : list step) (x : nat) : Prop := ss = [] /\ exists p idx, b = BName p x idx.
Lemma Res_declareFound V N G t b ss s0 s : find (fnd s0) = true -> fnd s0 = fresh -> fnd s = fnd (foundVariable b ss s0) ->
  Env V N G s -> Forall (stepName V) ss -> (forall x, namesVar b ss x -> ~ V x /\ x <> this) -> (forall p x idx, ss = [] -> b = BName p x idx -> idx = false) ->
  Res V (namesVar b ss) (fun _ => False) s (declareFound t s).
Proof.
  intros HF HFr E HE HS HV HI. destruct HE as [E1 E2 E3 E4 E5]. unfold declareFound. rewrite E. unfold foundVariable. rewrite HFr. cbn [fresh VarModel.find].
  cbn [setFnd fnd]. cbn [VarModel.node VarModel.ident VarModel.isArr VarModel.parent]. unfold getIdentifier.
  destruct (lastOf ss) as [st|] eqn:EL.
  - assert (HN : forall x, ~ namesVar b ss x) by (intros x [-> _]; discriminate).
    pose proof (lastOf_step V ss st HS EL) as HT. unfold stepName in HT.
    destruct (parentOf b ss) as [q|]; [|cbn; apply Res_none; auto]. destruct (sname st) as [[p x]|]; [|cbn; apply Res_none; auto]. cbn.
    destruct (sindexed st); [apply Res_none; auto|]. destruct (Nat.eqb q this); [|apply Res_none; auto].
    destruct (thisClass s); [|apply Res_none; auto]. destruct (lookup x (outer s)); [|apply Res_none; auto].
    apply Res_iff with (D := fun _ => False) (I := fun _ => False); [firstorder|tauto|]. now apply Res_declareMember.
  - apply lastOf_none in EL. subst ss. destruct b as [p x idx|]; cbn [VarModel.node VarModel.ident VarModel.isArr VarModel.parent].
    + pose proof (HI p x idx eq_refl eq_refl) as HI'. subst idx. assert (HX : namesVar (BName p x false) [] x) by (split; eauto). destruct (HV x HX) as [HX1 HX2].
      assert (HNV : forall y, namesVar (BName p x false) [] y <-> y = x).
      { intros y. split; [|intros ->; exact HX]. intros [_ (p' & i' & H)]. now injection H as _ <- _. }
      destruct (lookup x (cur s :: outer s)) as [|e r] eqn:ELk.
      * pose proof ELk as ELk'. apply lookup_nil in ELk.
        assert (HT : inScope x (topOf s) = []).
        { apply inScope_nil. intros HD. apply ELk. exists (topOf s). split; [|exact HD]. unfold topOf.
          destruct (outer s) as [|c o] using rev_ind; [now left|]. rewrite last_last. right. apply in_app_iff. right. now left. }
        rewrite HT. cbn [filter].
        apply Res_iff with (D := fun y => y = x) (I := fun _ => False); [intros y; now rewrite HNV|tauto|]. now apply Res_declareVariable.
      * assert (HC : declared (cur s) x).
        { cbn [lookup] in ELk. destruct (inScope x (cur s)) as [|e' r'] eqn:ES.
          - exfalso. apply HX1, E1. destruct (lookup x (outer s)) as [|? ?] eqn:EO; [discriminate|].
            assert (HD : ~ ~ anyDeclared (outer s) x) by (intros H; apply lookup_nil in H; congruence).
            now apply lookup_dec.
          - exists e'. apply inScope_In. rewrite ES. now left. }
        assert (HR : Res V (fun _ => False) (fun _ => False) s (setCur {| sk := sk (cur s); own := moveTo p e (own (cur s)); imps := imps (cur s) |} s)).
        { apply Res_move. }
        destruct HR as [R1 R2 R3 R4 R5 R6]. split; auto. intros y. rewrite R4, HNV. split; [tauto|]. intros [H| ->]; auto.
    + cbn. apply Res_none; auto. intros x [_ (p & i & H)]. discriminate.
Qed.
Lemma Res_assigned V N G t b ss s0 s : fnd s0 = fresh -> fnd s = fnd (foundVariable b ss s0) ->
  Env V N G s -> Forall (stepName V) ss -> (forall x, namesVar b ss x -> x <> this) ->
  Res V (namesVar b ss) (fun _ => False) s (assigned t s).
Proof.
  intros HFr E HE HS HV. destruct HE as [E1 E2 E3 E4 E5]. unfold assigned. rewrite E. unfold foundVariable. rewrite HFr. cbn [fresh VarModel.find].
  cbn [setFnd fnd]. cbn [VarModel.node VarModel.ident VarModel.isArr VarModel.parent]. unfold getIdentifier.
  destruct (lastOf ss) as [st|] eqn:EL.
  - assert (HN : forall x, ~ namesVar b ss x) by (intros x [-> _]; discriminate).
    pose proof (lastOf_step V ss st HS EL) as HT. unfold stepName in HT.
    destruct (parentOf b ss) as [q|]; [|cbn; apply Res_none; auto]. destruct (sname st) as [[p x]|]; [|cbn; apply Res_none; auto].
    cbn [VarModel.node VarModel.ident VarModel.isArr VarModel.parent].
    destruct (Nat.eqb q this); [|apply Res_none; auto]. destruct (thisClass s) as [c|]; [|apply Res_none; auto].
    match goal with |- context[lastOf (filter ?f ?l)] => destruct (lastOf (filter f l)) as [e|] end.
    + destruct (typeAt _ _) as [k| | | | |]; try (apply Res_none; auto; fail). destruct k; try (apply Res_none; auto; fail).
      apply Res_iff with (D := fun _ => False) (I := fun _ => False); [firstorder|tauto|]. apply Res_same; reflexivity.
    + apply Res_iff with (D := fun _ => False) (I := fun _ => False); [firstorder|tauto|]. now apply Res_declareMember.
  - apply lastOf_none in EL. subst ss. destruct b as [p x idx|]; cbn [VarModel.node VarModel.ident VarModel.isArr VarModel.parent].
    + assert (HNV : forall y, namesVar (BName p x idx) [] y <-> y = x).
      { intros y. split; [|intros ->; split; eauto]. intros [_ (p' & i' & H)]. now injection H as _ <- _. }
      apply Res_iff with (D := fun y => y = x) (I := fun _ => False); [intros y; now rewrite HNV|tauto|].
      apply Res_declareVariable. apply HV. now apply HNV.
    + cbn. apply Res_none; auto. intros x [_ (p & i & H)]. discriminate.
Qed.

(** ** Reading the definitions *)
Lemma all_In P l : all P l <-> forall n, In n l -> P n.
Proof.
  induction l as [|k l IH]; cbn.
  - split; [intros _ n []|auto].
  - rewrite IH. split.
    + intros [H1 H2] n [<-|Hn]; auto.
    + auto.
Qed.
Lemma target_one k x : Target (Op [k]) x <-> Target k x.
Proof.
  split; intros H.
  - inversion H as [n y H1 E1|l n y H1 E1]; subst; [inversion H1|]. destruct l as [|a l]; cbn in E1; [now injection E1 as <-|].
    injection E1 as _ E1. destruct l; discriminate.
  - exact (T_op [] k x H).
Qed.
Lemma namesVar_isVar b ss l x : IsVar (Var b ss l) x <-> namesVar b ss x.
Proof.
  split.
  - intros H. inversion H; subst. split; eauto.
  - intros [-> (p & i & ->)]. constructor.
Qed.
Lemma single_found T F V N G g l : single l -> ok V N G g l ->
  exists b ss, (forall s, fnd (visit T F l s) = fnd (foundVariable b ss s)) /\ Forall (stepName V) ss /\
    (forall x, Target l x <-> namesVar b ss x) /\ (forall x, namesVar b ss x -> x <> this).
Proof.
  induction l as [|l IH|b ss l IH|l r IHl IHr|c l IH|n IH|e v1 v2 b IHe IH1 IH2 IHb|p x v IH|p x|t p x b IH|ps us b IH] using nd_ind'; cbn [single]; intros HS HO; try contradiction.
  - destruct l as [|k [|k' l]]; try contradiction. inversion IH as [|? ? IHk _]; subst. cbn [ok all fold_right] in HO. destruct HO as [HO _].
    destruct (IHk HS HO) as (b & ss & H1 & H2 & H3 & H4). exists b, ss. split; [exact H1|]. split; [exact H2|]. split; [|exact H4].
    intros x. now rewrite target_one.
  - exists b, ss. cbn [ok] in HO. destruct HO as [HO _]. split; [intros s; apply fnd_var|]. split; [exact HO|]. split.
    + intros x. rewrite <- (namesVar_isVar b ss l). split.
      * intros H. inversion H; subst; assumption.
      * intros H. now constructor.
    + intros x [-> (p & i & ->)]. exact HS.
Qed.

Lemma gives_op l x : Gives (Op l) x <-> exists k, In k l /\ Gives k x.
Proof.
  split.
  - intros H. inversion H as [| | | | | | | |n k y HP HG E1 E2]; subst. inversion HP; subst. eauto.
  - intros (k & H1 & H2). apply (G_part _ k); [constructor; exact H1|exact H2].
Qed.
Lemma gives_var b ss l x : Gives (Var b ss l) x <-> exists k, In k l /\ Gives k x.
Proof.
  split.
  - intros H. inversion H as [| | | | | | | |n k y HP HG E1 E2]; subst. inversion HP; subst. eauto.
  - intros (k & H1 & H2). apply (G_part _ k); [constructor; exact H1|exact H2].
Qed.
Lemma gives_assign l r x : Gives (Assign l r) x <-> (Gives l x \/ Gives r x) \/ Target l x.
Proof.
  split.
  - intros H. inversion H as [l' r' y HT| | | | | | | |n k y HP HG E1 E2]; subst; [auto|]. inversion HP; subst; auto.
  - intros [[H|H]|H]; [eapply G_part; [apply P_left|exact H]|eapply G_part; [apply P_right|exact H]|now constructor].
Qed.
Lemma gives_call c l x : Gives (Call c l) x <->
  (exists k, In k l /\ Gives k x) \/ exists i a, nth_error l i = Some a /\ nth i (refs c) false = true /\ IsVar a x.
Proof.
  split.
  - intros H. inversion H as [|c' args i a y H1 H2 H3| | | | | | |n k y HP HG E1 E2]; subst; [right; eauto|]. inversion HP; subst. eauto.
  - intros [(k & H1 & H2)|(i & a & H1 & H2 & H3)]; [apply (G_part _ k); [constructor; exact H1|exact H2]|eapply G_ref; eassumption].
Qed.
Lemma gives_elem k x : Gives (Elem k) x <-> Gives k x \/ IsVar k x.
Proof.
  split.
  - intros H. inversion H as [| |n y HV| | | | | |n j y HP HG E1 E2]; subst; [auto|]. inversion HP; subst. auto.
  - intros [H|H]; [eapply G_part; [apply P_elem|exact H]|now constructor].
Qed.
Lemma gives_static p x v y : Gives (StaticVar p x v) y <-> Gives v y \/ y = x.
Proof.
  split.
  - intros H. inversion H as [| | | | | | | |n j z HP HG E1 E2]; subst; [auto|]. inversion HP; subst. auto.
  - intros [H| ->]; [eapply G_part; [apply P_static|exact H]|constructor].
Qed.
Lemma gives_catch t p x b y : Gives (Catch t p x b) y <-> Gives b y \/ y = x.
Proof.
  split.
  - intros H. inversion H as [| | | | | | | |n j z HP HG E1 E2]; subst; [auto|]. inversion HP; subst. auto.
  - intros [H| ->]; [eapply G_part; [apply P_catch|exact H]|constructor].
Qed.
Lemma gives_each e v1 v2 b x : Gives (Foreach e v1 v2 b) x <->
  Gives e x \/ Gives v1 x \/ (exists v, v2 = Some v /\ Gives v x) \/ Gives b x \/ (exists v, v2 = Some v /\ IsVar v x) \/ IsVar v1 x.
Proof.
  split.
  - intros H. inversion H as [| | |e' v1' v2' b' y HV|e' v1' v2' b' y HV| | | |n j z HP HG E1 E2]; subst; [tauto|eauto 10|]. inversion HP; subst; eauto 10.
  - intros [H|[H|[(v & -> & H)|[H|[(v & -> & H)|H]]]]].
    + eapply G_part; [apply P_each|exact H].
    + eapply G_part; [apply P_each1|exact H].
    + eapply G_part; [apply P_each2|exact H].
    + eapply G_part; [apply P_body|exact H].
    + now apply G_each2.
    + now apply G_each1.
Qed.
Lemma gives_fun ps us b x : ~ Gives (Fun ps us b) x.
Proof. intros H. inversion H as [| | | | | | | |n j z HP HG E1 E2]; subst. inversion HP. Qed.

Lemma inside_op l f : Inside (Op l) f <-> exists k, In k l /\ Inside k f.
Proof. split; [intros H; inversion H as [| |n k g HP HG]; subst; inversion HP; subst; eauto|]. intros (k & H1 & H2). apply (I_part _ k); [constructor; exact H1|exact H2]. Qed.
Lemma inside_var b ss l f : Inside (Var b ss l) f <-> exists k, In k l /\ Inside k f.
Proof. split; [intros H; inversion H as [| |n k g HP HG]; subst; inversion HP; subst; eauto|]. intros (k & H1 & H2). apply (I_part _ k); [constructor; exact H1|exact H2]. Qed.
Lemma inside_call c l f : Inside (Call c l) f <-> exists k, In k l /\ Inside k f.
Proof. split; [intros H; inversion H as [| |n k g HP HG]; subst; inversion HP; subst; eauto|]. intros (k & H1 & H2). apply (I_part _ k); [constructor; exact H1|exact H2]. Qed.
Lemma inside_assign l r f : Inside (Assign l r) f <-> Inside l f \/ Inside r f.
Proof. split; [intros H; inversion H as [| |n k g HP HG]; subst; inversion HP; subst; auto|]. intros [H|H]; (eapply I_part; [|exact H]; constructor). Qed.
Lemma inside_elem k f : Inside (Elem k) f <-> Inside k f.
Proof. split; [intros H; inversion H as [| |n j g HP HG]; subst; inversion HP; subst; auto|]. intros H; (eapply I_part; [|exact H]; constructor). Qed.
Lemma inside_static p x v f : Inside (StaticVar p x v) f <-> Inside v f.
Proof. split; [intros H; inversion H as [| |n j g HP HG]; subst; inversion HP; subst; auto|]. intros H; (eapply I_part; [|exact H]; constructor). Qed.
Lemma inside_catch t p x b f : Inside (Catch t p x b) f <-> Inside b f.
Proof. split; [intros H; inversion H as [| |n j g HP HG]; subst; inversion HP; subst; auto|]. intros H; (eapply I_part; [|exact H]; constructor). Qed.
Lemma inside_each e v1 v2 b f : Inside (Foreach e v1 v2 b) f <->
  Inside e f \/ Inside v1 f \/ (exists v, v2 = Some v /\ Inside v f) \/ Inside b f.
Proof.
  split; [intros H; inversion H as [| |n j g HP HG]; subst; inversion HP; subst; eauto 10|].
  intros [H|[H|[(v & -> & H)|H]]]; (eapply I_part; [|exact H]; constructor).
Qed.
Lemma inside_fun ps us b f : Inside (Fun ps us b) f <-> f = Fun ps us b \/ Inside b f.
Proof.
  split.
  - intros H. inversion H as [| |n j g HP HG]; subst; [auto|auto|inversion HP].
  - intros [->|H]; constructor. exact H.
Qed.
