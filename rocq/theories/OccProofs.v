(** Proofs for C72: where variables are declared (proof file). *)
From Coq Require Import List Bool Arith Lia.
From Verif Require Import PhpTypes MergeModel VarModel VarSpec VarProofs VarProofs2 VarProofs3 OccSpec.
Import ListNotations.
Open Scope nat_scope.

(** ** Effect on the positions *)
Definition Inv (Gl : nat -> Prop) (c : scope) : Prop :=
  Forall (fun e => isVar e = true /\ (ea e = true -> Gl (en e))) (own c) /\ Forall (fun e => isVar e = true) (imps c).
Record Pres (D : nat -> nat -> how -> Prop) (s s' : st) : Prop := {
  p_known : forall x p, Known (cur s') x p <-> Known (cur s) x p \/ exists q h, q <= p /\ D x q h;
  p_imps : imps (cur s') = imps (cur s);
  p_own : forall e, In e (own (cur s')) -> (exists e0, In e0 (own (cur s)) /\ en e0 = en e /\ ep e0 = ep e) \/ exists h, D (en e) (ep e) h;
  p_inv : forall Gl : nat -> Prop, (forall x q, D x q ByGlobal -> Gl x) -> Inv Gl (cur s) -> Inv Gl (cur s')
}.
Lemma Pres_same D s s' : (forall x q h, ~ D x q h) -> cur s' = cur s -> Pres D s s'.
Proof.
  intros HD E. split; rewrite ?E; auto.
  - intros x p. split; [auto|]. intros [H|(q & h & _ & H)]; [exact H|]. destruct (HD _ _ _ H).
  - intros e He. left. eauto.
Qed.
Lemma Pres_trans D1 D2 a b c : Pres D1 a b -> Pres D2 b c -> Pres (fun x q h => D1 x q h \/ D2 x q h) a c.
Proof.
  intros [A1 A2 A3 A4] [B1 B2 B3 B4]. split.
  - intros x p. rewrite B1, A1. split.
    + intros [[H|(q & h & H1 & H2)]|(q & h & H1 & H2)]; [auto|right; exists q, h; auto..].
    + intros [H|(q & h & H1 & [H2|H2])]; [auto|left; right; eauto|right; eauto].
  - congruence.
  - intros e He. destruct (B3 e He) as [(e0 & H1 & H2 & H3)|(h & H)]; [|right; eauto].
    destruct (A3 e0 H1) as [(e1 & H4 & H5 & H6)|(h & H)].
    + left. exists e1. rewrite H5, H6. auto.
    + right. exists h. left. congruence.
  - intros Gl HG HI. apply B4; [intros x q H; apply (HG x q); auto|]. apply A4; [intros x q H; apply (HG x q); auto|exact HI].
Qed.
Lemma Pres_iff D D' a b : (forall x q h, D x q h <-> D' x q h) -> Pres D a b -> Pres D' a b.
Proof.
  intros HD [A1 A2 A3 A4]. split; auto.
  - intros x p. rewrite A1. split; (intros [H|(q & h & H1 & H2)]; [auto|right; exists q, h; split; [exact H1|now apply HD]]).
  - intros e He. destruct (A3 e He) as [H|(h & H)]; [auto|]. right. exists h. now apply HD.
  - intros Gl HG. apply A4. intros x q H. apply (HG x q). now apply HD.
Qed.
Lemma Pres_ext D a a' b b' : cur a' = cur a -> cur b' = cur b -> Pres D a b -> Pres D a' b'.
Proof. intros E1 E2 [A1 A2 A3 A4]. split; rewrite ?E1, ?E2; auto. Qed.
Lemma Pres_then D a b b' : Pres D a b -> cur b' = cur b -> Pres D a b'.
Proof. intros H E. now apply (Pres_ext D a a b b'). Qed.

Lemma Pres_add h e s s' : isVar e = true -> (ea e = true -> h = ByGlobal) -> cur s' = addOwn e (cur s) ->
  Pres (fun x q h' => x = en e /\ q = ep e /\ h' = h) s s'.
Proof.
  intros HV HA E. split; rewrite ?E; unfold addOwn; cbn [imps own].
  - intros x p. unfold Known. cbn [imps own]. split.
    + intros (d & Hd & Ex & Hp). rewrite <- app_assoc in Hd. apply in_app_iff in Hd as [Hd|[<-|Hd]].
      * left. exists d. rewrite in_app_iff. auto.
      * right. exists (ep e), h. auto.
      * left. exists d. rewrite in_app_iff. auto.
    + intros [(d & Hd & Ex & Hp)|(q & h' & Hq & -> & -> & ->)].
      * exists d. rewrite <- app_assoc, in_app_iff. cbn. rewrite in_app_iff in Hd. tauto.
      * exists e. rewrite <- app_assoc, in_app_iff. cbn. auto.
  - reflexivity.
  - intros d Hd. apply in_app_iff in Hd as [Hd|[<-|[]]]; [left; eauto|right]. exists h. auto.
  - intros Gl HG [H1 H2]. split; cbn [own imps]; [|exact H2]. apply Forall_app. split; [exact H1|]. constructor; [|constructor]. split; [exact HV|].
    intros H. apply (HG _ (ep e)). rewrite (HA H). auto.
Qed.
Lemma Pres_open h x p t s : Pres (fun y q h' => y = x /\ q = p /\ h' = h) s (openVariable x p t s).
Proof. apply (Pres_add h (newEntry EVariable x p t s)); [reflexivity|discriminate|reflexivity]. Qed.
Lemma before_In p l e : In e (before p l) <-> In e l /\ ep e < p.
Proof. unfold before. rewrite filter_In, Nat.ltb_lt. tauto. Qed.
Lemma inScopeBefore_lt x p c e : In e (inScopeBefore x p c) -> ep e < p.
Proof.
  unfold inScopeBefore. destruct (before p (named x (own c))) as [|d l] eqn:E.
  - rewrite before_In. tauto.
  - rewrite <- E, before_In. tauto.
Qed.
Lemma Pres_declareVariable h t x p s : x <> this -> Pres (fun y q h' => y = x /\ q = p /\ h' = h) s (declareVariable t x p s).
Proof.
  intros HX. unfold declareVariable. apply Nat.eqb_neq in HX. rewrite HX.
  destruct (lastOf _) as [e|] eqn:E; [|apply Pres_open].
  apply lastOf_In in E. apply filter_In in E as [E EV]. pose proof (inScopeBefore_lt _ _ _ _ E) as EP. apply inScopeBefore_In in E as [E1 E2].
  split; cbn [cur setHeap].
  - intros y q. split; [auto|]. intros [H|(r & h' & H1 & -> & -> & _)]; [exact H|]. exists e. split; [exact E1|]. split; [exact E2|]. lia.
  - reflexivity.
  - intros d Hd. left. eauto.
  - auto.
Qed.
Lemma Pres_declareMember t x p s : Pres (fun _ _ _ => False) s (declareMember t x p s).
Proof.
  unfold declareMember. destruct (outer s) as [|c r]; [apply Pres_same; auto|]. destruct (sk c); try (apply Pres_same; auto; fail).
  destruct (existsb _ _); apply Pres_same; auto.
Qed.
Lemma Pres_none (D : nat -> nat -> how -> Prop) s s' : Pres (fun _ _ _ => False) s s' -> (forall x q h, ~ D x q h) -> Pres D s s'.
Proof. intros H HD. eapply Pres_iff; [|exact H]. intros x q h. specialize (HD x q h). tauto. Qed.

Definition namesAt (b : base) (ss : list step) (x p : nat) : Prop := ss = [] /\ exists idx, b = BName p x idx.
Lemma Pres_declareFound V N G Gl t b ss s0 s : fnd s0 = fresh -> fnd s = fnd (foundVariable b ss s0) ->
  Env V N G s -> (forall x, namesVar b ss x -> ~ V x /\ x <> this) -> (forall p x idx, ss = [] -> b = BName p x idx -> idx = false) ->
  Inv Gl (cur s) -> (forall x p, namesAt b ss x p -> ~ Gl x /\ forall e, In e (imps (cur s)) -> ep e <= p) ->
  Pres (fun x p h => namesAt b ss x p /\ h = ByPlace) s (declareFound t s).
Proof.
  intros HFr E HE HV HI HInv HG. destruct HE as [E1 E2 E3 E4 E5]. unfold declareFound. rewrite E. unfold foundVariable. rewrite HFr. cbn [fresh VarModel.find].
  cbn [setFnd fnd]. cbn [VarModel.node VarModel.ident VarModel.isArr VarModel.parent]. unfold getIdentifier.
  assert (Same : forall D, (forall x q h, ~ D x q h) -> Pres D s s) by (intros D H; now apply Pres_same).
  destruct (lastOf ss) as [tt|] eqn:EL.
  - assert (HN : forall x p h, ~ (namesAt b ss x p /\ h = ByPlace)) by (intros x p h [[-> _] _]; discriminate).
    destruct (parentOf b ss) as [q|]; [|cbn; auto]. destruct (sname tt) as [[p x]|]; [|cbn; auto]. cbn.
    destruct (sindexed tt); [auto|]. destruct (Nat.eqb q this); [|auto].
    destruct (thisClass s); [|auto]. destruct (lookup x (outer s)); [|auto].
    apply Pres_none; [apply Pres_declareMember|exact HN].
  - apply lastOf_none in EL. subst ss. destruct b as [p x idx|]; cbn [VarModel.node VarModel.ident VarModel.isArr VarModel.parent].
    + pose proof (HI p x idx eq_refl eq_refl) as HI'. subst idx. assert (HX : namesVar (BName p x false) [] x) by (split; eauto). destruct (HV x HX) as [HX1 HX2].
      assert (HA : namesAt (BName p x false) [] x p) by (split; eauto). destruct (HG x p HA) as [HG1 HG2].
      assert (HNV : forall y q h, (y = x /\ q = p /\ h = ByPlace) <-> (namesAt (BName p x false) [] y q /\ h = ByPlace)).
      { intros y q h. split; [intros (-> & -> & ->); auto|]. intros [[_ (i & H)] ->]. now injection H as <- <- _. }
      apply (Pres_iff _ _ _ _ HNV). clear HNV.
      destruct (lookup x (cur s :: outer s)) as [|e r] eqn:ELk.
      * apply lookup_nil in ELk.
        assert (HT : inScope x (topOf s) = []).
        { apply inScope_nil. intros HD. apply ELk. exists (topOf s). split; [|exact HD]. unfold topOf.
          destruct (outer s) as [|c o] using rev_ind; [now left|]. rewrite last_last. right. apply in_app_iff. right. now left. }
        rewrite HT. cbn [filter]. now apply Pres_declareVariable.
      * assert (HC : In e (inScope x (cur s))).
        { cbn [lookup] in ELk. destruct (inScope x (cur s)) as [|e' r'] eqn:ES.
          - exfalso. apply HX1, E1. destruct (lookup x (outer s)) as [|? ?] eqn:EO; [discriminate|].
            assert (HD : ~ ~ anyDeclared (outer s) x) by (intros H; apply lookup_nil in H; congruence).
            now apply lookup_dec.
          - injection ELk as -> ->. now left. }
        apply inScope_In in HC as [HC HCx]. destruct HInv as [HO HIm].
        assert (HM : forall d, let d' := if moves p e d then movedTo p d else d in
                     en d' = en d /\ isVar d' = isVar d /\ ea d' = ea d /\ ep d' <= ep d /\ (ep d' = ep d \/ (en d = x /\ ep d' = p))).
        { intros d d'. unfold d'. destruct (moves p e d) eqn:EM; [|auto 8]. unfold moves in EM. rewrite !andb_true_iff in EM.
          destruct EM as [[[EM1 EM2] EM3] EM4]. apply Nat.ltb_lt in EM4. apply Nat.eqb_eq in EM1. cbn. repeat split; auto; [lia|right; split; congruence]. }
        split; cbn [cur setCur own imps].
        -- intros y q. unfold Known. cbn [own imps]. split.
           ++ intros (d & Hd & Ex & Hq). apply in_app_iff in Hd as [Hd|Hd]; [|left; exists d; rewrite in_app_iff; auto].
              unfold moveTo in Hd. apply in_map_iff in Hd as (d0 & <- & Hd). destruct (HM d0) as (M1 & M2 & M3 & M4 & M5). cbv zeta in *.
              destruct M5 as [M5|[M5 M6]].
              ** left. exists d0. rewrite in_app_iff. rewrite M1 in Ex. split; [auto|]. split; [exact Ex|]. lia.
              ** right. exists p, ByPlace. split; [lia|]. split; [congruence|auto].
           ++ intros [(d & Hd & Ex & Hq)|(q' & h & Hq & -> & -> & ->)].
              ** apply in_app_iff in Hd as [Hd|Hd]; [|exists d; rewrite in_app_iff; auto]. destruct (HM d) as (M1 & M2 & M3 & M4 & M5). cbv zeta in *.
                 exists (if moves p e d then movedTo p d else d). split; [apply in_app_iff; left; unfold moveTo; apply in_map_iff; eauto|]. split; [congruence|lia].
              ** apply in_app_iff in HC as [HC|HC]; [|exists e; rewrite in_app_iff; split; [auto|]; split; [exact HCx|]; specialize (HG2 e HC); lia].
                 exists (if moves p e e then movedTo p e else e). destruct (HM e) as (M1 & _). cbv zeta in M1. split; [apply in_app_iff; left; unfold moveTo; apply in_map_iff; eauto|].
                 split; [congruence|]. unfold moves. rewrite !Nat.eqb_refl. cbn [andb].
                 assert (EA : ea e = false).
                 { destruct (ea e) eqn:EA; [|reflexivity]. exfalso. rewrite Forall_forall in HO. destruct (HO e HC) as [_ HGl]. rewrite HCx in HGl. auto. }
                 rewrite EA. cbn [negb andb]. destruct (p <? ep e) eqn:EL2; [exact Hq|]. apply Nat.ltb_ge in EL2. lia.
        -- reflexivity.
        -- intros d Hd. unfold moveTo in Hd. apply in_map_iff in Hd as (d0 & <- & Hd). destruct (HM d0) as (M1 & M2 & M3 & M4 & M5). cbv zeta in *.
           destruct M5 as [M5|[M5 M6]]; [left; exists d0; auto|]. right. exists ByPlace. split; [congruence|auto].
        -- intros Gl' HG' [A1 A2]. split; cbn [own imps]; [|exact A2]. rewrite Forall_forall in *. intros d Hd. unfold moveTo in Hd. apply in_map_iff in Hd as (d0 & <- & Hd).
           destruct (HM d0) as (M1 & M2 & M3 & M4 & M5). cbv zeta in *. rewrite M1, M2, M3. auto.
    + cbn. apply Same. intros x q h [[_ (i & H)] _]. discriminate.
Qed.
Lemma Pres_assigned t b ss s0 s : fnd s0 = fresh -> fnd s = fnd (foundVariable b ss s0) -> (forall x, namesVar b ss x -> x <> this) ->
  Pres (fun x p h => namesAt b ss x p /\ h = ByAssignment) s (assigned t s).
Proof.
  intros HFr E HV. unfold assigned. rewrite E. unfold foundVariable. rewrite HFr. cbn [fresh VarModel.find].
  cbn [setFnd fnd]. cbn [VarModel.node VarModel.ident VarModel.isArr VarModel.parent]. unfold getIdentifier.
  assert (Same : forall D, (forall x q h, ~ D x q h) -> Pres D s s) by (intros D H; now apply Pres_same).
  destruct (lastOf ss) as [tt|] eqn:EL.
  - assert (HN : forall x p h, ~ (namesAt b ss x p /\ h = ByAssignment)) by (intros x p h [[-> _] _]; discriminate).
    destruct (parentOf b ss) as [q|]; [|cbn; auto]. destruct (sname tt) as [[p x]|]; [|cbn; auto].
    cbn [VarModel.node VarModel.ident VarModel.isArr VarModel.parent].
    destruct (Nat.eqb q this); [|auto]. destruct (thisClass s) as [c|]; [|auto].
    match goal with |- context[lastOf (filter ?f ?l)] => destruct (lastOf (filter f l)) as [e|] end.
    + destruct (typeAt _ _) as [k| | | | |]; try (apply Same; auto; fail). destruct k; try (apply Same; auto; fail).
      now apply Pres_same.
    + apply Pres_none; [apply Pres_declareMember|exact HN].
  - apply lastOf_none in EL. subst ss. destruct b as [p x idx|]; cbn [VarModel.node VarModel.ident VarModel.isArr VarModel.parent].
    + eapply Pres_iff; [|apply (Pres_declareVariable ByAssignment)].
      * intros y q h. split; [intros (-> & -> & ->); split; [split; eauto|auto]|]. intros [[_ (i & H)] ->]. now injection H as <- <- _.
      * apply HV. split; eauto.
    + cbn. apply Same. intros x q h [[_ (i & H)] _]. discriminate.
Qed.

(** ** Reading the specification *)
Lemma givesAt_op l x p h : GivesAt (Op l) x p h <-> exists k, In k l /\ GivesAt k x p h.
Proof.
  split.
  - intros H. inversion H as [| | | | | | | |n k y q h' HP HG]; subst. inversion HP; subst. eauto.
  - intros (k & H1 & H2). apply (GA_part _ k); [constructor; exact H1|exact H2].
Qed.
Lemma givesAt_var b ss l x p h : GivesAt (Var b ss l) x p h <-> exists k, In k l /\ GivesAt k x p h.
Proof.
  split.
  - intros H. inversion H as [| | | | | | | |n k y q h' HP HG]; subst. inversion HP; subst. eauto.
  - intros (k & H1 & H2). apply (GA_part _ k); [constructor; exact H1|exact H2].
Qed.
Lemma givesAt_assign l r x p h : GivesAt (Assign l r) x p h <-> (GivesAt l x p h \/ GivesAt r x p h) \/ (TargetAt l x p /\ h = ByAssignment).
Proof.
  split.
  - intros H. inversion H as [l' r' y q HT| | | | | | | |n k y q h' HP HG]; subst; [auto|]. inversion HP; subst; auto.
  - intros [[H|H]|[H ->]]; [eapply GA_part; [apply P_left|exact H]|eapply GA_part; [apply P_right|exact H]|now constructor].
Qed.
Lemma givesAt_call c l x p h : GivesAt (Call c l) x p h <->
  (exists k, In k l /\ GivesAt k x p h) \/ exists i a, nth_error l i = Some a /\ nth i (refs c) false = true /\ IsVarAt a x p /\ h = ByPlace.
Proof.
  split.
  - intros H. inversion H as [|c' args i a y q H1 H2 H3| | | | | | |n k y q h' HP HG]; subst; [right; exists i, a; auto|]. inversion HP; subst. eauto.
  - intros [(k & H1 & H2)|(i & a & H1 & H2 & H3 & ->)]; [apply (GA_part _ k); [constructor; exact H1|exact H2]|eapply GA_ref; eassumption].
Qed.
Lemma givesAt_elem k x p h : GivesAt (Elem k) x p h <-> GivesAt k x p h \/ (IsVarAt k x p /\ h = ByPlace).
Proof.
  split.
  - intros H. inversion H as [| |n y q HV| | | | | |n j y q h' HP HG]; subst; [auto|]. inversion HP; subst. auto.
  - intros [H|[H ->]]; [eapply GA_part; [apply P_elem|exact H]|now constructor].
Qed.
Lemma givesAt_static p x v y q h : GivesAt (StaticVar p x v) y q h <-> GivesAt v y q h \/ (y = x /\ q = p /\ h = ByStatic).
Proof.
  split.
  - intros H. inversion H as [| | | | | | | |n j z r h' HP HG]; subst; [auto|]. inversion HP; subst. auto.
  - intros [H|(-> & -> & ->)]; [eapply GA_part; [apply P_static|exact H]|constructor].
Qed.
Lemma givesAt_catch t p x b y q h : GivesAt (Catch t p x b) y q h <-> GivesAt b y q h \/ (y = x /\ q = p /\ h = ByCatch).
Proof.
  split.
  - intros H. inversion H as [| | | | | | | |n j z r h' HP HG]; subst; [auto|]. inversion HP; subst. auto.
  - intros [H|(-> & -> & ->)]; [eapply GA_part; [apply P_catch|exact H]|constructor].
Qed.
Lemma givesAt_global p x y q h : GivesAt (GlobalVar p x) y q h <-> y = x /\ q = p /\ h = ByGlobal.
Proof.
  split.
  - intros H. inversion H as [| | | | | | | |n j z r h' HP HG]; subst; [auto|]. inversion HP.
  - intros (-> & -> & ->). constructor.
Qed.
Lemma givesAt_each e v1 v2 b x p h : GivesAt (Foreach e v1 v2 b) x p h <->
  GivesAt e x p h \/ GivesAt v1 x p h \/ (exists v, v2 = Some v /\ GivesAt v x p h) \/ GivesAt b x p h \/
  (exists v, v2 = Some v /\ IsVarAt v x p /\ h = ByPlace) \/ (IsVarAt v1 x p /\ h = ByPlace).
Proof.
  split.
  - intros H. inversion H as [| | |e' v1' v2' b' y q HV|e' v1' v2' b' y q HV| | | |n j z q h' HP HG]; subst; [tauto|eauto 10|]. inversion HP; subst; eauto 10.
  - intros [H|[H|[(v & -> & H)|[H|[(v & -> & H & ->)|[H ->]]]]]].
    + eapply GA_part; [apply P_each|exact H].
    + eapply GA_part; [apply P_each1|exact H].
    + eapply GA_part; [apply P_each2|exact H].
    + eapply GA_part; [apply P_body|exact H].
    + now apply GA_each2.
    + now apply GA_each1.
Qed.
Lemma givesAt_fun ps us b x p h : ~ GivesAt (Fun ps us b) x p h.
Proof. intros H. inversion H as [| | | | | | | |n j z q h' HP HG]; subst. inversion HP. Qed.
Lemma givesAt_val x p h : ~ GivesAt Val x p h.
Proof. intros H. inversion H as [| | | | | | | |n j z q h' HP HG]; subst. inversion HP. Qed.
Lemma namesAt_isVarAt b ss l x p : IsVarAt (Var b ss l) x p <-> namesAt b ss x p.
Proof.
  split.
  - intros H. inversion H; subst. split; eauto.
  - intros [-> (i & ->)]. constructor.
Qed.
Lemma targetAt_one k x p : TargetAt (Op [k]) x p <-> TargetAt k x p.
Proof.
  split; intros H.
  - inversion H as [n y q H1 E1|l n y q H1 E1]; subst; [inversion H1|]. destruct l as [|a l]; cbn in E1; [now injection E1 as <-|].
    injection E1 as _ E1. destruct l; discriminate.
  - exact (TA_op [] k x p H).
Qed.
Lemma targetAt_var b ss l x p : TargetAt (Var b ss l) x p <-> namesAt b ss x p.
Proof.
  rewrite <- (namesAt_isVarAt b ss l). split; [|now constructor]. intros H. inversion H; subst; assumption.
Qed.
Lemma single_foundAt T F l : single l -> exists b ss, (forall s, fnd (visit T F l s) = fnd (foundVariable b ss s)) /\
    (forall x p, TargetAt l x p <-> namesAt b ss x p) /\ (forall x, namesVar b ss x -> x <> this).
Proof.
  induction l as [|l IH|b ss l IH|l r IHl IHr|c l IH|n IH|e v1 v2 b IHe IH1 IH2 IHb|p x v IH|p x|t p x b IH|ps us b IH] using nd_ind'; cbn [single]; intros HS; try contradiction.
  - destruct l as [|k [|k' l]]; try contradiction. inversion IH as [|? ? IHk _]; subst.
    destruct (IHk HS) as (b & ss & H1 & H3 & H4). exists b, ss. split; [exact H1|]. split; [|exact H4].
    intros x p. now rewrite targetAt_one.
  - exists b, ss. split; [intros s; apply fnd_var|]. split; [intros x p; apply targetAt_var|].
    intros x [-> (p & i & ->)]. exact HS.
Qed.
