(** Proofs for C67, continued (proof file). *)
From Coq Require Import List Bool Arith Lia.
From Verif Require Import PhpTypes MergeModel VarModel VarSpec VarProofs VarProofs2 PropertySpec PropertyProofs.
Import ListNotations.
Open Scope nat_scope.

Definition PR (D M : nat -> Prop) (s s' : st) : Prop := forall c r,
  outer s = c :: r -> isClass c = true -> isClass (cur s) = false ->
  exists c', outer s' = c' :: r /\ (forall x, declared c' x -> declared c x \/ D x) /\
    (forall x, D x -> ~ M x -> ~ declared (cur s) x -> ~ anyDeclared r x -> declared c' x \/ upcoming c x).

Lemma PR_none (D M : nat -> Prop) s s' : (forall x, ~ D x) -> outer s' = outer s -> PR D M s s'.
Proof. intros H E c r EO _ _. exists c. rewrite E. split; [exact EO|]. split; [auto|]. intros x HX. now apply H in HX. Qed.
Lemma PR_trans (D1 D2 M : nat -> Prop) a b c : Mv M a b -> Mv M b c -> PR D1 M a b -> PR D2 M b c -> PR (fun x => D1 x \/ D2 x) M a c.
Proof.
  intros HA HB H1 H2 k r EO HK HC. destruct (H1 k r EO HK HC) as (k1 & E1 & A1 & B1).
  pose proof (m_outer _ _ _ HA) as HO. rewrite EO, E1 in HO. cbn in HO. destruct HO as (_ & S1 & _ & _).
  assert (HK1 : isClass k1 = true) by (unfold isClass in *; now rewrite S1).
  assert (HC1 : isClass (cur b) = false) by (unfold isClass in *; now rewrite (m_sk _ _ _ HA)).
  destruct (H2 k1 r E1 HK1 HC1) as (k2 & E2 & A2 & B2). pose proof (m_outer _ _ _ HB) as HO. rewrite E1, E2 in HO. cbn in HO. destruct HO as (_ & S2 & K2 & _).
  exists k2. split; [exact E2|]. split.
  - intros x HX. apply A2 in HX as [HX|HX]; [|auto]. apply A1 in HX as [HX|HX]; auto.
  - intros x [HX|HX] HM HD HR.
    + destruct (B1 x HX HM HD HR) as [HH|HH]; auto.
    + destruct (B2 x HX HM) as [HH|HH]; auto.
      * intros HD'. apply (m_cur _ _ _ HA HC) in HD' as [HD'|HD']; auto.
      * right. unfold upcoming in *. now rewrite S1 in HH.
Qed.
Lemma PR_iff (D D' M M' : nat -> Prop) a b : (forall x, D x <-> D' x) -> (forall x, M x -> M' x) -> PR D M a b -> PR D' M' a b.
Proof.
  intros H1 H2 H c r EO HK HC. destruct (H c r EO HK HC) as (c' & E & A & B). exists c'. split; [exact E|]. split.
  - intros x HX. apply A in HX as [HX|HX]; [auto|]. right. now apply H1.
  - intros x HX HM. apply B; [now apply H1|]. intros K. apply HM. auto.
Qed.
Lemma PR_ext D M a a' b b' : outer a' = outer a -> cur a' = cur a -> outer b' = outer b -> PR D M a b -> PR D M a' b'.
Proof. intros E1 E2 E3 H c r. rewrite E1, E2, E3. apply H. Qed.

(** Declaring a member. *)
Lemma PR_member M t x p s : PR (fun y => y = x) M s (declareMember t x p s).
Proof.
  intros c r EO HK HC. unfold declareMember. rewrite EO. unfold isClass in HK. destruct (sk c) as [|aa ab o up|] eqn:EK; try discriminate.
  destruct (existsb (Nat.eqb x) up) eqn:EX.
  - exists c. split; [exact EO|]. split; [auto|]. intros y -> _ _ _. right. unfold upcoming. rewrite EK. apply existsb_exists in EX as (z & Hz & E). apply Nat.eqb_eq in E. now subst.
  - exists (addOwn (newEntry (EMember false) x p t s) c). split; [reflexivity|]. split.
    + intros y HY. apply declared_add in HY as [HY| ->]; auto.
    + intros y -> _ _ _. left. apply declared_add. now right.
Qed.

(** What was found, from the start. *)
Definition found (b : base) (ss : list step) (s : st) : Prop := exists s0, fnd s0 = fresh /\ fnd s = fnd (foundVariable b ss s0).
Lemma found_this b ss s : found b ss s -> Forall notThis ss -> called b ss = false -> parent (fnd s) = Some this ->
  exists p t, b = BName p this false /\ ss = [t] /\ scalled t = false /\ ident (fnd s) = option_map snd (sname t) /\ node (fnd s) = option_map fst (sname t) /\ (sname t <> None -> isArr (fnd s) = sindexed t).
Proof.
  intros (s0 & E0 & ->) HT HC. unfold foundVariable. rewrite E0. cbn. unfold getIdentifier.
  destruct (lastOf ss) as [t|] eqn:EL; [|destruct b; discriminate].
  destruct (parentOf b ss) as [q|] eqn:EP; [|discriminate].
  assert (HQ : q = this -> exists p, b = BName p this false /\ ss = [t]).
  { intros ->. unfold parentOf in EP. destruct (rev ss) as [|u [|v l]] eqn:ER; [discriminate| |].
    - apply (f_equal (@rev step)) in ER. rewrite rev_involutive in ER. cbn in ER. subst ss. injection EL as ->. destruct b as [p x [|]|]; try discriminate. injection EP as ->. eauto.
    - exfalso. destruct (sindexed v); [discriminate|]. destruct (sname v) as [[pv xv]|] eqn:ES; [|discriminate]. injection EP as ->.
      assert (HI : In v ss) by (apply in_rev; rewrite ER; right; now left). rewrite Forall_forall in HT. specialize (HT v HI). unfold notThis in HT. rewrite ES in HT. congruence. }
  unfold called in HC. rewrite EL in HC.
  destruct (sname t) as [[pt xt]|] eqn:ES; cbn; intros [= E]; destruct (HQ E) as (p & E1 & E2); exists p, t; rewrite ES; repeat split; auto. congruence.
Qed.
Lemma isProp_found b ss s parts x : found b ss s -> IsProp (Var b ss parts) x -> ident (fnd s) = Some x /\ parent (fnd s) = Some this /\ node (fnd s) <> None /\ isArr (fnd s) = indexed ss.
Proof. intros (s0 & E0 & ->) H. inversion H; subst. unfold foundVariable. rewrite E0. cbn. repeat split; auto. discriminate. Qed.

Lemma thisClass_some s c r : outer s = c :: r -> isClass c = true -> thisClass s = Some c.
Proof. intros E H. unfold thisClass. rewrite E. unfold isClass in H. destruct (sk c); congruence. Qed.
Lemma outer_declareVariable t x p s : outer (declareVariable t x p s) = outer s.
Proof.
  unfold declareVariable. destruct (if Nat.eqb x this then _ else None) as [[|aa ab n up|]|]; try (destruct (lastOf _); reflexivity).
  destruct (aa && _); [destruct ((n <? 4) && _)|]; reflexivity.
Qed.
Lemma anyDeclared_app x c r : anyDeclared (c :: r) x <-> declared c x \/ anyDeclared r x.
Proof. split; [intros (d & [<-|H] & HD); [auto|right; exists d; auto]|]. intros [H|(d & H & HD)]; [exists c; cbn; auto|exists d; cbn; auto]. Qed.

(** A property that is not declared because something else is found: then it is declared in the class
    already, or is a name the claim says nothing about. *)
Lemma PR_keep (M : nat -> Prop) (D : nat -> Prop) s s' : outer s' = outer s ->
  (forall x c r, outer s = c :: r -> D x -> declared (cur s) x \/ declared c x \/ anyDeclared r x) -> PR D M s s'.
Proof.
  intros E H c r EO HK HC. exists c. rewrite E. split; [exact EO|]. split; [auto|]. intros x HX HM HD HR. destruct (H x c r EO HX) as [K|[K|K]]; tauto.
Qed.
Lemma lookup_some x l e : In e (lookup x l) -> anyDeclared l x.
Proof.
  intros H. destruct (lookup x l) as [|d r] eqn:E; [destruct H|]. apply lookup_dec. intros K. apply lookup_nil in K. congruence.
Qed.
Lemma PR_assigned M t b ss parts s : found b ss s -> Forall notThis ss -> called b ss = false -> PR (IsProp (Var b ss parts)) M s (assigned t s).
Proof.
  intros HF HT HC.
  assert (ND : parent (fnd s) <> Some this -> forall x, ~ IsProp (Var b ss parts) x).
  { intros HP x HX. apply (isProp_found b ss s parts x HF) in HX. tauto. }
  assert (HI : forall x, ident (fnd s) = None -> ~ IsProp (Var b ss parts) x).
  { intros x HN HX. apply (isProp_found b ss s parts x HF) in HX as (K & _). congruence. }
  assert (HNn : forall x, node (fnd s) = None -> ~ IsProp (Var b ss parts) x).
  { intros x HN HX. apply (isProp_found b ss s parts x HF) in HX as (_ & _ & K & _). congruence. }
  unfold assigned. destruct (ident (fnd s)) as [x|] eqn:EI; [|apply PR_none; auto]. destruct (node (fnd s)) as [p|] eqn:EN; [|apply PR_none; auto].
  destruct (parent (fnd s)) as [q|] eqn:EP.
  - destruct (Nat.eqb q this) eqn:EQ; [apply Nat.eqb_eq in EQ; subst q|apply Nat.eqb_neq in EQ; apply PR_none; [apply ND; congruence|reflexivity]].
    destruct (found_this b ss s HF HT HC EP) as (p0 & st0 & -> & -> & SC & I1 & I2 & _).
    assert (HX : forall y, IsProp (Var (BName p0 this false) [st0] parts) y <-> y = x).
    { intros y. split.
      - intros K. inversion K; subst. cbn in I1. congruence.
      - intros ->. destruct st0 as [[[q' x']|] idx sc]; cbn in *; [|congruence]. subst sc. replace x' with x by congruence. constructor. }
    destruct (thisClass s) as [c|] eqn:EC.
    + destruct (lastOf _) as [e|] eqn:EL.
      * apply PR_keep; [destruct (typeAt _ _) as [[]| | | | |]; reflexivity|]. intros y c' r' EO HY. apply HX in HY as ->.
        apply lastOf_In, filter_In in EL as [EL _]. apply lookup_some in EL. rewrite EO in EL. apply anyDeclared_app in EL as [EL|EL]; [auto|]. apply anyDeclared_app in EL as [EL|EL]; auto.
      * eapply PR_iff; [|intros y H; exact H|apply PR_member]. intros y. rewrite HX. reflexivity.
    + intros c r EO HK _. rewrite (thisClass_some s c r EO HK) in EC. discriminate.
  - apply PR_none; [apply ND; discriminate|]. apply outer_declareVariable.
Qed.
Lemma PR_found M t b ss parts s : found b ss s -> Forall notThis ss -> called b ss = false -> indexed ss = false -> PR (IsProp (Var b ss parts)) M s (declareFound t s).
Proof.
  intros HF HT HC HX0.
  assert (ND : parent (fnd s) <> Some this -> forall x, ~ IsProp (Var b ss parts) x).
  { intros HP x HX. apply (isProp_found b ss s parts x HF) in HX. tauto. }
  assert (HI : forall x, ident (fnd s) = None -> ~ IsProp (Var b ss parts) x).
  { intros x HN HX. apply (isProp_found b ss s parts x HF) in HX as (K & _). congruence. }
  assert (HNn : forall x, node (fnd s) = None -> ~ IsProp (Var b ss parts) x).
  { intros x HN HX. apply (isProp_found b ss s parts x HF) in HX as (_ & _ & K & _). congruence. }
  assert (HA : forall x, isArr (fnd s) = true -> ~ IsProp (Var b ss parts) x).
  { intros x HN HX. apply (isProp_found b ss s parts x HF) in HX as (_ & _ & _ & K). congruence. }
  unfold declareFound. destruct (node (fnd s)) as [p|] eqn:EN; [|apply PR_none; auto]. destruct (ident (fnd s)) as [x|] eqn:EI; [|apply PR_none; auto].
  destruct (isArr (fnd s)) eqn:EA; [apply PR_none; auto|].
  destruct (parent (fnd s)) as [q|] eqn:EP.
  - destruct (Nat.eqb q this) eqn:EQ; [apply Nat.eqb_eq in EQ; subst q|apply Nat.eqb_neq in EQ; apply PR_none; [apply ND; congruence|reflexivity]].
    destruct (found_this b ss s HF HT HC EP) as (p0 & st0 & -> & -> & SC & I1 & I2 & _).
    assert (HX : forall y, IsProp (Var (BName p0 this false) [st0] parts) y <-> y = x).
    { intros y. split.
      - intros K. inversion K; subst. cbn in I1. congruence.
      - intros ->. destruct st0 as [[[q' x']|] idx sc]; cbn in *; [|congruence]. subst sc. replace x' with x by congruence. constructor. }
    destruct (thisClass s) as [c|] eqn:EC.
    + destruct (lookup x (outer s)) as [|e l] eqn:EL.
      * eapply PR_iff; [|intros y H; exact H|apply PR_member]. intros y. rewrite HX. reflexivity.
      * apply PR_keep; [reflexivity|]. intros y c' r' EO HY. apply HX in HY as ->.
        assert (K : In e (lookup x (outer s))) by (rewrite EL; now left). apply lookup_some in K. rewrite EO in K. apply anyDeclared_app in K as [K|K]; auto.
    + intros c r EO HK _. rewrite (thisClass_some s c r EO HK) in EC. discriminate.
  - apply PR_none; [apply ND; discriminate|]. destruct (lookup x _); [destruct (filter _ _); [apply outer_declareVariable|reflexivity]|]. reflexivity.
Qed.
