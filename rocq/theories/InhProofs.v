(** Proofs about the recording of base classes and the walk up the parents. *)
From Verif Require Import InhModel InhSpec.

Definition edge (f : nat -> list nat) (a b : nat) : Prop := In b (f a).

Record Inv (s : St) : Prop := {
  inv_sub : forall a b, In b (bas s a) -> In b (imp s a);
  inv_acyc : forall a, ~ clos_trans nat (edge (imp s)) a a;
  inv_known : forall c, kind s c <> None -> In c (known s);
  inv_bas : forall c, bas s c <> [] -> In c (known s) }.

Lemma upd_same A (f : nat -> A) c v : upd f c v c = v.
Proof. unfold upd. rewrite Nat.eqb_refl. reflexivity. Qed.
Lemma upd_other A (f : nat -> A) c v x : x <> c -> upd f c v x = f x.
Proof. intros H. unfold upd. apply Nat.eqb_neq in H. rewrite H. reflexivity. Qed.

Lemma ct_mono (R S : nat -> nat -> Prop) : (forall a b, R a b -> S a b) ->
  forall a b, clos_trans nat R a b -> clos_trans nat S a b.
Proof.
  intros H a b D. induction D as [a b H1|a b c D1 IH1 D2 IH2].
  - apply t_step. auto.
  - eapply t_trans; eauto.
Qed.

Lemma rt_iff (f : nat -> list nat) a b :
  clos_refl_trans_1n nat (fun a b => In b (f a)) a b <-> clos_refl_trans nat (edge f) a b.
Proof.
  split; intros H.
  - apply clos_rt1n_rt in H. exact H.
  - apply clos_rt_rt1n in H. exact H.
Qed.

Lemma ct_link f c b x y :
  clos_trans nat (edge (upd f c (f c ++ [b]))) x y ->
  clos_trans nat (edge f) x y \/ (clos_refl_trans nat (edge f) x c /\ clos_refl_trans nat (edge f) b y).
Proof.
  intros D. induction D as [x y H|x y z D1 IH1 D2 IH2].
  - unfold edge in H. destruct (Nat.eq_dec x c) as [->|Hx].
    + rewrite upd_same in H. apply in_app_or in H. destruct H as [H|[<-|[]]].
      * left. apply t_step. exact H.
      * right. split; apply rt_refl.
    + rewrite upd_other in H by exact Hx. left. apply t_step. exact H.
  - assert (TR : forall u v, clos_trans nat (edge f) u v -> clos_refl_trans nat (edge f) u v).
    { intros u v Huv. clear -Huv. induction Huv as [u v Hs|u v w _ I1 _ I2]; [apply rt_step; exact Hs|eapply rt_trans; eassumption]. }
    destruct IH1 as [A1|[A1 A2]]; destruct IH2 as [B1|[B1 B2]].
    + left. eapply t_trans; eassumption.
    + right. split; [|exact B2]. eapply rt_trans; [apply TR; exact A1|exact B1].
    + right. split; [exact A1|]. eapply rt_trans; [exact A2|apply TR; exact B1].
    + right. split; assumption.
Qed.

Lemma step_inv s o s' : Inv s -> step s o s' -> Inv s'.
Proof.
  intros [I1 I2 I3 I4] St. destruct St as [s c k|s c E|s c|s r c|s r c b E|s r c b E1 E2|s r c b E1 E2 N1 N2|s r c b E1 E2 N].
  - constructor; cbn.
    + intros a b H. destruct (Nat.eq_dec a c) as [->|Ha].
      * rewrite upd_same in H. destruct H.
      * rewrite upd_other in H by exact Ha. auto.
    + exact I2.
    + intros a H. destruct (Nat.eq_dec a c) as [->|Ha]; [left; reflexivity|].
      rewrite upd_other in H by exact Ha. right. auto.
    + intros a H. destruct (Nat.eq_dec a c) as [->|Ha]; [left; reflexivity|].
      rewrite upd_other in H by exact Ha. right. auto.
  - constructor; cbn.
    + intros a b H. destruct (Nat.eq_dec a c) as [->|Ha].
      * rewrite E in H. destruct H.
      * rewrite upd_other by exact Ha. auto.
    + intros a H. apply (I2 a). revert H. apply ct_mono. intros x y. unfold edge.
      destruct (Nat.eq_dec x c) as [->|Hx].
      * rewrite upd_same. intros [].
      * rewrite upd_other by exact Hx. auto.
    + exact I3.
    + exact I4.
  - constructor; cbn; auto.
    intros a H. destruct (Nat.eq_dec a c) as [->|Ha].
    + rewrite upd_same in H. congruence.
    + rewrite upd_other in H by exact Ha. auto.
  - constructor; cbn; auto.
  - constructor; cbn; auto.
  - constructor; auto.
  - constructor; cbn.
    + intros a x H. destruct (Nat.eq_dec a c) as [->|Ha].
      * rewrite upd_same in H |- *. apply in_app_or in H. apply in_or_app.
        destruct H as [H|H]; [left; auto|right; exact H].
      * rewrite upd_other in H |- * by exact Ha. auto.
    + intros a H. apply ct_link in H. destruct H as [H|[H1 H2]]; [exact (I2 a H)|].
      apply N1. apply rt_iff. eapply rt_trans; eassumption.
    + exact I3.
    + intros a H. destruct (Nat.eq_dec a c) as [->|Ha]; [auto|].
      rewrite upd_other in H by exact Ha. auto.
  - constructor; cbn; auto.
Qed.

Lemma init_inv : Inv init.
Proof.
  constructor; cbn; try tauto; try congruence.
  intros a H. assert (G : forall x y, clos_trans nat (edge (fun _ => [])) x y -> False).
  { intros x y D. induction D as [x y F|]; [destruct F|assumption]. }
  exact (G a a H).
Qed.

Lemma run_inv h s : Run h s -> Inv s.
Proof.
  intros R. induction R as [|h s o s' R IH St]; [exact init_inv|eauto using step_inv].
Qed.

Lemma acyclic h s : Run h s -> forall c, ~ Ancestor s c c.
Proof.
  intros R c H. destruct (run_inv _ _ R) as [I1 I2 _ _]. apply (I2 c). revert H.
  apply ct_mono. intros a b. apply I1.
Qed.

(** ** The walk *)
Lemma firstClass_Parent s c p : firstClass s (bas s c) = Some p -> Parent s c p.
Proof.
  unfold Parent. generalize (bas s c) as l.
  induction l as [|b r IH]; cbn; [discriminate|].
  destruct (kind s b) as [[]|] eqn:E; intros H.
  - injection H as <-. exists [], r. split; [reflexivity|split; [exact E|]]. intros x [].
  - destruct (IH H) as (l1 & l2 & E1 & E2 & E3). exists (b :: l1), l2. rewrite E1. repeat split; auto.
    intros x [<-|Hx]; [congruence|auto].
  - destruct (IH H) as (l1 & l2 & E1 & E2 & E3). exists (b :: l1), l2. rewrite E1. repeat split; auto.
    intros x [<-|Hx]; [congruence|auto].
  - destruct (IH H) as (l1 & l2 & E1 & E2 & E3). exists (b :: l1), l2. rewrite E1. repeat split; auto.
    intros x [<-|Hx]; [congruence|auto].
Qed.

Lemma Parent_firstClass s c p : Parent s c p -> firstClass s (bas s c) = Some p.
Proof.
  unfold Parent. intros (l1 & l2 & -> & E2 & E3). revert E3.
  induction l1 as [|b r IH]; cbn; intros E3.
  - rewrite E2. reflexivity.
  - destruct (kind s b) as [[]|] eqn:E; try (apply IH; intros x Hx; apply E3; right; exact Hx).
    exfalso. exact (E3 b (or_introl eq_refl) E).
Qed.

Lemma firstClass_in s l p : firstClass s l = Some p -> In p l.
Proof.
  induction l as [|b r IH]; cbn; [discriminate|]. destruct (kind s b) as [[]|]; intros H; auto.
  injection H as <-. left. reflexivity.
Qed.

Lemma walk_total s meths name abs : Inv s -> forall fuel c path,
  NoDup path -> incl path (known s) -> (forall x, In x path -> Ancestor s x c) ->
  length (known s) <= length path + fuel ->
  baseRedecl fuel s meths c name abs <> None.
Proof.
  intros I. induction fuel as [|fuel IH]; intros c path ND INC ANC LEN.
  - cbn [baseRedecl]. destruct (bas s c) as [|b r] eqn:E; [intros X; discriminate|].
    assert (K : In c (known s)) by (apply (inv_bas _ I); congruence).
    assert (N : ~ In c path).
    { intros H. apply ANC in H. apply (inv_acyc _ I c). revert H. apply ct_mono.
      intros x y. apply (inv_sub _ I). }
    assert (L : length (c :: path) <= length (known s)).
    { apply NoDup_incl_length; [constructor; assumption|]. intros x [<-|Hx]; auto. }
    cbn in L. lia.
  - cbn [baseRedecl]. destruct (bas s c) as [|b r] eqn:E; [intros X; discriminate|].
    destruct (firstClass s (b :: r)) as [p|] eqn:F; [|intros X; discriminate].
    assert (G : baseRedecl fuel s meths p name abs <> None).
    { apply (IH p (c :: path)).
      - constructor; [|exact ND]. intros H. apply ANC in H. apply (inv_acyc _ I c). revert H.
        apply ct_mono. intros x y. apply (inv_sub _ I).
      - intros x [<-|Hx]; [apply (inv_bas _ I); congruence|auto].
      - assert (D : DirectBase s c p).
        { unfold DirectBase. rewrite E. apply (firstClass_in s). exact F. }
        intros x [<-|Hx]; [apply t_step; exact D|].
        eapply t_trans; [apply ANC; exact Hx|apply t_step; exact D].
      - cbn. lia. }
    destruct (meths p) as [ms|]; [destruct (clashes ms name abs); [intros X; discriminate|exact G]|exact G].
Qed.

Lemma clashes_iff ms name abs : clashes ms name abs = true <->
  exists m, In m ms /\ m_name m = name /\ m_isFun m = true /\ m_seen m = true /\
    (m_final m = true \/ (m_abstract m = true /\ abs = true)).
Proof.
  unfold clashes. rewrite existsb_exists. split; intros (m & H1 & H2); exists m; split; auto.
  - apply andb_prop in H2. destruct H2 as [H2 H3]. apply andb_prop in H2. destruct H2 as [H2 H4].
    apply andb_prop in H2. destruct H2 as [H2 H5]. apply Nat.eqb_eq in H2.
    apply orb_prop in H3. repeat split; auto. destruct H3 as [H3|H3]; [left; auto|right].
    apply andb_prop in H3. exact H3.
  - destruct H2 as (A & B & C & D). apply Nat.eqb_eq in A. rewrite A, B, C. cbn.
    destruct D as [->|[-> ->]]; [reflexivity|]. apply orb_true_r.
Qed.

Lemma walk_spec s meths name abs fuel : forall c r,
  baseRedecl fuel s meths c name abs = Some r ->
  (r = true <-> ForbiddenAbove s meths c name abs).
Proof.
  assert (NOP : forall c, firstClass s (bas s c) = None -> ~ ForbiddenAbove s meths c name abs).
  { intros c F (p & ms & m & A & _). apply clos_trans_t1n in A.
    inversion A as [y H|y z H ?]; subst; apply Parent_firstClass in H; congruence. }
  assert (CASES : forall c p, firstClass s (bas s c) = Some p ->
    (ForbiddenAbove s meths c name abs <->
     (exists ms, meths p = Some ms /\ clashes ms name abs = true) \/ ForbiddenAbove s meths p name abs)).
  { intros c p F. split.
    - intros (q & ms & m & A & M & H). apply clos_trans_t1n in A.
      inversion A as [y HP|y z HP A']; subst; apply Parent_firstClass in HP; rewrite HP in F; injection F as ->.
      + left. exists ms. split; [exact M|]. apply clashes_iff. exists m. exact H.
      + right. exists q, ms, m. split; [apply clos_t1n_trans; exact A'|]. split; [exact M|exact H].
    - intros [(ms & M & H)|(q & ms & m & A & M & H)].
      + apply clashes_iff in H. destruct H as (m & H). exists p, ms, m. split; [|split; [exact M|exact H]].
        apply t_step. apply firstClass_Parent. exact F.
      + exists q, ms, m. split; [|split; [exact M|exact H]].
        eapply t_trans; [apply t_step; apply firstClass_Parent; exact F|exact A]. }
  induction fuel as [|fuel IH]; intros c r; cbn [baseRedecl];
    destruct (bas s c) as [|b l] eqn:E.
  - intros H. injection H as <-. split; [discriminate|]. intros H. exfalso.
    apply (NOP c); [rewrite E; reflexivity|exact H].
  - destruct (firstClass s (b :: l)) as [p|] eqn:F; [discriminate|].
    intros H. injection H as <-. split; [discriminate|]. intros H. exfalso.
    apply (NOP c); [rewrite E; exact F|exact H].
  - intros H. injection H as <-. split; [discriminate|]. intros H. exfalso.
    apply (NOP c); [rewrite E; reflexivity|exact H].
  - destruct (firstClass s (b :: l)) as [p|] eqn:F.
    2:{ intros H. injection H as <-. split; [discriminate|]. intros H. exfalso.
        apply (NOP c); [rewrite E; exact F|exact H]. }
    rewrite <- E in F. specialize (CASES c p F).
    destruct (meths p) as [ms|] eqn:M.
    + destruct (clashes ms name abs) eqn:C.
      * intros H. injection H as <-. split; [|reflexivity]. intros _. apply CASES. left. exists ms. auto.
      * intros H. apply IH in H. rewrite H, CASES. split; [tauto|].
        intros [(ms' & M' & C')|G]; [congruence|exact G].
    + intros H. apply IH in H. rewrite H, CASES. split; [tauto|].
      intros [(ms' & M' & C')|G]; [congruence|exact G].
Qed.

Lemma walk_ok h s meths c name abs : Run h s ->
  exists r, baseRedecl (length (known s)) s meths c name abs = Some r /\
            (r = true <-> ForbiddenAbove s meths c name abs).
Proof.
  intros R. destruct (baseRedecl (length (known s)) s meths c name abs) as [r|] eqn:E.
  - exists r. split; [reflexivity|]. eapply walk_spec. exact E.
  - exfalso. revert E. apply (walk_total s meths name abs (run_inv _ _ R) _ c []).
    + constructor.
    + intros x [].
    + intros x [].
    + cbn. lia.
Qed.

(** ** No declared base is lost *)
Lemma run_inv_snoc h o s' : Run (h ++ [o]) s' -> exists s, Run h s /\ step s o s'.
Proof.
  intros R. remember (h ++ [o]) as l eqn:E. destruct R as [|h0 s o0 s' R St].
  - destruct h; discriminate.
  - apply app_inj_tail in E. destruct E as [-> ->]. exists s. auto.
Qed.

Lemma tidy_same h : Tidy h -> forall s, Run h s -> forall c, imp s c = bas s c.
Proof.
  intros T. induction T as [|h c k T IH|h r c b T IH|h c T IH]; intros s R x.
  - inversion R as [|h0 s0 o0 s1 R0 St0 Eh Es]; [reflexivity|]. exfalso. destruct h0; discriminate.
  - apply run_inv_snoc in R. destruct R as (s1 & R & St1). apply run_inv_snoc in R.
    destruct R as (s0 & R & St0). specialize (IH s0 R).
    inversion St0; subst. inversion St1; subst. cbn.
    destruct (Nat.eq_dec x c) as [->|Hx]; [rewrite !upd_same; reflexivity|].
    rewrite !upd_other by exact Hx. apply IH.
  - apply run_inv_snoc in R. destruct R as (s0 & R & St0). specialize (IH s0 R).
    inversion St0; subst; cbn; auto.
    destruct (Nat.eq_dec x c) as [->|Hx]; [rewrite !upd_same, IH; reflexivity|].
    rewrite !upd_other by exact Hx. apply IH.
  - apply run_inv_snoc in R. destruct R as (s0 & R & St0). specialize (IH s0 R).
    inversion St0; subst; cbn; auto.
Qed.

Lemma ct_of_rt (R : nat -> nat -> Prop) a b : clos_refl_trans nat R a b -> a = b \/ clos_trans nat R a b.
Proof.
  intros H. induction H as [a b H|a|a b c H1 IH1 H2 IH2].
  - right. apply t_step. exact H.
  - left. reflexivity.
  - destruct IH1 as [->|A]; [exact IH2|]. destruct IH2 as [<-|B]; [right; exact A|].
    right. eapply t_trans; eassumption.
Qed.

Lemma base_kept h s r c b s' : Tidy h -> Run h s -> step s (AddBase r c (Some b)) s' ->
  kind s c <> None -> kind s b <> None -> c <> b -> ~ Ancestor s b c -> Ancestor s' c b.
Proof.
  intros T R St Kc Kb N A. assert (E := tidy_same _ T _ R).
  inversion St; subst; try congruence.
  - apply t_step. unfold DirectBase. cbn. rewrite upd_same. apply in_or_app. right. left. reflexivity.
  - match goal with H : importsCtx _ _ _ \/ _ |- _ => rename H into D end.
    assert (G : forall u v, importsCtx s u v -> u <> v -> Ancestor s u v).
    { intros u v D' N'. apply rt_iff in D'. apply ct_of_rt in D'. destruct D' as [->|D']; [congruence|].
      revert D'. apply ct_mono. intros x y. unfold edge, DirectBase. rewrite E. auto. }
    destruct D as [D|D]; [exfalso; apply A; apply G; auto|]. apply G in D; auto.
Qed.
