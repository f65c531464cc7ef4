From Verif Require Import ModModel ModSpec.

Lemma has_spec_aux l acc m : has (fold_left (fun acc m => N.lor acc (flag m)) l acc) m = true <-> has acc m = true \/ In m l.
Proof.
  revert acc. induction l as [|x l IH]; intros acc; cbn [fold_left].
  - cbn. tauto.
  - rewrite IH. cbn [In].
    assert (E : has (N.lor acc (flag x)) m = true <-> has acc m = true \/ x = m).
    { unfold has. rewrite !negb_true_iff, !N.eqb_neq.
      rewrite N.land_comm, N.land_lor_distr_r, (N.land_comm (flag m) acc), (N.land_comm (flag m) (flag x)).
      rewrite N.lor_eq_0_iff.
      assert (D : N.land (flag x) (flag m) = 0 <-> x <> m).
      { destruct x, m; vm_compute; split; congruence. }
      split.
      - intros H. destruct (N.eq_dec (N.land acc (flag m)) 0) as [Z|Z]; [|left; exact Z].
        right. destruct (N.eq_dec (N.land (flag x) (flag m)) 0) as [Z2|Z2]; [exfalso; tauto|].
        destruct x, m; try reflexivity; exfalso; apply Z2; reflexivity.
      - intros [H|H] [A B]; [tauto|]. apply D in B. congruence. }
    rewrite E. tauto.
Qed.

Lemma has_iff l m : has (modifiers l) m = true <-> In m l.
Proof. unfold modifiers. rewrite has_spec_aux. split; [intros [H|H]; [|exact H]|tauto]. destruct m; discriminate. Qed.
Lemma has_not l m : has (modifiers l) m = false <-> ~ In m l.
Proof. rewrite <- has_iff. destruct (has (modifiers l) m); split; congruence. Qed.

Lemma has_ext l1 l2 : sameSet l1 l2 -> forall m, has (modifiers l1) m = has (modifiers l2) m.
Proof.
  intros S m. destruct (has (modifiers l1) m) eqn:E.
  - apply has_iff, S, has_iff in E. auto.
  - apply has_not in E. symmetry. apply has_not. intros H. apply E, S, H.
Qed.

Lemma accessFrom_ok d l a : visibility l a -> (access d = APublic) -> access (accessFrom d (modifiers l)) = a.
Proof.
  intros V F. unfold accessFrom. destruct a; cbn in V.
  - destruct V as [V1 V2]. apply has_not in V1, V2. rewrite V1, V2.
    destruct (has (modifiers l) Public); cbn; auto.
  - destruct V as (V1 & V2 & V3). apply has_not in V2, V3. apply has_iff in V1. rewrite V1, V2. reflexivity.
  - destruct V as (V1 & V2 & V3). apply has_not in V2, V3. apply has_iff in V1. rewrite V1, V2, V3. reflexivity.
Qed.

Lemma accessFrom_rest d ms : isStatic (accessFrom d ms) = isStatic d /\ isAbstract (accessFrom d ms) = isAbstract d /\
  isFinal (accessFrom d ms) = isFinal d.
Proof. unfold accessFrom. destruct (has ms Public), (has ms Protected), (has ms Private); cbn; auto. Qed.

Lemma method_access k cm report l empty a : visibility l a ->
  access (fst (method fresh k cm report (modifiers l) empty)) = a.
Proof.
  intros V. pose proof (accessFrom_ok fresh l a V eq_refl) as H. unfold method.
  destruct (has (modifiers l) Static); destruct k; cbn -[modifiers has accessFrom]; try exact H;
  destruct (has (modifiers l) Abstract); destruct report; destruct cm; destruct empty; destruct (has (modifiers l) Final);
  cbn -[modifiers has accessFrom]; exact H.
Qed.

Lemma method_static k cm report l empty :
  isStatic (fst (method fresh k cm report (modifiers l) empty)) = true <-> In Static l.
Proof.
  rewrite <- has_iff. destruct (accessFrom_rest fresh (modifiers l)) as [H _]. unfold method.
  destruct (has (modifiers l) Static); destruct k; cbn -[modifiers has accessFrom]; try tauto;
  try (rewrite H; cbn; tauto);
  destruct (has (modifiers l) Abstract); destruct report; destruct cm; destruct empty; destruct (has (modifiers l) Final);
  cbn -[modifiers has accessFrom]; try tauto; rewrite H; cbn; tauto.
Qed.

Lemma method_abstract k cm l empty :
  isAbstract (fst (method fresh k cm true (modifiers l) empty)) = true <->
  k = Interface \/ (In Abstract l /\ ~ In Final l /\ empty = true /\ (cm = CAbstract \/ k = Trait)).
Proof.
  rewrite <- has_not, <- has_iff. destruct (accessFrom_rest fresh (modifiers l)) as [_ [H _]]. unfold method.
  destruct (has (modifiers l) Static); destruct k; destruct (has (modifiers l) Abstract); destruct cm;
  destruct empty; destruct (has (modifiers l) Final);
  cbn -[modifiers has accessFrom]; try rewrite H; cbn;
  (split; [intros X; try discriminate; intuition congruence|intros X; try reflexivity; exfalso; intuition congruence]).
Qed.

Lemma method_abstract_quiet k cm l empty :
  isAbstract (fst (method fresh k cm false (modifiers l) empty)) = true <-> k = Interface \/ In Abstract l.
Proof.
  rewrite <- has_iff. destruct (accessFrom_rest fresh (modifiers l)) as [_ [H _]]. unfold method.
  destruct (has (modifiers l) Static); destruct k; destruct (has (modifiers l) Abstract); destruct cm;
  destruct empty; destruct (has (modifiers l) Final);
  cbn -[modifiers has accessFrom]; try rewrite H; cbn;
  (split; [intros X; try discriminate; intuition congruence|intros X; try reflexivity; exfalso; intuition congruence]).
Qed.

Lemma method_final k cm report l empty :
  isFinal (fst (method fresh k cm report (modifiers l) empty)) = true <->
  k <> Interface /\ In Final l /\ ~ In Abstract l.
Proof.
  rewrite <- has_not, <- has_iff. destruct (accessFrom_rest fresh (modifiers l)) as [_ [_ H]]. unfold method.
  destruct (has (modifiers l) Static); destruct k; destruct report; destruct (has (modifiers l) Abstract); destruct cm;
  destruct empty; destruct (has (modifiers l) Final);
  cbn -[modifiers has accessFrom]; try rewrite H; cbn;
  (split; [intros X; try discriminate; intuition congruence|intros X; try reflexivity; exfalso; intuition congruence]).
Qed.

Lemma method_errors k cm l hasBody :
  snd (method fresh k cm true (modifiers l) (negb hasBody)) = [] <-> phpAccepts k cm l hasBody.
Proof.
  destruct (accessFrom_rest fresh (modifiers l)) as [_ [H _]].
  assert (A : forall m, {In m l} + {~ In m l}).
  { intros m. destruct (has (modifiers l) m) eqn:E; [left; apply has_iff, E|right; apply has_not, E]. }
  assert (HA : has (modifiers l) Abstract = if A Abstract then true else false).
  { destruct (A Abstract) as [X|X]; [apply has_iff, X|apply has_not, X]. }
  assert (HF : has (modifiers l) Final = if A Final then true else false).
  { destruct (A Final) as [X|X]; [apply has_iff, X|apply has_not, X]. }
  unfold method. rewrite HA, HF. destruct (A Abstract) as [Ia|Ia]; destruct (A Final) as [If|If];
  destruct (has (modifiers l) Static); destruct k; destruct cm; destruct hasBody;
  cbn -[modifiers has accessFrom In]; try rewrite H; cbn -[In];
  (split; [intros X; try discriminate; repeat split; try (intros; intuition congruence)|
           intros X; try reflexivity; exfalso; intuition congruence]).
Qed.

Lemma quiet_errors k cm l empty : snd (method fresh k cm false (modifiers l) empty) = [].
Proof.
  unfold method. destruct k; destruct (has (modifiers l) Static); destruct (has (modifiers l) Abstract);
  destruct (has (modifiers l) Final); reflexivity.
Qed.

Lemma property_ok report l a : visibility l a ->
  let d := fst (property fresh report (modifiers l)) in
  access d = a /\ (isStatic d = true <-> In Static l) /\ isAbstract d = false /\ isFinal d = false.
Proof.
  intros V. cbn zeta. pose proof (accessFrom_ok fresh l a V eq_refl) as H.
  destruct (accessFrom_rest fresh (modifiers l)) as (H1 & H2 & H3).
  unfold property. cbn [fst]. rewrite <- has_iff.
  destruct (has (modifiers l) Static); cbn -[modifiers has accessFrom]; rewrite ?H1, ?H2, ?H3; cbn; intuition congruence.
Qed.

Lemma property_errors l : 
  (In PropFinal (snd (property fresh true (modifiers l))) <-> In Final l) /\
  (In PropAbstract (snd (property fresh true (modifiers l))) <-> In Abstract l) /\
  (snd (property fresh true (modifiers l)) = [] <-> ~ In Final l /\ ~ In Abstract l).
Proof.
  rewrite <- !has_not, <- !has_iff. unfold property. cbn [snd].
  destruct (has (modifiers l) Final); destruct (has (modifiers l) Abstract); cbn; intuition congruence.
Qed.

Lemma const_ok d report l a : visibility l a ->
  let r := fst (classConst d report (modifiers l)) in access r = a /\ isStatic r = true.
Proof.
  intros V. cbn zeta. unfold classConst. cbn [fst]. destruct a; cbn in V.
  - destruct V as [V1 V2]. apply has_not in V1, V2. rewrite V1, V2. auto.
  - destruct V as (V1 & V2 & V3). apply has_iff in V1. rewrite V1. auto.
  - destruct V as (V1 & V2 & V3). apply has_not in V3. apply has_iff in V1. rewrite V1, V3. auto.
Qed.

Lemma const_errors d l :
  let e := snd (classConst d true (modifiers l)) in
  (In ConstFinal e <-> In Final l) /\ (In ConstStatic e <-> In Static l) /\ (In ConstAbstract e <-> In Abstract l) /\
  (e = [] <-> ~ In Final l /\ ~ In Static l /\ ~ In Abstract l).
Proof.
  cbn zeta. rewrite <- !has_not, <- !has_iff. unfold classConst. cbn [snd].
  destruct (has (modifiers l) Final); destruct (has (modifiers l) Abstract); destruct (has (modifiers l) Static);
  cbn; intuition congruence.
Qed.

Lemma order_free l1 l2 : sameSet l1 l2 -> forall d k cm report empty,
  method d k cm report (modifiers l1) empty = method d k cm report (modifiers l2) empty /\
  property d report (modifiers l1) = property d report (modifiers l2) /\
  classConst d report (modifiers l1) = classConst d report (modifiers l2).
Proof.
  intros S d k cm report empty. pose proof (has_ext _ _ S) as E.
  unfold method, property, classConst, accessFrom. rewrite !E. auto.
Qed.
