From Verif Require Import ClsSpec.
Open Scope nat_scope.

Lemma mem_iff x l : mem x l = true <-> In x l.
Proof.
  unfold mem. rewrite existsb_exists. split.
  - intros (y & H & E). apply Nat.eqb_eq in E. subst. exact H.
  - intros H. exists x. split; [exact H|apply Nat.eqb_refl].
Qed.
Lemma mem_false x l : mem x l = false <-> ~ In x l.
Proof. rewrite <- mem_iff. destruct (mem x l); split; congruence. Qed.

Lemma resolved_iff w a c b : nth_error w a = Some c -> (In b (resolved w c) <-> baseOf w a b).
Proof.
  intros Ha. unfold resolved, baseOf. rewrite in_flat_map. split.
  - intros (o & Ho & Hb). destruct o as [i|]; [|contradiction].
    destruct (nth_error w i) eqn:E; [|contradiction]. destruct Hb as [<-|[]].
    exists c. (split; [exact Ha|]). (split; [exact Ho|]). apply nth_error_Some. congruence.
  - intros (c' & Hc & Hin & Hlt). replace c' with c in * by congruence. exists (Some b).
    (split; [exact Hin|]). apply nth_error_Some in Hlt. destruct (nth_error w b); [left; reflexivity|congruence].
Qed.

(** Depth-first traversal with a visited set: step relation for the induction. *)
Definition stepF fuel w := fun acc b => match acc with
                                       | Some f => forbidClass fuel w b f
                                       | None => None
                                       end.
Lemma fold_none fuel w l : fold_left (stepF fuel w) l None = None.
Proof. induction l; cbn; auto. Qed.

Definition sees (w : World) (s : list nat) (d : nat) : Prop := exists i, hasId w d i /\ In i s.

Definition post (w : World) (d : nat) (s s' : list nat) : Prop :=
  incl s s' /\ (d < List.length w -> sees w s' d) /\
  (forall x, In x s' -> In x s \/ exists a, derives w d a /\ hasId w a x) /\
  (uniqueIds w -> forall n b, sees w s' n -> ~ sees w s n -> baseOf w n b -> sees w s' b).
Definition posts (w : World) (l : list nat) (s s' : list nat) : Prop :=
  incl s s' /\ (forall d, In d l -> d < List.length w -> sees w s' d) /\
  (forall x, In x s' -> In x s \/ exists d a, In d l /\ derives w d a /\ hasId w a x) /\
  (uniqueIds w -> forall n b, sees w s' n -> ~ sees w s n -> baseOf w n b -> sees w s' b).

Lemma sees_incl w s s' d : incl s s' -> sees w s d -> sees w s' d.
Proof. intros I (i & H & K). exists i. auto. Qed.
Lemma sees_dec w s d : sees w s d \/ ~ sees w s d.
Proof.
  destruct (nth_error w d) as [c|] eqn:E.
  - destruct (mem (cd_id c) s) eqn:M.
    + left. exists (cd_id c). split; [exists c; auto|apply mem_iff; exact M].
    + right. intros (i & (c' & Hc & Hi) & K). replace c' with c in * by congruence. subst i.
      apply mem_false in M. auto.
  - right. intros (i & (c' & Hc & _) & _). congruence.
Qed.

Lemma fold_post fuel w : (forall d s s', forbidClass fuel w d s = Some s' -> post w d s s') ->
  forall l s s', fold_left (stepF fuel w) l (Some s) = Some s' -> posts w l s s'.
Proof.
  intros IH l. induction l as [|d l IHl]; intros s s' H; cbn in H.
  - injection H as <-. (split; [red; auto|]). (split; [intros ? []|]). (split; [auto|]).
    intros _ n b H1 H2. contradiction.
  - destruct (forbidClass fuel w d s) as [s1|] eqn:E; [|rewrite fold_none in H; discriminate].
    apply IH in E. apply IHl in H. destruct E as (I1 & S1 & X1 & B1), H as (I2 & S2 & X2 & B2).
    (split; [red; auto|]). split; [|split].
    + intros d' [<-|H] L; [apply (sees_incl w s1); auto|auto].
    + intros x Hx. destruct (X2 x Hx) as [Hx1|(d' & a & Hd & D & Hi)].
      * destruct (X1 x Hx1) as [Hs|(a & D & Hi)]; [auto|]. right. exists d, a. repeat split; auto. now left.
      * right. exists d', a. repeat split; auto. now right.
    + intros U n b Hn Hs Hb. destruct (sees_dec w s1 n) as [H1|H1].
      * apply (sees_incl w s1); [exact I2|]. exact (B1 U n b H1 Hs Hb).
      * exact (B2 U n b Hn H1 Hb).
Qed.

Lemma forbid_post fuel w : forall d s s', forbidClass fuel w d s = Some s' -> post w d s s'.
Proof.
  induction fuel as [|fuel IH]; intros d s s' H; [discriminate|]. cbn in H.
  destruct (nth_error w d) as [c|] eqn:E.
  - destruct (mem (cd_id c) s) eqn:M.
    + injection H as <-. apply mem_iff in M. (split; [red; auto|]). split.
      * intros _. exists (cd_id c). split; [exists c; auto|exact M].
      * (split; [auto|]). intros _ n b H1 H2. contradiction.
    + change (fold_left (stepF fuel w) (resolved w c) (Some (cd_id c :: s)) = Some s') in H.
      apply (fold_post fuel w IH) in H. destruct H as (I & S & X & B).
      assert (Sd : sees w s' d). { exists (cd_id c). split; [exists c; auto|]. apply I. now left. }
      (split; [intros y Hy; apply I; now right|]). (split; [auto|]). split.
      * intros x Hx. destruct (X x Hx) as [[<-|Hs]|(b & a & Hb & D & Hi)]; [|auto|].
        -- right. exists d. split; [apply der_self|exists c; auto].
        -- right. exists a. (split; [|exact Hi]). apply der_step with b; [|exact D].
           apply (resolved_iff w d c b E). exact Hb.
      * intros U n b Hn Hs Hb. destruct (sees_dec w (cd_id c :: s) n) as [(i & Hi & [Heq|K])|H1].
        -- subst i. assert (n = d) by (apply (U n d (cd_id c)); [exact Hi|exists c; auto]). subst n.
           apply S; [apply (resolved_iff w d c b E); exact Hb|]. destruct Hb as (? & _ & _ & L). exact L.
        -- exfalso. apply Hs. exists i. auto.
        -- exact (B U n b Hn H1 Hb).
  - injection H as <-. (split; [red; auto|]). split; [|split; [auto|]].
    + intros L. apply nth_error_Some in L. congruence.
    + intros _ n b H1 H2. contradiction.
Qed.

(** Termination: every recursion adds the identifier of an unvisited class. *)
Definition unseen (w : World) (s : list nat) : list nat :=
  filter (fun n => match nth_error w n with Some c => negb (mem (cd_id c) s) | None => false end)
         (seq 0 (List.length w)).
Lemma filter_len {A} (p q : A -> bool) l : (forall x, In x l -> p x = true -> q x = true) ->
  List.length (filter p l) <= List.length (filter q l).
Proof.
  induction l as [|x l IH]; intros H; cbn; [lia|]. specialize (IH (fun y Hy => H y (or_intror Hy))).
  specialize (H x (or_introl eq_refl)). destruct (p x), (q x); cbn; try lia; discriminate (H eq_refl).
Qed.
Lemma filter_len_lt {A} (p q : A -> bool) l y : (forall x, In x l -> p x = true -> q x = true) ->
  In y l -> p y = false -> q y = true -> List.length (filter p l) < List.length (filter q l).
Proof.
  induction l as [|x l IH]; intros H Hy P Q; [contradiction|]. cbn.
  pose proof (filter_len p q l (fun z Hz => H z (or_intror Hz))) as LE.
  destruct Hy as [->|Hy].
  - rewrite P, Q. cbn. lia.
  - specialize (IH (fun z Hz => H z (or_intror Hz)) Hy P Q). specialize (H x (or_introl eq_refl)).
    destruct (p x), (q x); cbn; try lia; discriminate (H eq_refl).
Qed.
Lemma unseen_incl w s s' : incl s s' -> List.length (unseen w s') <= List.length (unseen w s).
Proof.
  intros I. apply filter_len. intros n _. destruct (nth_error w n) as [c|]; [|discriminate].
  rewrite !negb_true_iff, !mem_false. auto.
Qed.
Lemma unseen_lt w s d c : nth_error w d = Some c -> ~ In (cd_id c) s ->
  List.length (unseen w (cd_id c :: s)) < List.length (unseen w s).
Proof.
  intros E N. apply filter_len_lt with d.
  - intros n _. destruct (nth_error w n) as [c'|]; [|discriminate]. rewrite !negb_true_iff, !mem_false.
    intros H K. apply H. now right.
  - apply in_seq. cbn. (split; [lia|]). apply nth_error_Some. congruence.
  - rewrite E. apply negb_false_iff, mem_iff. now left.
  - rewrite E. apply negb_true_iff, mem_false. exact N.
Qed.

Lemma forbid_total fuel w : forall d s, List.length (unseen w s) < fuel ->
  exists s', forbidClass fuel w d s = Some s'.
Proof.
  induction fuel as [|fuel IH]; intros d s H; [lia|]. cbn.
  destruct (nth_error w d) as [c|] eqn:E; [|eauto]. destruct (mem (cd_id c) s) eqn:M; [eauto|].
  change (exists s', fold_left (stepF fuel w) (resolved w c) (Some (cd_id c :: s)) = Some s').
  assert (L : List.length (unseen w (cd_id c :: s)) < fuel).
  { apply mem_false in M. pose proof (unseen_lt w s d c E M). lia. }
  revert L. generalize (cd_id c :: s). generalize (resolved w c). clear -IH.
  induction l as [|b l IHl]; intros s L; cbn; [eauto|].
  destruct (IH b s L) as [s1 E]. rewrite E. apply IHl.
  apply forbid_post in E. destruct E as (I & _). pose proof (unseen_incl w s s1 I). lia.
Qed.

Lemma unseen_bound w s : List.length (unseen w s) <= List.length w.
Proof.
  unfold unseen. rewrite <- (seq_length (List.length w) 0) at 2.
  generalize (seq 0 (List.length w)). intros l. induction l as [|x l IH]; cbn; [lia|].
  destruct (nth_error w x); [destruct (negb _)|]; cbn; lia.
Qed.

Lemma forbidNames_total w find ids : forall s, exists s', forbidNames (S (List.length w)) w find ids s = Some s'.
Proof.
  induction ids as [|i ids IH]; intros s; cbn [forbidNames]; [eauto|].
  unfold forbidName. destruct (find i) as [d|]; [|apply IH].
  destruct (forbid_total (S (List.length w)) w d s) as [s1 E]; [pose proof (unseen_bound w s); lia|].
  rewrite E. apply IH.
Qed.

Definition closed (w : World) (s : list nat) : Prop := forall n b, sees w s n -> baseOf w n b -> sees w s b.
Lemma closed_derives w s a b : closed w s -> sees w s a -> derives w a b -> sees w s b.
Proof. intros C H D. induction D; [exact H|]. apply IHD. exact (C a b H H0). Qed.

Lemma forbid_closed fuel w d s s' : uniqueIds w -> closed w s -> forbidClass fuel w d s = Some s' -> closed w s'.
Proof.
  intros U C H n b Hn Hb. apply forbid_post in H. destruct H as (I & _ & _ & B).
  destruct (sees_dec w s n) as [Hs|Hs].
  - apply (sees_incl w s); [exact I|]. exact (C n b Hs Hb).
  - exact (B U n b Hn Hs Hb).
Qed.

Definition findOk (w : World) (find : nat -> option nat) : Prop := forall i d, find i = Some d -> hasId w d i.
(** A name without declaration is no identifier of a class: [find] finds what there is. *)
Definition findAll (w : World) (find : nat -> option nat) : Prop := forall i d, hasId w d i -> find i <> None.

Lemma sees_in w s d i : hasId w d i -> sees w s d -> In i s.
Proof.
  intros (c & Hc & Hi) (j & (c' & Hc' & Hj) & K). replace c' with c in * by congruence. congruence.
Qed.
Lemma der_valid w a b i : hasId w a i -> derives w a b -> exists j, hasId w b j.
Proof.
  intros H D. revert i H. induction D as [|a b c (c' & _ & _ & L) D IH]; intros i H; [eauto|].
  apply nth_error_Some in L. destruct (nth_error w b) as [cb|] eqn:E; [|congruence].
  apply (IH (cd_id cb)). exists cb. auto.
Qed.

Lemma forbidNames_spec fuel w find : findOk w find -> forall ids s s',
  forbidNames fuel w find ids s = Some s' ->
  incl s s' /\ (forall x, In x s' -> In x s \/ mustForbid w find ids x).
Proof.
  intros OK ids. induction ids as [|i ids IH]; intros s s' H; cbn in H.
  - injection H as <-. split; [red; auto|auto].
  - unfold forbidName in H. destruct (find i) as [d|] eqn:F.
    + destruct (forbidClass fuel w d s) as [s1|] eqn:E; [|discriminate]. apply forbid_post in E.
      destruct E as (I1 & _ & X1 & _). apply IH in H. destruct H as (I2 & X2).
      (split; [red; auto|]). intros x Hx. destruct (X2 x Hx) as [H1|(j & Hj & M)].
      * destruct (X1 x H1) as [Hs|(a & D & Hi)]; [auto|]. right. exists i. (split; [now left|]).
        right. exists d, a. auto.
      * right. exists j. split; [now right|exact M].
    + apply IH in H. destruct H as (I2 & X2). (split; [intros y Hy; apply I2; now right|]).
      intros x Hx. destruct (X2 x Hx) as [[<-|H1]|(j & Hj & M)]; [|auto|].
      * right. exists i. (split; [now left|]). left. auto.
      * right. exists j. split; [now right|exact M].
Qed.

Lemma forbidNames_complete fuel w find : findOk w find -> findAll w find -> uniqueIds w -> forall ids s s',
  closed w s -> forbidNames fuel w find ids s = Some s' ->
  closed w s' /\ (forall x, mustForbid w find ids x -> In x s').
Proof.
  intros OK FA U ids. induction ids as [|i ids IH]; intros s s' C H; cbn in H.
  - injection H as <-. (split; [exact C|]). intros x (j & [] & _).
  - unfold forbidName in H. destruct (find i) as [d|] eqn:F.
    + destruct (forbidClass fuel w d s) as [s1|] eqn:E; [|discriminate].
      pose proof (forbid_closed fuel w d s s1 U C E) as C1. apply forbid_post in E.
      destruct E as (I1 & S1 & X1 & _). pose proof (forbidNames_spec fuel w find OK ids s1 s' H) as (I2 & _).
      destruct (IH s1 s' C1 H) as (C2 & K). (split; [exact C2|]).
      intros x (j & [<-|Hj] & M); [|apply K; exists j; auto].
      destruct M as [(F' & _)|(d' & a & F' & D & Hi)]; [congruence|].
      replace d' with d in * by congruence. apply (sees_in w s' a x Hi). apply (sees_incl w s1); [exact I2|].
      apply (closed_derives w s1 d a C1); [|exact D]. apply S1. apply OK in F. destruct F as (c & Hc & _).
      apply nth_error_Some. congruence.
    + assert (C1 : closed w (i :: s)).
      { intros n b (j & Hj & [<-|K]) Hb; [exfalso; exact (FA i n Hj F)|].
        apply (sees_incl w s); [intros y; right; auto|]. apply (C n b); [exists j; auto|exact Hb]. }
      pose proof (forbidNames_spec fuel w find OK ids (i :: s) s' H) as (I2 & _).
      destruct (IH (i :: s) s' C1 H) as (C2 & K). (split; [exact C2|]).
      intros x (j & [<-|Hj] & M); [|apply K; exists j; auto].
      destruct M as [(F' & ->)|(d' & a & F' & _)]; [|congruence]. apply I2. now left.
Qed.
Lemma closed_nil w : closed w [].
Proof. intros n b (i & _ & []). Qed.

(** ** C38 *)
Lemma isValid_class w pub x d : knowsBases w pub ->
  (forall e, x_exception x = Some e -> e < List.length w) -> isClassOp (x_op x) = true ->
  (isValid w pub x d = true <-> ~ hidden d /\ acceptable w x d).
Proof.
  intros KB HE HO. unfold isValid, hidden, acceptable. rewrite HO.
  destruct (d_emptyRange d); [split; [discriminate|intros [H _]; exfalso; apply H; auto]|].
  destruct (match d_kind d with KindType => d_emptyQid d | _ => false end) eqn:EQ.
  { split; [discriminate|]. intros [H _]. exfalso. apply H. right. destruct (d_kind d); try discriminate. auto. }
  assert (NH : ~ (false = true \/ (d_kind d = KindType /\ d_emptyQid d = true))).
  { intros [H|[H1 H2]]; [discriminate|]. rewrite H1 in EQ. congruence. }
  destruct (mem (d_qid d) (x_forbidden x)) eqn:M.
  { apply mem_iff in M. split; [discriminate|]. intros (_ & H & _). contradiction. }
  apply mem_false in M.
  destruct (d_class d) as [ci|]; [|split; [discriminate|intros (_ & _ & ci & c & H & _); discriminate]].
  destruct (nth_error w ci) as [c|] eqn:E.
  2: { split; [discriminate|]. intros (_ & _ & ci' & c & H & H2 & _). congruence. }
  assert (G : forall P b, (b = true <-> P c) ->
     (b = true <-> (~ (false = true \/ (d_kind d = KindType /\ d_emptyQid d = true)) /\
        ~ In (d_qid d) (x_forbidden x) /\ exists ci' c', Some ci = Some ci' /\ nth_error w ci' = Some c' /\
        (ci' = ci -> P c')))).
  { intros P b H. rewrite H. split.
    - intros HP. (split; [exact NH|]). (split; [exact M|]). exists ci, c. auto.
    - intros (_ & _ & ci' & c' & H1 & H2 & H3). injection H1 as <-. replace c' with c in * by congruence. auto. }
  assert (G2 : forall b, (b = true <-> phpAccepts w (x_exception x) (x_op x) ci c) ->
     (b = true <-> (~ (false = true \/ (d_kind d = KindType /\ d_emptyQid d = true)) /\
        ~ In (d_qid d) (x_forbidden x) /\ exists ci' c', Some ci = Some ci' /\ nth_error w ci' = Some c' /\
        phpAccepts w (x_exception x) (x_op x) ci' c'))).
  { intros b H. rewrite H. split.
    - intros HP. (split; [exact NH|]). (split; [exact M|]). exists ci, c. auto.
    - intros (_ & _ & ci' & c' & H1 & H2 & H3). injection H1 as <-. replace c' with c in * by congruence. auto. }
  apply G2. clear G G2. unfold phpAccepts. destruct (x_op x); try discriminate.
  - destruct (cd_mod c), (cd_kind c); cbn; intuition (try congruence; try discriminate).
  - destruct (x_exception x) as [e|] eqn:EX; [|split; [discriminate|intros (e & H & _); discriminate]].
    specialize (HE e eq_refl). destruct (nth_error w e) as [ec|] eqn:E2.
    2: { apply nth_error_Some in HE. congruence. }
    rewrite orb_true_iff, Nat.eqb_eq, (KB ci e); [|apply nth_error_Some; congruence|exact HE].
    split.
    + intros [H|H]; exists e; (split; [reflexivity|]); [right|left; exact H]. exists (cd_id ec).
      split; [exists ec; auto|exact H].
    + intros (e' & H & K). injection H as <-. destruct K as [K|(i & (c' & H1 & H2) & K)]; [auto|left].
      congruence.
  - destruct (cd_kind c); intuition discriminate.
  - destruct (cd_mod c), (cd_kind c); cbn; intuition (try congruence; try discriminate).
  - intuition.
Qed.

Lemma isValid_instance w pub x d : knowsBases w pub -> x_op x = ExceptionInstanceChoose ->
  (forall e, x_exception x = Some e -> e < List.length w) -> (forall c, d_typeClass d = Some c -> c < List.length w) ->
  isValid w pub x d = true ->
  d_kind d = KindInstance /\ exists c e, d_typeClass d = Some c /\ x_exception x = Some e /\ derives w c e.
Proof.
  intros KB HO HE HT. unfold isValid. rewrite HO. cbn. destruct (d_emptyRange d); [discriminate|].
  destruct (match d_kind d with KindType => d_emptyQid d | _ => false end); [discriminate|].
  destruct (x_exception x) as [e|]; [|discriminate]. destruct (d_kind d); try discriminate.
  destruct (d_typeClass d) as [c|]; [|discriminate]. intros H. (split; [reflexivity|]). exists c, e.
  apply KB in H; auto.
Qed.
Lemma isValid_namespace w pub x d : x_op x = NamespaceChoose -> isValid w pub x d = true -> d_kind d = KindNamespace.
Proof.
  intros HO. unfold isValid. rewrite HO. cbn. destruct (d_emptyRange d); [discriminate|].
  destruct (d_kind d); auto; try discriminate. destruct (d_emptyQid d); discriminate.
Qed.

Lemma visible_valid w pub x l seen d : In d (visibleItems w pub x l seen) -> isValid w pub x d = true /\ In d l.
Proof.
  revert seen. induction l as [|a l IH]; intros seen; cbn; [contradiction|].
  assert (K : forall s, In d (visibleItems w pub x l s) -> isValid w pub x d = true /\ (a = d \/ In d l)).
  { intros s H. destruct (IH s H). auto. }
  assert (K2 : forall s, In d (if isValid w pub x a then a :: visibleItems w pub x l s
               else visibleItems w pub x l s) -> isValid w pub x d = true /\ (a = d \/ In d l)).
  { intros s. destruct (isValid w pub x a) eqn:E; [|apply K]. intros [<-|H]; [auto|exact (K _ H)]. }
  destruct (d_kind a); try apply K2. destruct (_ && _ && _); [apply K|]. destruct (mem _ _); [apply K|apply K2].
Qed.

(** At most one instance per name, none of the names in [seen]. *)
Definition instanceNames (l : list Decl) : list nat :=
  map d_ident (filter (fun d => match d_kind d with KindInstance => true | _ => false end) l).
Lemma visible_nodup w pub x l : forall seen, NoDup (instanceNames (visibleItems w pub x l seen)) /\
  (forall n, In n (instanceNames (visibleItems w pub x l seen)) -> ~ In n seen).
Proof.
  induction l as [|a l IH]; intros seen; cbn [visibleItems]; [split; [constructor|intros n []]|].
  destruct (d_kind a) eqn:EK.
  - destruct (isValid w pub x a); [|apply IH]. unfold instanceNames. cbn. rewrite EK. apply IH.
  - destruct (_ && _ && _); [apply IH|]. destruct (mem (d_ident a) seen) eqn:M; [apply IH|].
    apply mem_false in M. destruct (IH (d_ident a :: seen)) as [ND NI].
    destruct (isValid w pub x a).
    + unfold instanceNames. cbn. rewrite EK. cbn. split.
      * constructor; [|exact ND]. intros H. apply (NI _ H). now left.
      * intros n [<-|H]; [exact M|]. intros K. apply (NI n H). now right.
    + (split; [exact ND|]). intros n H K. apply (NI n H). now right.
  - destruct (isValid w pub x a); [|apply IH]. unfold instanceNames. cbn. rewrite EK. apply IH.
  - destruct (isValid w pub x a); [|apply IH]. unfold instanceNames. cbn. rewrite EK. apply IH.
Qed.

(** ** C35 *)
Lemma offered_sound w pub op cur acc m o : knowsBases w pub ->
  (forall c, cur = Some c -> c < List.length w) -> acc < List.length w -> o < List.length w ->
  m_isMember m = true -> m_owner m = Some o ->
  memberOffered pub op cur (Some acc) m = true -> fitsOperator op m /\ phpVisible w cur o (m_access m).
Proof.
  intros KB HC HA HO HM HW H. unfold memberOffered in H. rewrite HM, HW in H.
  apply andb_true_iff in H. destruct H as [H _]. apply andb_true_iff in H. destruct H as [H1 H2].
  split.
  { unfold fitsOperator. destruct op; cbn in H1; [exact H1|]. destruct (m_static m); [discriminate|reflexivity]. }
  apply Nat.leb_le in H2. unfold phpVisible. destruct (m_access m); [exact I| |].
  - unfold shownAccess in H2. destruct cur as [c|]; [|cbn in H2; lia]. specialize (HC c eq_refl).
    exists c. (split; [reflexivity|]). left.
    destruct (Nat.eqb_spec c acc) as [->|N].
    + destruct (Nat.eqb_spec acc o) as [->|N2]; [apply der_self|].
      destruct (pub acc o) eqn:P; [|cbn in H2; lia]. apply KB in P; auto.
    + destruct (pub c acc) eqn:P; [|cbn in H2; lia]. apply KB in P; auto.
      assert (D : derives w acc o).
      { destruct (Nat.eqb_spec acc o) as [->|N2]; [apply der_self|]. destruct (pub acc o) eqn:P2; [|cbn in H2; lia].
        apply KB in P2; auto. }
      clear -P D. induction P as [|a b c B P IH]; [exact D|]. apply der_step with b; auto.
  - unfold shownAccess in H2. destruct cur as [c|]; [|cbn in H2; lia].
    destruct (Nat.eqb_spec c acc) as [->|N].
    + destruct (Nat.eqb_spec acc o) as [->|N2]; [reflexivity|]. destruct (pub acc o); cbn in H2; lia.
    + destruct (pub c acc && _); cbn in H2; lia.
Qed.
Lemma derives_trans w a b c : derives w a b -> derives w b c -> derives w a c.
Proof. intros P D. induction P as [|a b' c' B P IH]; [exact D|]. apply der_step with b'; auto. Qed.

(** From outside any class, from the accessed class itself, or from a class derived from it
    the answer is exact. *)
Lemma offered_exact w pub op cur acc m o : knowsBases w pub ->
  (forall c, cur = Some c -> c < List.length w) -> acc < List.length w -> o < List.length w ->
  m_isMember m = true -> m_named m = true -> m_owner m = Some o -> derives w acc o ->
  match cur with
  | None => True
  | Some c => c = acc \/ (derives w c acc /\ ~ derives w acc c)
  end ->
  (memberOffered pub op cur (Some acc) m = true <-> fitsOperator op m /\ phpVisible w cur o (m_access m)).
Proof.
  intros KB HC HA HO HM HN HW HD HB.
  split; [apply (offered_sound w pub op cur acc m o KB HC HA HO HM HW)|].
  intros [F V]. unfold memberOffered. rewrite HM, HW, HN, andb_true_r.
  apply andb_true_iff. split.
  { unfold fitsOperator in F. rewrite F. destruct op; reflexivity. }
  apply Nat.leb_le. unfold phpVisible in V. destruct (m_access m) eqn:EA; cbn; [lia| |].
  - destruct V as (c & -> & V). specialize (HC c eq_refl). unfold shownAccess.
    destruct (Nat.eqb_spec c acc) as [->|N].
    + destruct (Nat.eqb_spec acc o) as [E|E]; [cbn; lia|]. apply KB in HD; auto. rewrite HD. cbn. lia.
    + destruct HB as [HB|[HB _]]; [contradiction|]. apply KB in HB; auto. rewrite HB.
      apply KB in HD; auto. rewrite HD, orb_true_r. cbn. lia.
  - rewrite V in HB. unfold shownAccess. rewrite V. destruct HB as [->|[H1 H2]].
    + rewrite !Nat.eqb_refl. cbn. lia.
    + contradiction.
Qed.

(** ** C36 *)
Lemma has_iff k l : has k l = true <-> In k l.
Proof.
  unfold has. rewrite existsb_exists. split.
  - intros (y & H & E). apply Nat.eqb_eq in E. destruct k, y; try discriminate E; exact H.
  - intros H. exists k. split; [exact H|apply Nat.eqb_refl].
Qed.
Lemma has_false k l : has k l = false <-> ~ In k l.
Proof. rewrite <- has_iff. destruct (has k l); split; congruence. Qed.

(** Everything about one offered override. *)
Definition goodOverride (pub : nat -> nat -> bool) (cur : nat) (f : Filters) (m : Member) : Prop :=
  m_isMember m = true /\ m_access m <> Private /\ (m_isFunction m = true -> m_final m = false) /\
  (f_nonStatic f = true -> m_static m = true) /\ (f_static f = true -> m_static m = false) /\
  (f_public f = true -> m_access m = Protected) /\ exists o, m_owner m = Some o /\ pub cur o = true.
(** The entry keeps later entries of its name from being offered. *)
Definition blocks (pub : nat -> nat -> bool) (cur : nat) (f : Filters) (p : Member * nat) : Prop :=
  m_isMember (fst p) = true /\
  (snd p = 0 \/
   (~ (f_nonStatic f = true /\ m_static (fst p) = false) /\ ~ (f_static f = true /\ m_static (fst p) = true) /\
    m_access (fst p) <> Private /\
    ((f_public f = true /\ m_access (fst p) = Public) \/
     (m_isFunction (fst p) = true /\ m_final (fst p) = true) \/
     exists o, m_owner (fst p) = Some o /\ pub cur o = true))).

Lemma overrides_spec pub cur f : forall l impl m h,
  In (m, h) (overrides pub cur f l impl) ->
  h = helperOf m /\ goodOverride pub cur f m /\ ~ In (m_name m) impl /\
  exists pre d suf, l = pre ++ (m, d) :: suf /\ d <> 0 /\
    (forall p, In p pre -> m_isMember (fst p) = true -> snd p = 0 -> m_name (fst p) <> m_name m).
Proof.
  induction l as [|[a d] l IH]; intros impl m h H; cbn in H; [contradiction|].
  assert (K : forall s, (forall n, In n impl -> In n s) -> (m_isMember a = true -> d = 0 -> In (m_name a) s) ->
      In (m, h) (overrides pub cur f l s) ->
      h = helperOf m /\ goodOverride pub cur f m /\ ~ In (m_name m) impl /\
      exists pre d' suf, (a, d) :: l = pre ++ (m, d') :: suf /\ d' <> 0 /\
        (forall p, In p pre -> m_isMember (fst p) = true -> snd p = 0 -> m_name (fst p) <> m_name m)).
  { intros s I1 I2 Hin. destruct (IH s m h Hin) as (E & G & N & pre & d' & suf & EQ & ND & P).
    (split; [exact E|]). (split; [exact G|]). (split; [intros X; apply N; auto|]).
    exists ((a, d) :: pre), d', suf. (split; [cbn; congruence|]). (split; [exact ND|]).
    intros p [<-|Hp]; [|exact (P p Hp)]. cbn. intros HM HD Heq. apply N. rewrite <- Heq. auto. }
  destruct (m_isMember a) eqn:EM; cbn in H; [|apply (K impl); auto; discriminate].
  destruct (Nat.eqb_spec d 0) as [E0|E0]; [apply (K (m_name a :: impl)); auto; cbn; auto|].
  assert (K1 : In (m, h) (overrides pub cur f l impl) -> _) by (apply (K impl); auto; contradiction).
  assert (K2 : In (m, h) (overrides pub cur f l (m_name a :: impl)) -> _)
    by (apply (K (m_name a :: impl)); cbn; auto).
  destruct (mem (m_name a) impl) eqn:M; [exact (K1 H)|]. apply mem_false in M.
  destruct (f_nonStatic f && negb (m_static a)) eqn:EN; [exact (K1 H)|].
  destruct (f_static f && m_static a) eqn:ES; [exact (K1 H)|].
  destruct (m_access a) eqn:EA.
  3: exact (K1 H).
  - rewrite andb_true_r in H. destruct (f_public f) eqn:EP; [exact (K2 H)|].
    destruct (m_isFunction a && m_final a) eqn:EF; [exact (K2 H)|].
    destruct (m_owner a) as [o|] eqn:EO; [|exact (K1 H)]. destruct (pub cur o) eqn:P; [|exact (K1 H)].
    destruct H as [H|H]; [|exact (K2 H)]. injection H as <- <-. (split; [reflexivity|]). split; [|split; [exact M|]].
    + split; [exact EM|]. rewrite EA. (split; [discriminate|]). split.
      { intros X. rewrite X in EF. exact EF. }
      split. { intros X. rewrite X in EN. destruct (m_static a); [reflexivity|discriminate]. }
      split. { intros X. rewrite X in ES. exact ES. }
      (split; [congruence|]). exists o. auto.
    + exists [], d, l. (split; [reflexivity|]). (split; [exact E0|]). intros p [].
  - rewrite andb_false_r in H.
    destruct (m_isFunction a && m_final a) eqn:EF; [exact (K2 H)|].
    destruct (m_owner a) as [o|] eqn:EO; [|exact (K1 H)]. destruct (pub cur o) eqn:P; [|exact (K1 H)].
    destruct H as [H|H]; [|exact (K2 H)]. injection H as <- <-. (split; [reflexivity|]). split; [|split; [exact M|]].
    + split; [exact EM|]. rewrite EA. (split; [discriminate|]). split.
      { intros X. rewrite X in EF. exact EF. }
      split. { intros X. rewrite X in EN. destruct (m_static a); [reflexivity|discriminate]. }
      split. { intros X. rewrite X in ES. exact ES. }
      (split; [congruence|]). exists o. auto.
    + exists [], d, l. (split; [reflexivity|]). (split; [exact E0|]). intros p [].
Qed.

Lemma overrides_nodup pub cur f : forall l impl,
  NoDup (map (fun p => m_name (fst p)) (overrides pub cur f l impl)).
Proof.
  induction l as [|[a d] l IH]; intros impl; cbn; [constructor|].
  assert (C : NoDup (map (fun p => m_name (fst p)) ((a, helperOf a) :: overrides pub cur f l (m_name a :: impl)))).
  { cbn. constructor; [|apply IH]. rewrite in_map_iff. intros ([m h] & E & H). apply overrides_spec in H.
    destruct H as (_ & _ & N & _). apply N. cbn in E. rewrite E. now left. }
  destruct (m_isMember a); cbn [negb]; [|apply IH].
  destruct (Nat.eqb d 0); [apply IH|]. destruct (mem _ _); [apply IH|].
  destruct (_ && _); [apply IH|]. destruct (_ && _); [apply IH|].
  destruct (m_access a); [| |apply IH];
    (destruct (_ && _); [apply IH|]; destruct (_ && _); [apply IH|];
     destruct (m_owner a) as [o|]; [|apply IH]; destruct (pub cur o); [exact C|apply IH]).
Qed.

(** Completeness: an overridable inherited entry whose name no earlier entry blocks is
    offered. *)
Lemma overrides_complete pub cur f : forall pre m d suf impl,
  d <> 0 -> goodOverride pub cur f m -> ~ In (m_name m) impl ->
  (forall p, In p pre -> m_name (fst p) = m_name m -> ~ blocks pub cur f p) ->
  In (m, helperOf m) (overrides pub cur f (pre ++ (m, d) :: suf) impl).
Proof.
  induction pre as [|[a da] pre IH]; intros m d suf impl ND (GM & GA & GF & GN & GS & GP & o & GO & GB) NI NB; cbn.
  - rewrite GM. cbn. apply Nat.eqb_neq in ND. rewrite ND. apply mem_false in NI. rewrite NI.
    destruct (f_nonStatic f) eqn:E1; [rewrite (GN eq_refl)|]; cbn.
    all: destruct (f_static f) eqn:E2; [try rewrite (GS eq_refl)|]; cbn.
    all: try (rewrite GN in GS by reflexivity; specialize (GS eq_refl); discriminate).
    all: destruct (m_access m) eqn:EA; try congruence.
    all: try (destruct (f_public f) eqn:E3; [specialize (GP eq_refl); discriminate|]); cbn.
    all: try rewrite andb_false_r.
    all: destruct (m_isFunction m) eqn:E4; [rewrite (GF eq_refl)|]; cbn; rewrite GO, GB; now left.
  - assert (G : goodOverride pub cur f m) by (repeat split; auto; exists o; auto).
    assert (NB' : forall p, In p pre -> m_name (fst p) = m_name m -> ~ blocks pub cur f p)
      by (intros p Hp; apply NB; now right).
    assert (K1 : In (m, helperOf m) (overrides pub cur f (pre ++ (m, d) :: suf) impl)) by (apply IH; auto).
    assert (K2 : blocks pub cur f (a, da) ->
       In (m, helperOf m) (overrides pub cur f (pre ++ (m, d) :: suf) (m_name a :: impl))).
    { intros B. apply IH; auto. intros [E|X]; [|auto]. apply (NB (a, da)); [now left|exact E|exact B]. }
    destruct (m_isMember a) eqn:EM; cbn [negb]; [|exact K1].
    destruct (Nat.eqb_spec da 0) as [E0|E0]; [apply K2; split; [exact EM|left; exact E0]|].
    destruct (mem _ _); [exact K1|]. destruct (f_nonStatic f && negb (m_static a)) eqn:EN; [exact K1|].
    destruct (f_static f && m_static a) eqn:ES; [exact K1|].
    assert (B : forall X : Prop, X -> m_access a <> Private -> (X -> (f_public f = true /\ m_access a = Public) \/
       (m_isFunction a = true /\ m_final a = true) \/ exists o, m_owner a = Some o /\ pub cur o = true) ->
       blocks pub cur f (a, da)).
    { intros X HX NP HB. split; [exact EM|]. right. cbn. split; [|split; [|split; [exact NP|auto]]].
      - intros [Y Z]. rewrite Y, Z in EN. discriminate.
      - intros [Y Z]. rewrite Y, Z in ES. discriminate. }
    destruct (m_access a) eqn:EA; [| |exact K1].
    + destruct (f_public f) eqn:EP; cbn.
      { apply K2. apply (B True I); [discriminate|]. auto. }
      destruct (m_isFunction a && m_final a) eqn:EF.
      { apply K2. apply (B True I); [discriminate|]. apply andb_true_iff in EF. auto. }
      destruct (m_owner a) as [oa|] eqn:EO; [|exact K1]. destruct (pub cur oa) eqn:P; [|exact K1].
      right. apply K2. apply (B True I); [discriminate|]. intros _. right. right. exists oa. auto.
    + rewrite andb_false_r. destruct (m_isFunction a && m_final a) eqn:EF.
      { apply K2. apply (B True I); [discriminate|]. apply andb_true_iff in EF. auto. }
      destruct (m_owner a) as [oa|] eqn:EO; [|exact K1]. destruct (pub cur oa) eqn:P; [|exact K1].
      right. apply K2. apply (B True I); [discriminate|]. intros _. right. right. exists oa. auto.
Qed.

Lemma flags cm mods : let f := snd (keywordsFor cm mods) in
  (f_nonStatic f = true <-> In WStatic mods) /\
  (f_static f = true <-> ~ In WStatic mods /\ In WFunction mods) /\
  (f_show f = true -> ~ In WPrivate mods) /\
  (f_show f = true -> (f_public f = true <-> In WProtected mods)) /\
  (f_show f = true <-> ~ In WPrivate mods /\ ~ (cm = ModAbstract /\ In WAbstract mods)).
Proof.
  unfold keywordsFor. rewrite <- !has_iff.
  destruct cm; destruct (has WFunction mods), (has WPrivate mods), (has WPublic mods), (has WProtected mods),
    (has WStatic mods), (has WAbstract mods), (has WFinal mods); cbn; intuition (try discriminate; try congruence).
Qed.

Lemma keywords_spec cm mods : let ks := fst (keywordsFor cm mods) in
  NoDup ks /\ (forall k, In k ks -> ~ In k mods) /\
  (In WAbstract ks -> cm = ModAbstract) /\
  (forall k, In k ks -> k = WPublic \/ k = WProtected \/ k = WPrivate ->
     ~ In WPublic mods /\ ~ In WProtected mods /\ ~ In WPrivate mods) /\
  (In WFunction mods -> ks = []) /\
  (mods <> [] -> ~ In WVar ks /\ ~ In WConst ks).
Proof.
  unfold keywordsFor. set (k5 := match mods with [] => [WVar; WConst] | _ => [] end).
  assert (H5 : mods = [] /\ k5 = [WVar; WConst] \/ mods <> [] /\ k5 = []).
  { unfold k5. destruct mods; [left|right]; split; auto; discriminate. }
  destruct H5 as [[E ->]|[E ->]].
  - rewrite E. destruct cm; cbn; (split; [repeat constructor; cbn; intuition discriminate|]); intuition (try discriminate; try congruence).
  - assert (F : forall k, has k mods = false -> ~ In k mods) by (intros k; apply has_false).
    rewrite <- (has_iff WFunction).
    destruct cm; destruct (has WFunction mods) eqn:E1, (has WPrivate mods) eqn:E2, (has WPublic mods) eqn:E3, (has WProtected mods) eqn:E4,
      (has WStatic mods) eqn:E5, (has WAbstract mods) eqn:E6, (has WFinal mods) eqn:E7; cbn;
    (split; [repeat constructor; cbn; intuition discriminate|]);
    (split; [intros k Hk; repeat (destruct Hk as [<-|Hk]; [auto|]); contradiction|]);
    (split; [intros Hk; try reflexivity; repeat (destruct Hk as [Hk|Hk]; [discriminate|]); contradiction|]);
    (split; [intros k Hk HP; repeat (destruct Hk as [Hk|Hk]; [subst k|]); try contradiction;
      first [solve [auto]|exfalso; destruct HP as [HP|[HP|HP]]; discriminate HP]|]);
    (split; [intros Hk; try reflexivity; discriminate Hk|]); intuition discriminate.
Qed.
