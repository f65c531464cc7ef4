From Verif Require Import ClsSpec ClsProofs.
Open Scope nat_scope.

Lemma C37_main w find ids : findsClasses w find -> uniqueIds w ->
  exists s, forbidNames (S (List.length w)) w find ids [] = Some s /\
    forall x, In x s <-> mustForbid w find ids x.
Proof.
  intros [OK FA] U. destruct (forbidNames_total w find ids []) as [s E]. exists s. (split; [exact E|]).
  destruct (forbidNames_spec _ w find OK ids [] s E) as [_ X].
  destruct (forbidNames_complete _ w find OK FA U ids [] s (closed_nil w) E) as [_ K].
  intros x. split; [intros H; destruct (X x H) as [[]|M]; exact M|apply K].
Qed.

Lemma visible_in w pub x l d : forall seen, d_kind d <> KindInstance -> In d l -> isValid w pub x d = true ->
  In d (visibleItems w pub x l seen).
Proof.
  induction l as [|a l IH]; intros seen K H V; [contradiction|]. cbn. destruct H as [->|H].
  - rewrite V. destruct (d_kind d); [now left|congruence|now left|now left].
  - assert (G : forall s, In d (if isValid w pub x a then a :: visibleItems w pub x l s
                  else visibleItems w pub x l s)).
    { intros s. destruct (isValid w pub x a); [right|]; auto. }
    destruct (d_kind a); auto. destruct (_ && _ && _); [auto|]. destruct (mem _ _); auto.
Qed.

Lemma visible_local w pub x l d : forall seen, In d (visibleItems w pub x l seen) -> ~ foreignVariable x d.
Proof.
  induction l as [|a l IH]; intros seen H; cbn in H; [contradiction|].
  assert (G : ~ foreignVariable x a -> forall s, In d (if isValid w pub x a then a :: visibleItems w pub x l s
                  else visibleItems w pub x l s) -> ~ foreignVariable x d).
  { intros N s Hs. destruct (isValid w pub x a); [destruct Hs as [<-|Hs]; [exact N|]|]; eauto. }
  destruct (d_kind a) eqn:EK; try (eapply G; [|exact H]; intros (K & _); congruence).
  destruct (negb (Nat.eqb (d_ctx a) (x_ctx x)) && negb (d_visible a) &&
            match d_var a with Some false => true | _ => false end) eqn:E; [eauto|].
  destruct (mem _ _); [eauto|]. eapply G; [|exact H]. intros (_ & N & V & D). apply Nat.eqb_neq in N.
  rewrite N, V, D in E. discriminate.
Qed.

(** A variable is offered when its last declaration is. *)
Lemma visible_var w pub x pre d suf : forall seen, d_kind d = KindInstance -> ~ foreignVariable x d ->
  isValid w pub x d = true -> ~ In (d_ident d) seen ->
  (forall a, In a pre -> d_kind a = KindInstance -> ~ foreignVariable x a -> d_ident a <> d_ident d) ->
  In d (visibleItems w pub x (pre ++ d :: suf) seen).
Proof.
  induction pre as [|a pre IH]; intros seen EK NF V NS NP; cbn.
  - rewrite EK. destruct (negb (Nat.eqb (d_ctx d) (x_ctx x)) && negb (d_visible d) &&
            match d_var d with Some false => true | _ => false end) eqn:E.
    + exfalso. apply NF. apply andb_true_iff in E. destruct E as [E E3]. apply andb_true_iff in E.
      destruct E as [E1 E2]. split; [exact EK|]. split; [|split].
      * apply negb_true_iff, Nat.eqb_neq in E1. exact E1.
      * apply negb_true_iff in E2. exact E2.
      * destruct (d_var d) as [[|]|]; try discriminate. reflexivity.
    + apply mem_false in NS. rewrite NS, V. now left.
  - assert (NP' : forall b, In b pre -> d_kind b = KindInstance -> ~ foreignVariable x b -> d_ident b <> d_ident d)
      by (intros b Hb; apply NP; now right).
    assert (G : forall s, ~ In (d_ident d) s -> In d (if isValid w pub x a then a :: visibleItems w pub x (pre ++ d :: suf) s
                  else visibleItems w pub x (pre ++ d :: suf) s)).
    { intros s Hs. destruct (isValid w pub x a); [right|]; auto. }
    destruct (d_kind a) eqn:EA; auto.
    destruct (negb (Nat.eqb (d_ctx a) (x_ctx x)) && negb (d_visible a) &&
            match d_var a with Some false => true | _ => false end) eqn:E; [auto|].
    destruct (mem _ _); [auto|]. apply G. intros [H|H]; [|auto]. apply (NP a); auto; [now left|].
    intros (_ & N & VV & D). apply Nat.eqb_neq in N. rewrite N, VV, D in E. discriminate.
Qed.

Lemma overrides_main w pub cur c mods l m h : nth_error w cur = Some c -> ownFirst l ->
  In (m, h) (snd (classMemberItems w pub cur mods l)) ->
  (exists d, In (m, d) l /\ d <> 0) /\ m_access m <> Private /\ ~ (m_isFunction m = true /\ m_final m = true) /\
  (forall o, In (o, 0) l -> m_isMember o = true -> m_name o <> m_name m) /\
  fitsModifiers mods m /\ (exists o, m_owner m = Some o /\ pub cur o = true) /\
  h = (if m_isFunction m then if m_abstract m then Implement else Override else OverrideVar).
Proof.
  intros HC (own & inh & EL & HO & HI). unfold classMemberItems. rewrite HC.
  pose proof (flags (cd_mod c) mods) as F. destruct (keywordsFor (cd_mod c) mods) as [ks f]. cbn in F. cbn [snd].
  destruct F as (F1 & F2 & F3 & F4 & F5).
  destruct (f_show f && negb (match cd_bases c with [] => true | _ => false end)) eqn:ES; [|intros []].
  apply andb_true_iff in ES. destruct ES as [ES _].
  intros H. apply overrides_spec in H.
  destruct H as (-> & (GM & GA & GF & GN & GS & GP & o & GO & GB) & _ & pre & d & suf & E & ND & P).
  split. { exists d. (split; [|exact ND]). rewrite E. apply in_or_app. right. now left. }
  (split; [exact GA|]). split. { intros [X Y]. rewrite GF in Y by exact X. discriminate. }
  split.
  { intros o' Ho HM. 
    assert (In (o', 0) pre).
    { rewrite E in Ho. apply in_app_or in Ho. destruct Ho as [Ho|[Ho|Ho]]; [exact Ho|injection Ho; congruence|].
      exfalso. (* an entry after an inherited one is inherited *)
      assert (own ++ inh = pre ++ (m, d) :: suf) by congruence.
      assert (Hl : forall own inh pre : list (Member * nat), (forall p, In p own -> snd p = 0) ->
         (forall p, In p inh -> snd p <> 0) -> own ++ inh = pre ++ (m, d) :: suf -> In (o', 0) inh).
      { clear -ND Ho. induction own as [|q own IH]; intros inh pre H1 H2 E.
        - cbn in E. subst inh. apply in_or_app. right. now right.
        - destruct pre as [|q' pre]; cbn in E; injection E as E1 E2.
          + subst q. exfalso. apply ND. apply (H1 (m, d)). now left.
          + apply (IH inh pre); auto. intros p Hp. apply H1. now right. }
      specialize (Hl own inh pre HO HI H). specialize (HI _ Hl). cbn in HI. congruence. }
    apply (P (o', 0)); auto. }
  split.
  { split; [intros X; apply GN, F1; exact X|]. split; [intros X Y; apply GS, F2; auto|].
    split; [intros X; apply GP, F4; auto|]. apply F3. exact ES. }
  split; [exists o; auto|]. unfold helperOf. destruct (m_isFunction m); reflexivity.
Qed.
Lemma overrides_once w pub cur mods l :
  NoDup (map (fun p => m_name (fst p)) (snd (classMemberItems w pub cur mods l))).
Proof.
  unfold classMemberItems. destruct (nth_error w cur); [|constructor].
  destruct (keywordsFor _ _) as [ks f]. cbn. destruct (_ && _); [apply overrides_nodup|constructor].
Qed.
