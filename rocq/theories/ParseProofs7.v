(** Recovery in a body in braces: the parser gets to the closing brace and not past it. *)
From Coq Require Import List Bool NArith ZArith Lia Arith.
From Verif Require Import Chars LexModel ParseModel ParseSpec ParseProofs ParseProofs2.
Import ListNotations.
Open Scope nat_scope.

Definition opener (k : Tok) : bool := existsb (teq k) [T_LBRACE; T_CURLY_OPEN; T_DOLLAR_OPEN_CURLY_BRACES].
Fixpoint opens (i : item) : bool :=
  match i with
  | IT k => opener k
  | ISeq a b => opens a || opens b
  | _ => false
  end.
(** No [}] is taken unless one of the openers was. *)
Fixpoint safeT (t : list bool) (i : item) : bool :=
  match i with
  | IT k => negb (teq k T_RBRACE)
  | IN n => nth (ntId n) t false
  | IRecover _ => false
  | ISeq a b => safeT t a && (opens a || safeT t b)
  | IStar a =>
      match a with
      | IRecover n => negb (mem T_RBRACE (first a)) && negb (mem T_EOF (first a)) && nth (ntId n) t false
      | _ => safeT t a
      end
  | ILoop a stop | ILoopAgain a stop => inStop T_RBRACE stop && safeT t a
  | IList a sep _ => safeT t a && negb (teq sep T_RBRACE)
  | IAlt a b | IRollback a b => safeT t a && safeT t b
  | ICond _ a => safeT t a
  | IEps | IFail | IAct _ | IPeek _ => true
  end.
Definition safeTab : list bool :=
  Eval vm_compute in Nat.iter 30 (fun t => map (fun n => safeT t (rule n)) allNT) (map (fun _ => true) allNT).
Definition safe : item -> bool := safeT safeTab.
Lemma safe_rule : forall n, safe (IN n) = true -> safe (rule n) = true.
Proof. intros n. destruct n; vm_compute; intros H; try discriminate H; reflexivity. Qed.

Section Stay.
Variable g : Gen.
Hypothesis HR : forall n, resync g n T_RBRACE = true.
Variable tail : list Tok.

(** Before the closing brace, with no opener in between. *)
Definition inside (s : PS) : Prop :=
  exists b, rest s = b ++ T_RBRACE :: tail /\ forall k, In k b -> opener k = false.
Lemma inside_same : forall s s', inside s -> rest s' = rest s -> inside s'.
Proof. intros s s' (b & E & F) R. exists b. rewrite R. auto. Qed.
Lemma inside_tok : forall s, inside s -> opener (yytoken s) = false.
Proof.
  intros s ([|k b] & E & F); rewrite (yytoken_cons _ _ _ E); [reflexivity|]. apply F. now left.
Qed.
Lemma inside_lex : forall s, inside s -> teq (yytoken s) T_RBRACE = false -> inside (yylex s).
Proof.
  intros s ([|k b] & E & F) T; rewrite (yytoken_cons _ _ _ E) in T; [rewrite teq_refl in T; discriminate|].
  exists b. unfold yylex. rewrite E. cbn. split; [reflexivity|]. intros x I0. apply F. now right.
Qed.
Lemma inside_skip : forall stop, stop T_RBRACE = true -> forall l s, l = rest s -> inside s -> inside (skipTo stop l s).
Proof.
  intros stop ST. induction l as [|k l IH]; intros s E I0; [exact I0|]. cbn. destruct (stop k) eqn:K; [exact I0|].
  apply IH.
  - unfold yylex. rewrite <- E. reflexivity.
  - apply inside_lex; [exact I0|]. rewrite (yytoken_cons _ _ _ (eq_sym E)). apply teq_neq. intros ->. congruence.
Qed.
Lemma inside_report : forall sev b s, inside s -> inside (report sev b s).
Proof. intros. eapply inside_same; [eassumption|]. unfold report. destruct (_ <=? _); reflexivity. Qed.
Lemma inside_expected : forall s, inside s -> inside (expected s).
Proof. intros. unfold expected. destruct (blocked s); [assumption|now apply inside_report]. Qed.
Lemma inside_act : forall x s, inside s -> inside (stateOf (doAct x s)).
Proof.
  intros x s I0. destruct x; cbn [doAct stateOf]; try (eapply inside_same; [exact I0|reflexivity]); try (now apply inside_report).
  - destruct (teq _ _); [|eapply inside_same; [exact I0|reflexivity]].
    eapply inside_same; [apply (inside_report SevWarning 2); exact I0|reflexivity].
  - destruct (isVar s); [exact I0|now apply inside_report].
  - destruct (imp s), (cimp s); try exact I0; now apply inside_report.
Qed.
Lemma inside_recover : forall n s s1, inside s1 -> inside s -> teq (yytoken s) T_RBRACE = false ->
  after s s1 -> inside (recover (resync g n) s s1).
Proof.
  intros n s s1 I1 I0 T (l & R & P & _). unfold recover.
  assert (I2 : inside (restoreState s s1)) by (eapply inside_same; [exact I1|reflexivity]).
  apply inside_skip; [apply HR|reflexivity|].
  change (pos (restoreState s s1)) with (pos s1).
  destruct (pos s1 =? pos s) eqn:Q; [|exact I2]. apply Nat.eqb_eq in Q.
  assert (l = []) by (destruct l; [reflexivity|cbn in P; lia]). subst l. cbn in R.
  apply inside_lex; [exact I2|]. unfold yytoken, la in *. cbn [rest restoreState setIsVar setVst]. now rewrite <- R.
Qed.

Lemma stay : forall f i s r, run g f i s = Some r -> safe i = true -> inside s ->
  inside (stateOf r) /\ (opens i = true -> exists s', r = Fail s').
Proof.
  induction f as [|f IH]; intros i s r H S0 I0; [discriminate|].
  assert (NO : forall k, opener k = true -> teq (yytoken s) k = false).
  { intros k O. apply teq_neq. intros E. pose proof (inside_tok _ I0) as X. rewrite E in X. congruence. }
  destruct i; cbn [run] in H; unfold safe in S0; cbn [safeT] in S0.
  - cbn [opens]. destruct (teq (yytoken s) k) eqn:T.
    + injection H as <-. split; [|intros O; rewrite (NO _ O) in T; discriminate]. cbn [stateOf]. apply inside_lex; [exact I0|].
      apply teq_eq in T. rewrite T. now destruct (teq k T_RBRACE).
    + injection H as <-. split; [now apply inside_expected|eauto].
  - split; [|discriminate]. destruct (enters (rule n) s); [|injection H as <-; now apply inside_expected].
    destruct (run g f (rule n) s) as [[t1 s1|s1]|] eqn:E; [| |discriminate]; injection H as <-;
      destruct (IH _ _ _ E (safe_rule n S0) I0) as [J _]; [exact J|now apply inside_expected].
  - injection H as <-. split; [exact I0|discriminate].
  - injection H as <-. split; [exact I0|discriminate].
  - apply andb_true_iff in S0 as [S1 S2].
    destruct (run g f i1 s) as [[t1 s1|s1]|] eqn:E; [| |discriminate].
    + destruct (IH _ _ _ E S1 I0) as [J K]. destruct (opens i1) eqn:O1; [destruct (K eq_refl) as [x X]; discriminate X|].
      cbn [orb] in S2. destruct (run g f i2 s1) as [[t2 s2|s2]|] eqn:E2; [| |discriminate]; injection H as <-;
        destruct (IH _ _ _ E2 S2 J) as [J2 K2]; (split; [exact J2|]); cbn [opens]; rewrite O1; cbn [orb]; intros O2; [|eauto].
      destruct (K2 O2) as [x X]. discriminate X.
    + injection H as <-. destruct (IH _ _ _ E S1 I0) as [J K]. split; [exact J|eauto].
  - apply andb_true_iff in S0 as [S1 S2]. split; [|discriminate]. destruct (test i1 s); [exact (proj1 (IH _ _ _ H S1 I0))|exact (proj1 (IH _ _ _ H S2 I0))].
  - split; [|discriminate]. exact (proj1 (IH _ _ _ H S0 I0)).
  - (* star *)
    split; [|discriminate]. destruct (mem (yytoken s) (first i)) eqn:M; [|injection H as <-; exact I0].
    destruct (run g f i s) as [[t1 s1|s1]|] eqn:E; [| |discriminate].
    + assert (J : inside s1).
      { destruct i; try exact (proj1 (IH _ _ _ E S0 I0)).
        apply andb_true_iff in S0 as [S0 S1]. apply andb_true_iff in S0 as [SB SE].
        assert (T : teq (yytoken s) T_RBRACE = false).
        { apply teq_neq. intros T. rewrite T in M. rewrite M in SB. discriminate. }
        destruct f as [|f']; [discriminate E|]. pose proof E as E'. cbn [run] in E'.
        set (s0 := setBlocked s (blocked s && negb (unblocks g))) in *.
        destruct (run g f' (IN n) s0) as [[t2 s2|s2]|] eqn:E2; try discriminate; injection E' as <- <-.
        - apply (run_S g f') in E2. destruct (IH _ _ _ E2 S1 (inside_same _ _ I0 eq_refl)) as [J _]. eapply inside_same; [exact J|reflexivity].
        - pose proof (run_after _ _ _ _ _ E2) as A. apply (run_S g f') in E2. destruct (IH _ _ _ E2 S1 (inside_same _ _ I0 eq_refl)) as [J _].
          apply inside_recover; [eapply inside_same; [exact J|reflexivity]|exact I0|exact T|].
          destruct A as (l & A1 & A2 & A3 & A4). exists l. cbn in *. auto. }
      destruct (run g f (IStar i) s1) as [[t2 s2|s2]|] eqn:E2; [| |discriminate]; injection H as <-;
        exact (proj1 (IH _ _ _ E2 S0 J)).
    + injection H as <-. destruct i; try exact (proj1 (IH _ _ _ E S0 I0)).
      exfalso. destruct f as [|f']; [discriminate E|]. cbn [run] in E.
      match type of E with match ?x with _ => _ end = _ => destruct x as [[? ?|?]|]; discriminate E end.
  - (* list *)
    split; [|discriminate]. apply andb_true_iff in S0 as [S1 S2].
    destruct (run g f i s) as [[t1 s1|s1]|] eqn:E; [| |discriminate]; pose proof (proj1 (IH _ _ _ E S1 I0)) as J; cbn [stateOf] in J.
    + destruct (teq (yytoken s1) sep) eqn:T; [|injection H as <-; exact J]. cbv zeta in H.
      assert (J2 : inside (yylex s1)).
      { apply inside_lex; [exact J|]. apply teq_eq in T. rewrite T. now destruct (teq sep T_RBRACE). }
      destruct (match brk with Some b => _ | None => false end); [injection H as <-; exact J2|].
      destruct (run g f (IList i sep brk) (yylex s1)) as [[t2 s2|s2]|] eqn:E2; [| |discriminate]; injection H as <-;
        refine (proj1 (IH _ _ _ E2 _ J2)); unfold safe; cbn [safeT]; now rewrite S1, S2.
    + injection H as <-. exact J.
  - split; [|discriminate]. apply andb_true_iff in S0 as [S1 S2].
    destruct (run g f i1 (setBlocked s true)) as [[t1 s1|s1]|] eqn:E; [| |discriminate].
    + injection H as <-. eapply inside_same; [exact (proj1 (IH _ _ _ E S1 (inside_same _ _ I0 eq_refl)))|reflexivity].
    + exact (proj1 (IH _ _ _ H S2 (inside_same _ _ I0 eq_refl))).
  - discriminate S0.
  - split; [|discriminate]. injection H as <-. now apply inside_act.
  - split; [|discriminate]. apply andb_true_iff in S0 as [S1 S2].
    destruct (run g f i s) as [[t1 s1|s1]|] eqn:E; [| |discriminate]; pose proof (proj1 (IH _ _ _ E S2 I0)) as J; cbn [stateOf] in J.
    + destruct (inStop (yytoken s1) stop) eqn:T; [injection H as <-; exact J|].
      assert (J2 : inside (yylex (report SevError 1 s1))).
      { apply inside_lex; [now apply inside_report|]. apply teq_neq. intros E1.
        replace (yytoken (report SevError 1 s1)) with (yytoken s1) in E1 by (unfold report; destruct (_ <=? _); reflexivity).
        rewrite E1 in T. congruence. }
      destruct (run g f (ILoopAgain i stop) _) as [[t2 s2|s2]|] eqn:E2; [| |discriminate]; injection H as <-;
        refine (proj1 (IH _ _ _ E2 _ J2)); unfold safe; cbn [safeT]; now rewrite S1, S2.
    + injection H as <-. exact J.
  - split; [|discriminate]. apply andb_true_iff in S0 as [S1 S2].
    destruct (run g f i s) as [[t1 s1|s1]|] eqn:E; [| |discriminate]; pose proof (proj1 (IH _ _ _ E S2 I0)) as J; cbn [stateOf] in J.
    + destruct (inStop (yytoken s1) stop) eqn:T; [injection H as <-; exact J|].
      assert (J2 : inside (yylex s1)). { apply inside_lex; [exact J|]. apply teq_neq. intros E1. rewrite E1 in T. congruence. }
      destruct (run g f (ILoopAgain i stop) _) as [[t2 s2|s2]|] eqn:E2; [| |discriminate]; injection H as <-;
        refine (proj1 (IH _ _ _ E2 _ J2)); unfold safe; cbn [safeT]; now rewrite S1, S2.
    + injection H as <-. exact J.
  - split; [|discriminate]. injection H as <-. destruct (teq _ _); [exact I0|now apply inside_expected].
Qed.

(** The loop over statements does not fail, and stops only at one of its stop tokens. *)
Lemma star_never : forall f n s r, run g f (IStar (IRecover n)) s = Some r -> exists t s', r = Ok t s'.
Proof.
  induction f as [|f IH]; intros n s r H; [discriminate|]. cbn [run] in H.
  destruct (mem _ _); [|injection H as <-; eauto].
  destruct (run g f (IRecover n) s) as [[t1 s1|s1]|] eqn:E; [| |discriminate].
  - destruct (run g f (IStar (IRecover n)) s1) as [x|] eqn:E2; [|discriminate].
    destruct (IH _ _ _ E2) as (t2 & s2 & ->). injection H as <-. eauto.
  - exfalso. destruct f as [|f']; [discriminate E|]. cbn [run] in E.
    match type of E with match ?x with _ => _ end = _ => destruct x as [[? ?|?]|]; discriminate E end.
Qed.
Lemma again_stops : forall f n stop s r, run g f (ILoopAgain (IStar (IRecover n)) stop) s = Some r ->
  exists t s', r = Ok t s' /\ inStop (yytoken s') stop = true.
Proof.
  induction f as [|f IH]; intros n stop s r H; [discriminate|]. cbn [run] in H.
  destruct (run g f (IStar (IRecover n)) s) as [x|] eqn:E; [|discriminate].
  destruct (star_never _ _ _ _ E) as (t1 & s1 & ->). destruct (inStop (yytoken s1) stop) eqn:T; [injection H as <-; eauto|].
  destruct (run g f (ILoopAgain (IStar (IRecover n)) stop) (yylex s1)) as [x|] eqn:E2; [|discriminate].
  destruct (IH _ _ _ _ E2) as (t2 & s2 & -> & T2). injection H as <-. eauto.
Qed.
Lemma loop_stops : forall f n stop s r, run g f (ILoop (IStar (IRecover n)) stop) s = Some r ->
  exists t s', r = Ok t s' /\ inStop (yytoken s') stop = true.
Proof.
  intros f n stop s r H. destruct f as [|f]; [discriminate|]. cbn [run] in H.
  destruct (run g f (IStar (IRecover n)) s) as [x|] eqn:E; [|discriminate].
  destruct (star_never _ _ _ _ E) as (t1 & s1 & ->). destruct (inStop (yytoken s1) stop) eqn:T; [injection H as <-; eauto|].
  destruct (run g f (ILoopAgain (IStar (IRecover n)) stop) _) as [x|] eqn:E2; [|discriminate].
  destruct (again_stops _ _ _ _ _ E2) as (t2 & s2 & -> & T2). injection H as <-. eauto.
Qed.

(** A body without braces and without the stop tokens in it is left at its closing brace. *)
Definition flat (bad : list Tok) : Prop := forall k, In k bad -> opener k = false /\ inStop k innerStop = false.
Theorem body : forall f bad s r, flat bad -> rest s = bad ++ T_RBRACE :: tail ->
  run g f (IRecover n_innerStatementList) s = Some r -> exists t s', r = Ok t s' /\ rest s' = T_RBRACE :: tail.
Proof.
  intros f bad s r FL R H. destruct f as [|f]; [discriminate|]. cbn [run] in H.
  set (s0 := setBlocked s (blocked s && negb (unblocks g))) in *.
  assert (I0 : inside s0). { exists bad. split; [exact R|]. intros k K. now apply FL. }
  destruct (run g f (IN n_innerStatementList) s0) as [x|] eqn:E; [|discriminate].
  destruct (stay _ _ _ _ E eq_refl I0) as [J _].
  pose proof (run_after _ _ _ _ _ E) as (l & A & _).
  destruct f as [|f]; [discriminate|]. cbn [run] in E.
  replace (enters (rule n_innerStatementList) s0) with true in E by (unfold enters; rewrite (eq_refl : nullable (rule n_innerStatementList) = true); reflexivity).
  destruct (run g f (rule n_innerStatementList) s0) as [y|] eqn:E2; [|discriminate].
  destruct (loop_stops _ _ _ _ _ E2) as (t & s1 & -> & T). injection E as <-. injection H as <-.
  eexists. eexists. split; [reflexivity|]. cbn [stateOf] in *. cbn [rest setBlocked].
  destruct J as (b & Q & F). rewrite Q. destruct b as [|k b]; [reflexivity|]. exfalso.
  rewrite (yytoken_cons _ _ _ Q) in T. rewrite Q in A. change (rest s0) with (rest s) in A. rewrite R in A.
  assert (K : In k bad).
  { clear - A F. revert A. revert l. induction bad as [|x bad IH]; intros l A.
    - exfalso. assert (Z : List.length (T_RBRACE :: tail) = List.length (l ++ (k :: b) ++ T_RBRACE :: tail)) by (now rewrite <- A).
      rewrite !app_length in Z. cbn in Z. lia.
    - destruct l as [|y l]; [cbn in A; injection A as -> _; now left|]. cbn in A. injection A as _ A. right. exact (IH _ A). }
  destruct (FL k K) as [_ X]. congruence.
Qed.
End Stay.
