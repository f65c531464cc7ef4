(** Reading a file goes on behind a broken body as if nothing had happened. *)
From Coq Require Import List Bool NArith ZArith Lia Arith.
From Verif Require Import Chars LexModel ParseModel ParseSpec ParseProofs ParseProofs2 ParseProofs6 ParseProofs7.
Import ListNotations.
Open Scope nat_scope.

(** Whether a part sets, or uses before setting, the flag for a variable. *)
Fixpoint killsT (t : list bool) (i : item) : bool :=
  match i with
  | IAct (ASetIsVariable _) => true
  | IN n => nth (ntId n) t false
  | ISeq a b => killsT t a || killsT t b
  | IAlt a b | IRollback a b => killsT t a && killsT t b
  | ICond _ a | IList a _ _ => killsT t a
  | _ => false
  end.
Definition killsTab : list bool :=
  Eval vm_compute in Nat.iter 30 (fun t => map (fun n => killsT t (rule n)) allNT) (map (fun _ => false) allNT).
Definition kills : item -> bool := killsT killsTab.
Fixpoint usesT (t : list bool) (i : item) : bool :=
  match i with
  | IAct ACheckVariable => true
  | IN n | IRecover n => nth (ntId n) t true
  | ISeq a b => usesT t a || (negb (kills a) && usesT t b)
  | IAlt a b | IRollback a b => usesT t a || usesT t b
  | ICond _ a | IList a _ _ | IStar a | ILoop a _ | ILoopAgain a _ => usesT t a
  | _ => false
  end.
Definition usesTab : list bool :=
  Eval vm_compute in Nat.iter 30 (fun t => map (fun n => usesT t (rule n)) allNT) (map (fun _ => false) allNT).
Definition uses : item -> bool := usesT usesTab.
Lemma kills_rule : forall n, kills (IN n) = true -> kills (rule n) = true.
Proof. intros n. destruct n; vm_compute; intros H; try discriminate H; reflexivity. Qed.
Lemma uses_rule : forall n, uses (IN n) = false -> uses (rule n) = false.
Proof. intros n. destruct n; vm_compute; intros H; try discriminate H; reflexivity. Qed.

Definition sim (d : nat) (s1 s2 : PS) : Prop := rest s1 = rest s2 /\ vst s1 = vst s2 /\ pos s2 = pos s1 + d.
Definition simF (d : nat) (s1 s2 : PS) : Prop := rest s1 = rest s2 /\ pos s2 = pos s1 + d.
Definition simR (d : nat) (V : Prop) (a b : option res) : Prop :=
  match a, b with
  | None, None => True
  | Some (Ok t1 s1), Some (Ok t2 s2) => t2 = map (shift d) t1 /\ sim d s1 s2 /\ (V -> isVar s1 = isVar s2)
  | Some (Fail s1), Some (Fail s2) => simF d s1 s2
  | _, _ => False
  end.
Lemma sim_tok : forall d s1 s2, sim d s1 s2 -> yytoken s1 = yytoken s2.
Proof. intros d s1 s2 (R & _). unfold yytoken, la. now rewrite R. Qed.
Lemma sim_lex : forall d s1 s2, sim d s1 s2 -> sim d (yylex s1) (yylex s2).
Proof.
  intros d s1 s2 (R & V & P). unfold yylex, sim. rewrite <- R. destruct (rest s1) as [|k r] eqn:E; cbn; repeat split; try congruence; lia.
Qed.
Lemma isVar_lex : forall s, isVar (yylex s) = isVar s.
Proof. intros. unfold yylex. destruct (rest s); reflexivity. Qed.
Lemma sim_holds : forall d c s1 s2, sim d s1 s2 -> holds c s1 = holds c s2.
Proof. intros d c s1 s2 (R & V & _). destruct c; unfold holds, la; rewrite ?R, ?V; reflexivity. Qed.
Lemma sim_enters : forall d i s1 s2, sim d s1 s2 -> enters i s1 = enters i s2.
Proof. intros. unfold enters. now rewrite (sim_tok _ _ _ H). Qed.
Lemma sim_test : forall d i s1 s2, sim d s1 s2 -> test i s1 = test i s2.
Proof. intros. unfold test. destruct i; rewrite ?(sim_holds _ _ _ _ H); now rewrite (sim_enters _ _ _ _ H). Qed.
Lemma rest_report : forall sev b s, rest (report sev b s) = rest s /\ pos (report sev b s) = pos s
  /\ vst (report sev b s) = vst s /\ isVar (report sev b s) = isVar s.
Proof. intros. unfold report. destruct (_ <=? _); cbn; auto. Qed.
Lemma rest_expected : forall s, rest (expected s) = rest s /\ pos (expected s) = pos s.
Proof. intros. unfold expected. destruct (blocked s); [auto|]. destruct (rest_report SevError 1 s) as (A & B & _). auto. Qed.
Lemma simF_expected : forall d s1 s2, simF d s1 s2 -> simF d (expected s1) (expected s2).
Proof.
  intros d s1 s2 (R & P). destruct (rest_expected s1) as [A B], (rest_expected s2) as [C D]. split; congruence.
Qed.
Lemma sim_simF : forall d s1 s2, sim d s1 s2 -> simF d s1 s2.
Proof. intros d s1 s2 (R & _ & P). split; auto. Qed.
Lemma skip_fields : forall stop l s, vst (skipTo stop l s) = vst s /\ isVar (skipTo stop l s) = isVar s.
Proof.
  intros stop. induction l as [|k l IH]; intros s; [auto|]. cbn. destruct (stop k); [auto|]. destruct (IH (yylex s)) as [A B].
  rewrite A, B. unfold yylex. destruct (rest s); auto.
Qed.
Lemma sim_skip : forall d stop l s1 s2, sim d s1 s2 -> sim d (skipTo stop l s1) (skipTo stop l s2).
Proof. intros d stop. induction l as [|k l IH]; intros s1 s2 H; [exact H|]. cbn. destruct (stop k); [exact H|]. apply IH, sim_lex, H. Qed.
Lemma sim_recover : forall d stop a1 a2 s1 s2, sim d a1 a2 -> simF d s1 s2 -> sim d (recover stop a1 s1) (recover stop a2 s2).
Proof.
  intros d stop a1 a2 s1 s2 (R & V & P) (R' & P'). unfold recover.
  assert (S1 : sim d (restoreState a1 s1) (restoreState a2 s2)) by (repeat split; cbn; auto).
  change (pos (restoreState a1 s1)) with (pos s1). change (pos (restoreState a2 s2)) with (pos s2).
  replace (pos s2 =? pos a2) with (pos s1 =? pos a1).
  2:{ destruct (pos s1 =? pos a1) eqn:E; symmetry; [apply Nat.eqb_eq in E; apply Nat.eqb_eq; lia|apply Nat.eqb_neq in E; apply Nat.eqb_neq; lia]. }
  destruct (pos s1 =? pos a1).
  - pose proof (sim_lex _ _ _ S1) as S2. pose proof S2 as (R2 & _). rewrite <- R2. now apply sim_skip.
  - pose proof S1 as (R2 & _). rewrite <- R2. now apply sim_skip.
Qed.
Lemma isVar_recover : forall stop a s, isVar (recover stop a s) = isVar a.
Proof.
  intros. unfold recover. rewrite (proj2 (skip_fields _ _ _)). destruct (_ =? _); [rewrite isVar_lex|]; reflexivity.
Qed.

Lemma frame : forall g d f i s1 s2, sim d s1 s2 -> isVar s1 = isVar s2 \/ uses i = false ->
  simR d (isVar s1 = isVar s2 \/ kills i = true) (run g f i s1) (run g f i s2).
Proof.
  intros g d. induction f as [|f IH]; intros i s1 s2 S0 U; [exact I|].
  pose proof (sim_tok _ _ _ S0) as TK.
  destruct i; cbn [run].
  - rewrite <- TK. destruct (teq (yytoken s1) k); cbn [simR].
    + split; [cbn; f_equal; f_equal; exact (proj2 (proj2 S0))|]. split; [now apply sim_lex|]. intros [E|E]; [|discriminate E]. now rewrite !isVar_lex.
    + apply simF_expected, sim_simF, S0.
  - rewrite <- (sim_enters _ _ _ _ S0). destruct (enters (rule n) s1); [|cbn; apply simF_expected, sim_simF, S0].
    assert (U' : isVar s1 = isVar s2 \/ uses (rule n) = false) by (destruct U as [U|U]; [now left|right; now apply uses_rule]).
    pose proof (IH (rule n) s1 s2 S0 U') as H.
    destruct (run g f (rule n) s1) as [[t1 a|a]|], (run g f (rule n) s2) as [[t2 b|b]|]; cbn [simR] in H |- *; try contradiction; [| |exact I].
    + destruct H as (-> & S1 & V). split; [|split; [exact S1|]].
      * cbn. destruct S0 as (_ & _ & P0), S1 as (_ & _ & P1). now rewrite P0, P1.
      * intros [E|E]; apply V; [now left|right; now apply kills_rule].
    + now apply simF_expected.
  - cbn. split; [reflexivity|]. split; [exact S0|]. intros [E|E]; [exact E|discriminate].
  - cbn. now apply sim_simF.
  - assert (U1 : isVar s1 = isVar s2 \/ uses i1 = false).
    { destruct U as [U|U]; [now left|right]. unfold uses in *. cbn [usesT] in U. now apply orb_false_iff in U as [? ?]. }
    pose proof (IH i1 s1 s2 S0 U1) as H.
    destruct (run g f i1 s1) as [[t1 a|a]|], (run g f i1 s2) as [[t2 b|b]|]; cbn [simR] in H |- *; try contradiction; [|exact H|exact I].
    destruct H as (-> & S1 & V).
    assert (U2 : isVar a = isVar b \/ uses i2 = false).
    { destruct U as [U|U]; [left; apply V; now left|]. unfold uses in U. cbn [usesT] in U. apply orb_false_iff in U as [_ U].
      apply andb_false_iff in U as [U|U]; [|now right]. left. apply V. right. now destruct (kills i1). }
    pose proof (IH i2 a b S1 U2) as H2.
    destruct (run g f i2 a) as [[t3 a2|a2]|], (run g f i2 b) as [[t4 b2|b2]|]; cbn [simR] in H2 |- *; try contradiction; [|exact H2|exact I].
    destruct H2 as (-> & S2 & V2). split; [now rewrite map_app|]. split; [exact S2|]. intros W. apply V2.
    destruct W as [E|E]; [left; apply V; now left|]. unfold kills in E. cbn [killsT] in E. apply orb_true_iff in E as [E|E]; [left; apply V; now right|now right].
  - assert (UU : (isVar s1 = isVar s2 \/ uses i1 = false) /\ (isVar s1 = isVar s2 \/ uses i2 = false)).
    { destruct U as [U|U]; [auto|]. unfold uses in *. cbn [usesT] in U. apply orb_false_iff in U as [? ?]. auto. }
    destruct UU as [U1 U2]. rewrite <- (sim_test _ _ _ _ S0).
    destruct (test i1 s1); [pose proof (IH i1 s1 s2 S0 U1) as H; generalize dependent H; generalize (run g f i1 s1), (run g f i1 s2)
                           |pose proof (IH i2 s1 s2 S0 U2) as H; generalize dependent H; generalize (run g f i2 s1), (run g f i2 s2)];
      intros [[t1 a|a]|] [[t2 b|b]|] H; cbn [simR] in H |- *; try contradiction; try exact H;
      destruct H as (T & S1 & V); (split; [exact T|split; [exact S1|]]); intros [E|E]; apply V; [now left|right|now left|right];
      unfold kills in E; cbn [killsT] in E; apply andb_true_iff in E as [E1 E2]; assumption.
  - exact (IH i s1 s2 S0 U).
  - rewrite <- TK. destruct (mem (yytoken s1) (first i)); [|cbn; split; [reflexivity|]; split; [exact S0|]; intros [E|E]; [exact E|discriminate]].
    pose proof (IH i s1 s2 S0 U) as H.
    destruct (run g f i s1) as [[t1 a|a]|], (run g f i s2) as [[t2 b|b]|]; cbn [simR] in H |- *; try contradiction; [|exact H|exact I].
    destruct H as (-> & S1 & V).
    assert (U2 : isVar a = isVar b \/ uses (IStar i) = false).
    { destruct U as [U|U]; [left; apply V; now left|now right]. }
    pose proof (IH (IStar i) a b S1 U2) as H2.
    destruct (run g f (IStar i) a) as [[t3 a2|a2]|], (run g f (IStar i) b) as [[t4 b2|b2]|]; cbn [simR] in H2 |- *; try contradiction; [|exact H2|exact I].
    destruct H2 as (-> & S2 & V2). split; [now rewrite map_app|]. split; [exact S2|]. intros [E|E]; [|discriminate E]. apply V2. left. apply V. now left.
  - pose proof (IH i s1 s2 S0 U) as H.
    destruct (run g f i s1) as [[t1 a|a]|], (run g f i s2) as [[t2 b|b]|]; cbn [simR] in H |- *; try contradiction; [|exact H|exact I].
    destruct H as (-> & S1 & V). rewrite <- (sim_tok _ _ _ S1). destruct (teq (yytoken a) sep).
    + cbv zeta. pose proof (sim_lex _ _ _ S1) as S2. rewrite <- (sim_tok _ _ _ S2).
      destruct (match brk with Some x => _ | None => false end).
      * cbn [simR]. split; [rewrite map_app; cbn; do 3 f_equal; exact (proj2 (proj2 S1))|]. split; [exact S2|].
        intros W. rewrite !isVar_lex. exact (V W).
      * assert (U2 : isVar (yylex a) = isVar (yylex b) \/ uses (IList i sep brk) = false).
        { rewrite !isVar_lex. destruct U as [U|U]; [left; apply V; now left|now right]. }
        pose proof (IH (IList i sep brk) (yylex a) (yylex b) S2 U2) as H2.
        destruct (run g f (IList i sep brk) (yylex a)) as [[t3 a2|a2]|], (run g f (IList i sep brk) (yylex b)) as [[t4 b2|b2]|];
          cbn [simR] in H2 |- *; try contradiction; [|exact H2|exact I].
        destruct H2 as (-> & S3 & V2). split; [rewrite map_app; cbn; do 3 f_equal; exact (proj2 (proj2 S1))|]. split; [exact S3|].
        intros W. apply V2. left. rewrite !isVar_lex. exact (V W).
    + cbn [simR]. auto.
  - assert (UU : (isVar s1 = isVar s2 \/ uses i1 = false) /\ (isVar s1 = isVar s2 \/ uses i2 = false)).
    { destruct U as [U|U]; [auto|]. unfold uses in *. cbn [usesT] in U. apply orb_false_iff in U as [? ?]. auto. }
    destruct UU as [U1 U2].
    assert (S1 : sim d (setBlocked s1 true) (setBlocked s2 true)) by exact S0.
    pose proof (IH i1 (setBlocked s1 true) (setBlocked s2 true) S1 U1) as H.
    destruct (run g f i1 (setBlocked s1 true)) as [[t1 a|a]|], (run g f i1 (setBlocked s2 true)) as [[t2 b|b]|]; cbn [simR] in H |- *; try contradiction; [| |exact I].
    + destruct H as (-> & S2 & V). split; [reflexivity|]. split; [exact S2|]. cbn [isVar setBlocked] in *. intros W. apply V.
      destruct W as [E|E]; [now left|right]. unfold kills in E. cbn [killsT] in E. now apply andb_true_iff in E as [E _].
    + assert (S2 : sim d (rewind s1 (restoreState s1 (setBlocked a (blocked s1)))) (rewind s2 (restoreState s2 (setBlocked b (blocked s2))))).
      { destruct S0 as (A & B & C). repeat split; cbn; auto. }
      pose proof (IH i2 _ _ S2 U2) as H2. generalize dependent H2.
      generalize (run g f i2 (rewind s1 (restoreState s1 (setBlocked a (blocked s1))))) (run g f i2 (rewind s2 (restoreState s2 (setBlocked b (blocked s2))))).
      intros [[t3 a2|a2]|] [[t4 b2|b2]|] H2; cbn [simR] in H2 |- *; try contradiction; try exact H2.
      destruct H2 as (-> & S3 & V2). split; [reflexivity|]. split; [exact S3|]. intros W. apply V2. cbn [isVar rewind restoreState setIsVar setVst].
      destruct W as [E|E]; [now left|right]. unfold kills in E. cbn [killsT] in E. now apply andb_true_iff in E as [_ E].
  - set (b1 := blocked s1 && negb (unblocks g)). set (b2 := blocked s2 && negb (unblocks g)).
    assert (S1 : sim d (setBlocked s1 b1) (setBlocked s2 b2)) by exact S0.
    assert (U1 : isVar (setBlocked s1 b1) = isVar (setBlocked s2 b2) \/ uses (IN n) = false) by exact U.
    pose proof (IH (IN n) _ _ S1 U1) as H.
    destruct (run g f (IN n) (setBlocked s1 b1)) as [[t1 a|a]|], (run g f (IN n) (setBlocked s2 b2)) as [[t2 b|b]|]; cbn [simR] in H |- *; try contradiction; [| |exact I].
    + destruct H as (-> & S2 & V). split; [reflexivity|]. split; [exact S2|]. cbn [isVar setBlocked] in *. intros [E|E]; [|discriminate E]. apply V. now left.
    + split; [reflexivity|]. split; [now apply sim_recover|]. rewrite !isVar_recover. intros [E|E]; [exact E|discriminate E].
  - destruct S0 as (R & V & P). destruct x; cbn [doAct].
    + cbn. split; [reflexivity|]. split; [repeat split; auto|auto].
    + cbn. split; [reflexivity|]. split; [repeat split; auto|]. intros [E|E]; [exact E|discriminate E].
    + rewrite <- TK. destruct (rest_report SevWarning 2 s1) as (A1 & A2 & A3 & A4), (rest_report SevWarning 2 s2) as (B1 & B2 & B3 & B4).
      destruct (teq (yytoken s1) T_NEW); cbn [simR]; (split; [reflexivity|]); (split; [repeat split; cbn; congruence|]); intros [E|E]; try discriminate E; cbn; congruence.
    + destruct U as [U|U]; [|discriminate U]. rewrite <- U. destruct (rest_report SevError 1 s1) as (A1 & A2 & A3 & A4), (rest_report SevError 1 s2) as (B1 & B2 & B3 & B4).
      destruct (isVar s1) eqn:EV; cbn [simR]; [|split; congruence]. split; [reflexivity|]. split; [repeat split; auto|]. intros _. congruence.
    + destruct (rest_report SevError 1 s1) as (A1 & A2 & A3 & A4), (rest_report SevError 1 s2) as (B1 & B2 & B3 & B4).
      cbn [simR]. split; [reflexivity|]. split; [repeat split; congruence|]. intros [E|E]; try discriminate E; congruence.
    + cbn. split; [reflexivity|]. split; [repeat split; auto|]. intros [E|E]; [exact E|discriminate E].
    + cbn. split; [reflexivity|]. split; [repeat split; auto|]. intros [E|E]; [exact E|discriminate E].
    + assert (X : forall s, exists s', (match imp s, cimp s with NamespaceOrClassImport, _ | _, NamespaceOrClassImport => s | _, _ => report SevError 2 s end) = s'
        /\ rest s' = rest s /\ pos s' = pos s /\ vst s' = vst s /\ isVar s' = isVar s).
      { intros s. destruct (rest_report SevError 2 s) as (A1 & A2 & A3 & A4). destruct (imp s), (cimp s); eexists; repeat split; auto. }
      destruct (X s1) as (x1 & -> & A1 & A2 & A3 & A4), (X s2) as (x2 & -> & B1 & B2 & B3 & B4).
      cbn [simR]. split; [reflexivity|]. split; [repeat split; congruence|]. intros [E|E]; try discriminate E; congruence.
    + destruct (rest_report SevError 2 s1) as (A1 & A2 & A3 & A4), (rest_report SevError 2 s2) as (B1 & B2 & B3 & B4).
      cbn [simR]. split; [reflexivity|]. split; [repeat split; congruence|]. intros [E|E]; try discriminate E; congruence.
  - pose proof (IH i s1 s2 S0 U) as H.
    destruct (run g f i s1) as [[t1 a|a]|], (run g f i s2) as [[t2 b|b]|]; cbn [simR] in H |- *; try contradiction; [|exact H|exact I].
    destruct H as (-> & S1 & V). rewrite <- (sim_tok _ _ _ S1). destruct (inStop (yytoken a) stop).
    + cbn [simR]. split; [reflexivity|]. split; [exact S1|]. intros [E|E]; [|discriminate E]. apply V. now left.
    + destruct (rest_report SevError 1 a) as (A1 & A2 & A3 & A4), (rest_report SevError 1 b) as (B1 & B2 & B3 & B4).
      assert (S1' : sim d (report SevError 1 a) (report SevError 1 b)) by (destruct S1 as (? & ? & ?); repeat split; congruence).
      pose proof (sim_lex _ _ _ S1') as S2.
      assert (U2 : isVar (yylex (report SevError 1 a)) = isVar (yylex (report SevError 1 b)) \/ uses (ILoopAgain i stop) = false).
      { rewrite !isVar_lex, A4, B4. destruct U as [U|U]; [left; apply V; now left|now right]. }
      pose proof (IH (ILoopAgain i stop) _ _ S2 U2) as H2.
      destruct (run g f (ILoopAgain i stop) (yylex (report SevError 1 a))) as [[t3 a2|a2]|], (run g f (ILoopAgain i stop) (yylex (report SevError 1 b))) as [[t4 b2|b2]|];
        cbn [simR] in H2 |- *; try contradiction; [|exact H2|exact I].
      destruct H2 as (-> & S3 & V2). split; [now rewrite map_app|]. split; [exact S3|]. intros [E|E]; [|discriminate E].
      apply V2. left. rewrite !isVar_lex, A4, B4. apply V. now left.
  - pose proof (IH i s1 s2 S0 U) as H.
    destruct (run g f i s1) as [[t1 a|a]|], (run g f i s2) as [[t2 b|b]|]; cbn [simR] in H |- *; try contradiction; [|exact H|exact I].
    destruct H as (-> & S1 & V). rewrite <- (sim_tok _ _ _ S1). destruct (inStop (yytoken a) stop).
    + cbn [simR]. split; [reflexivity|]. split; [exact S1|]. intros [E|E]; [|discriminate E]. apply V. now left.
    + pose proof (sim_lex _ _ _ S1) as S2.
      assert (U2 : isVar (yylex a) = isVar (yylex b) \/ uses (ILoopAgain i stop) = false).
      { rewrite !isVar_lex. destruct U as [U|U]; [left; apply V; now left|now right]. }
      pose proof (IH (ILoopAgain i stop) _ _ S2 U2) as H2.
      destruct (run g f (ILoopAgain i stop) (yylex a)) as [[t3 a2|a2]|], (run g f (ILoopAgain i stop) (yylex b)) as [[t4 b2|b2]|];
        cbn [simR] in H2 |- *; try contradiction; [|exact H2|exact I].
      destruct H2 as (-> & S3 & V2). split; [now rewrite map_app|]. split; [exact S3|]. intros [E|E]; [|discriminate E].
      apply V2. left. rewrite !isVar_lex. apply V. now left.
  - rewrite <- TK. destruct (teq (yytoken s1) k); cbn [simR].
    + split; [reflexivity|]. split; [exact S0|]. intros [E|E]; [exact E|discriminate E].
    + apply simF_expected, sim_simF, S0.
Qed.

(** A part that was read leaves the state for expressions as it was, or normal. *)
Fixpoint endsNormal (i : item) : bool :=
  match i with
  | IAct ASetNormal => true
  | ISeq _ b => endsNormal b
  | _ => false
  end.
Fixpoint tameT (t : list bool) (i : item) : bool :=
  match i with
  | IAct ARefAssign => false
  | IN n => nth (ntId n) t false
  | IRecover n => nth (ntId n) t false
  | ISeq a b => (tameT t a && tameT t b) || endsNormal b
  | IAlt a b | IRollback a b => tameT t a && tameT t b
  | ICond _ a | IList a _ _ | IStar a | ILoop a _ | ILoopAgain a _ => tameT t a
  | _ => true
  end.
Definition tameTab : list bool :=
  Eval vm_compute in Nat.iter 30 (fun t => map (fun n => tameT t (rule n)) allNT) (map (fun _ => true) allNT).
Definition tame : item -> bool := tameT tameTab.
Lemma tame_rule : forall n, tame (IN n) = true -> tame (rule n) = true.
Proof. intros n. destruct n; vm_compute; intros H; try discriminate H; reflexivity. Qed.
Lemma vst_recover : forall stop a s, vst (recover stop a s) = vst a.
Proof.
  intros. unfold recover. rewrite (proj1 (skip_fields _ _ _)). destruct (_ =? _); [unfold yylex; destruct (rest _)|]; reflexivity.
Qed.
Lemma vst_lex : forall s, vst (yylex s) = vst s.
Proof. intros. unfold yylex. destruct (rest s); reflexivity. Qed.

Lemma run_vst : forall g f i s t s', run g f i s = Some (Ok t s') ->
  (endsNormal i = true -> vst s' = Normal) /\ (tame i = true -> vst s = Normal -> vst s' = Normal).
Proof.
  intros g. induction f as [|f IH]; intros i s t s' H; [discriminate|].
  assert (HT : forall i s t s', run g f i s = Some (Ok t s') -> tame i = true -> vst s = Normal -> vst s' = Normal)
    by (intros; eapply (proj2 (IH _ _ _ _ ltac:(eassumption))); assumption).
  destruct i; cbn [run] in H; cbn [endsNormal]; unfold tame; cbn [tameT]; fold tame.
  - split; [discriminate|]. destruct (teq _ _); [|discriminate]. injection H as <- <-. intros _ V. now rewrite vst_lex.
  - split; [discriminate|]. intros T V. destruct (enters _ _); [|discriminate].
    destruct (run g f (rule n) s) as [[t1 s1|s1]|] eqn:E; try discriminate. injection H as <- <-. exact (HT _ _ _ _ E (tame_rule n T) V).
  - split; [discriminate|]. injection H as <- <-. auto.
  - discriminate.
  - destruct (run g f i1 s) as [[t1 s1|s1]|] eqn:E; try discriminate.
    destruct (run g f i2 s1) as [[t2 s2|s2]|] eqn:E2; try discriminate. injection H as <- <-.
    split; [exact (proj1 (IH _ _ _ _ E2))|]. intros T V. apply orb_true_iff in T as [T|T]; [|exact (proj1 (IH _ _ _ _ E2) T)].
    apply andb_true_iff in T as [T1 T2]. exact (HT _ _ _ _ E2 T2 (HT _ _ _ _ E T1 V)).
  - split; [discriminate|]. intros T V. apply andb_true_iff in T as [T1 T2]. destruct (test i1 s); eapply HT; eassumption.
  - split; [discriminate|]. intros T V. eapply HT; eassumption.
  - split; [discriminate|]. intros T V. destruct (mem _ _); [|injection H as <- <-; exact V].
    destruct (run g f i s) as [[t1 s1|s1]|] eqn:E; try discriminate.
    destruct (run g f (IStar i) s1) as [[t2 s2|s2]|] eqn:E2; try discriminate. injection H as <- <-.
    exact (HT _ _ _ _ E2 T (HT _ _ _ _ E T V)).
  - split; [discriminate|]. intros T V. destruct (run g f i s) as [[t1 s1|s1]|] eqn:E; try discriminate.
    pose proof (HT _ _ _ _ E T V) as V1. destruct (teq _ _); [|injection H as <- <-; exact V1]. cbv zeta in H.
    destruct (match brk with Some b => _ | None => false end); [injection H as <- <-; now rewrite vst_lex|].
    destruct (run g f (IList i sep brk) (yylex s1)) as [[t2 s2|s2]|] eqn:E2; try discriminate. injection H as <- <-.
    apply (HT _ _ _ _ E2 T). now rewrite vst_lex.
  - split; [discriminate|]. intros T V. apply andb_true_iff in T as [T1 T2].
    destruct (run g f i1 (setBlocked s true)) as [[t1 s1|s1]|] eqn:E; try discriminate.
    + injection H as <- <-. exact (HT _ _ _ _ E T1 V).
    + exact (HT _ _ _ _ H T2 V).
  - split; [discriminate|]. intros T V.
    destruct (run g f (IN n) _) as [[t1 s1|s1]|] eqn:E; try discriminate; injection H as <- <-.
    + exact (HT _ _ _ _ E T V).
    + now rewrite vst_recover.
  - split.
    + destruct x; try discriminate. cbn [doAct] in H. injection H as <- <-. reflexivity.
    + intros T V. destruct x; try discriminate T; cbn [doAct] in H.
      * injection H as <- <-. exact V.
      * injection H as <- <-. reflexivity.
      * destruct (isVar s); [|discriminate]. injection H as <- <-. exact V.
      * injection H as <- <-. destruct (rest_report SevError 1 s) as (_ & _ & -> & _). exact V.
      * injection H as <- <-. exact V.
      * injection H as <- <-. exact V.
      * injection H as <- <-. destruct (rest_report SevError 2 s) as (_ & _ & Z & _). destruct (imp s), (cimp s); congruence.
      * injection H as <- <-. destruct (rest_report SevError 2 s) as (_ & _ & -> & _). exact V.
  - split; [discriminate|]. intros T V. destruct (run g f i s) as [[t1 s1|s1]|] eqn:E; try discriminate.
    pose proof (HT _ _ _ _ E T V) as V1. destruct (inStop _ _); [injection H as <- <-; exact V1|].
    destruct (run g f (ILoopAgain i stop) _) as [[t2 s2|s2]|] eqn:E2; try discriminate. injection H as <- <-.
    apply (HT _ _ _ _ E2 T). rewrite vst_lex. destruct (rest_report SevError 1 s1) as (_ & _ & -> & _). exact V1.
  - split; [discriminate|]. intros T V. destruct (run g f i s) as [[t1 s1|s1]|] eqn:E; try discriminate.
    pose proof (HT _ _ _ _ E T V) as V1. destruct (inStop _ _); [injection H as <- <-; exact V1|].
    destruct (run g f (ILoopAgain i stop) _) as [[t2 s2|s2]|] eqn:E2; try discriminate. injection H as <- <-.
    apply (HT _ _ _ _ E2 T). now rewrite vst_lex.
  - split; [discriminate|]. intros _ V. destruct (teq _ _); [|discriminate]. injection H as <- <-. exact V.
Qed.

Lemma Runs_seqv : forall g a b s t1 s1 t2 s2, Runs g a s (Ok t1 s1) -> Runs g b s1 (Ok t2 s2) ->
  Runs g (ISeq a b) s (Ok (t1 ++ t2) s2).
Proof. intros. exact (Runs_seq g _ _ _ _ _ _ H H0). Qed.

(** [function f() { bad }] read at a state in front of it. *)
Definition functionText (bad : list Tok) : list Tok :=
  [T_FUNCTION; T_STRING; T_LPAREN; T_RPAREN; T_LBRACE] ++ bad ++ [T_RBRACE].
Theorem function_read : forall g bad tail s, (forall n, resync g n T_RBRACE = true) -> flat bad ->
  rest s = functionText bad ++ tail -> vst s = Normal ->
  exists t s', Runs g (IN n_outerTopStatement) s (Ok [t] s') /\ rest s' = tail /\ vst s' = Normal
    /\ pos s' = pos s + List.length (functionText bad).
Proof.
  intros g bad tail s HR FL R V.
  set (s5 := yylex (yylex (yylex (yylex (yylex s))))).
  assert (R' : rest s = T_FUNCTION :: T_STRING :: T_LPAREN :: T_RPAREN :: T_LBRACE :: bad ++ T_RBRACE :: tail).
  { rewrite R. unfold functionText. cbn [app]. rewrite <- app_assoc. reflexivity. }
  assert (R5 : rest s5 = bad ++ T_RBRACE :: tail /\ vst s5 = Normal).
  { subst s5. unfold yylex. rewrite R'. cbn. auto. }
  destruct R5 as [R5 V5].
  destruct (run_ends g (IRecover n_innerStatementList) s5 eq_refl) as (fb & x & RB).
  specialize (RB fb (le_n _)). destruct (body g HR tail fb bad s5 x FL R5 RB) as (tb & s6 & -> & R6).
  assert (V6 : vst s6 = Normal) by exact (proj2 (run_vst _ _ _ _ _ _ RB) eq_refl V5).
  set (s7 := yylex s6).
  assert (PRE : exists td, Runs g (IN n_functionDeclarationStatement) s (Ok [td] s7)).
  { eexists. apply Runs_N_ok; [unfold enters; rewrite (yytoken_cons _ _ _ R'); reflexivity|].
    cbn [rule seqs].
    eapply Runs_seqv; [exists 1; cbn [run]; rewrite (yytoken_cons _ _ _ R'); reflexivity|].
    assert (Ra : rest (yylex s) = T_STRING :: T_LPAREN :: T_RPAREN :: T_LBRACE :: bad ++ T_RBRACE :: tail) by (unfold yylex; rewrite R'; reflexivity).
    assert (Rb : rest (yylex (yylex s)) = T_LPAREN :: T_RPAREN :: T_LBRACE :: bad ++ T_RBRACE :: tail) by (unfold yylex at 1; rewrite Ra; reflexivity).
    assert (Rc : rest (yylex (yylex (yylex s))) = T_RPAREN :: T_LBRACE :: bad ++ T_RBRACE :: tail) by (unfold yylex at 1; rewrite Rb; reflexivity).
    assert (Rd : rest (yylex (yylex (yylex (yylex s)))) = T_LBRACE :: bad ++ T_RBRACE :: tail) by (unfold yylex at 1; rewrite Rc; reflexivity).
    eapply Runs_seqv. { exists 5. cbn [run alts test]. unfold enters. rewrite (yytoken_cons _ _ _ Ra). reflexivity. }
    eapply Runs_seqv. { apply Runs_N_ok; [unfold enters; rewrite (yytoken_cons _ _ _ Ra); reflexivity|].
      exists 5. cbn [rule run alts test]. rewrite (yytoken_cons _ _ _ Ra). reflexivity. }
    eapply Runs_seqv; [exists 1; cbn [run]; rewrite (yytoken_cons _ _ _ Rb); reflexivity|].
    eapply Runs_seqv. { apply Runs_N_ok; [reflexivity|].
      exists 5. cbn [rule run alts test]. unfold enters. rewrite (yytoken_cons _ _ _ Rc). reflexivity. }
    eapply Runs_seqv; [exists 1; cbn [run]; rewrite (yytoken_cons _ _ _ Rc); reflexivity|].
    eapply Runs_seqv. { exists 5. cbn [run alts test]. unfold enters. rewrite (yytoken_cons _ _ _ Rd). reflexivity. }
    eapply Runs_seqv; [exists 1; cbn [run]; rewrite (yytoken_cons _ _ _ Rd); reflexivity|].
    eapply Runs_seqv; [exists fb; exact RB|].
    exists 1. cbn [run]. rewrite (yytoken_cons _ _ _ R6). reflexivity. }
  destruct PRE as [td PRE].
  assert (TOP : exists tt, Runs g (IN n_topStatement) s (Ok [tt] s7)).
  { eexists. apply Runs_N_ok; [unfold enters; rewrite (yytoken_cons _ _ _ R'); reflexivity|].
    assert (T1 : test (ICond CNotFunctionDeclaration (IN n_statement)) s = false).
    { cbn [test]. unfold holds, la. rewrite R'. reflexivity. }
    assert (T2 : test (IN n_functionDeclarationStatement) s = true).
    { cbn [test]. unfold enters. rewrite (yytoken_cons _ _ _ R'). reflexivity. }
    destruct PRE as [fp PRE]. exists (S (S fp)). cbn [rule run alts]. rewrite T1, T2. exact PRE. }
  destruct TOP as [tt TOP].
  eexists. exists s7. split.
  - apply Runs_N_ok; [unfold enters; rewrite (yytoken_cons _ _ _ R'); reflexivity|].
    assert (T1 : test (IN n_namespaceDeclarationStatement) s = false).
    { cbn [test]. unfold enters. rewrite (yytoken_cons _ _ _ R'). reflexivity. }
    assert (T2 : test (IN n_topStatement) s = true).
    { cbn [test]. unfold enters. rewrite (yytoken_cons _ _ _ R'). reflexivity. }
    destruct TOP as [ft TOP]. exists (S (S ft)). cbn [rule run alts]. rewrite T1, T2. exact TOP.
  - subst s7. assert (R7 : rest (yylex s6) = tail) by (unfold yylex; rewrite R6; reflexivity). split; [exact R7|]. split; [now rewrite vst_lex|].
    destruct PRE as [fp PRE]. pose proof (run_after _ _ _ _ _ PRE) as (l & A & B & _). cbn [stateOf] in A, B.
    rewrite R7, R in A. apply app_inv_tail in A. now rewrite B, A.
Qed.

(** The file theorem. *)
Lemma tag_read : forall g s r, rest s = T_OPEN_TAG :: r ->
  exists o, Runs g (IN n_outerTopStatement) s (Ok [o] (yylex s)).
Proof.
  intros g s r R.
  assert (Y : yytoken s = T_OPEN_TAG) by exact (yytoken_cons _ _ _ R).
  assert (ST : Runs g (IN n_statement) s (Ok [Node n_statement (pos s) [Leaf T_OPEN_TAG (pos s)] (pos (yylex s))] (yylex s))).
  { apply Runs_N_ok; [unfold enters; rewrite Y; reflexivity|].
    assert (EN : forall i, enters i s = nullable i || mem T_OPEN_TAG (first i)) by (intros i; unfold enters; now rewrite Y).
    assert (LA : la 1 s = T_OPEN_TAG) by exact Y.
    cbn [rule alts seqs].
    repeat first [ apply Runs_alt_r; [cbn [test holds]; rewrite ?EN, ?LA; vm_compute; reflexivity|]
                 | apply Runs_alt_l; [cbn [test holds]; rewrite ?EN, ?LA; vm_compute; reflexivity|] ].
    pose proof (Runs_T g T_OPEN_TAG s) as T. rewrite Y, teq_refl in T. exact T. }
  assert (TP : exists x, Runs g (IN n_topStatement) s (Ok [x] (yylex s))).
  { eexists. apply Runs_N_ok; [unfold enters; rewrite Y; reflexivity|]. cbn [rule alts].
    apply Runs_alt_l; [cbn [test]; unfold holds, la, enters; rewrite R, Y; reflexivity|]. apply Runs_cond. exact ST. }
  destruct TP as [x TP]. eexists. apply Runs_N_ok; [unfold enters; rewrite Y; reflexivity|]. cbn [rule alts].
  apply Runs_alt_r; [cbn [test]; unfold enters; rewrite Y; reflexivity|].
  apply Runs_alt_l; [cbn [test]; unfold enters; rewrite Y; reflexivity|]. exact TP.
Qed.

Theorem behind_broken : forall g bad tail f t ps, (forall n, resync g n T_RBRACE = true) -> flat bad ->
  parseFile g f (T_OPEN_TAG :: tail) = Some (Accepted t ps) ->
  exists f' o fn rest e ps',
    t = Node n_start 0 (o :: rest) e
    /\ parseFile g f' (T_OPEN_TAG :: functionText bad ++ tail)
       = Some (Accepted (Node n_start 0 (o :: fn :: map (shift (List.length (functionText bad))) rest)
                              (e + List.length (functionText bad))) ps').
Proof.
  intros g bad tail f t ps HR FL H. set (d := List.length (functionText bad)).
  unfold parseFile in H. destruct (run g f (rule n_start) (initial (T_OPEN_TAG :: tail))) as [[t1 s1|s1]|] eqn:E; try discriminate.
  destruct (rest s1) eqn:R1; [|discriminate]. injection H as <- <-.
  set (a := initial (T_OPEN_TAG :: tail)) in *. set (b := initial (T_OPEN_TAG :: functionText bad ++ tail)).
  destruct (tag_read g a tail eq_refl) as [o RO]. destruct (tag_read g b _ eq_refl) as [o' RO'].
  assert (M : mem T_OPEN_TAG (first (IN n_outerTopStatement)) = true) by (vm_compute; reflexivity).
  (* the tag is read alike *)
  assert (OO : o' = o).
  { destruct RO as [f1 RO], RO' as [f2 RO']. 
    assert (X : exists x, forall g' (r : list Tok), run g' 60 (IN n_outerTopStatement) (initial (T_OPEN_TAG :: r)) = Some (Ok [x] (yylex (initial (T_OPEN_TAG :: r))))).
    { eexists. intros. vm_compute. reflexivity. }
    destruct X as [x X].
    assert (A1 : Ok [o] (yylex a) = Ok [x] (yylex a)).
    { eapply (Runs_det g (IN n_outerTopStatement) a); [exists f1; exact RO|exists 60; apply X]. }
    assert (A2 : Ok [o'] (yylex b) = Ok [x] (yylex b)).
    { eapply (Runs_det g (IN n_outerTopStatement) b); [exists f2; exact RO'|exists 60; apply X]. }
    congruence. }
  subst o'.
  (* the old run behind the tag *)
  destruct f as [|f]; [discriminate E|]. cbn [rule run] in E.
  change (yytoken a) with T_OPEN_TAG in E. rewrite M in E.
  destruct (run g f (IN n_outerTopStatement) a) as [[to so|so]|] eqn:EO; [| |discriminate].
  2:{ injection E as E'. discriminate E'. }
  assert (EQ : Ok to so = Ok [o] (yylex a)) by (eapply Runs_det; [exists f; exact EO|exact RO]).
  injection EQ as -> ->.
  destruct (run g f (IStar (IN n_outerTopStatement)) (yylex a)) as [[tr sr|sr]|] eqn:ER; [| |discriminate].
  2:{ injection E as E'. discriminate E'. }
  injection E as <- <-.
  (* the function, then the rest *)
  destruct (function_read g bad tail (yylex b) HR FL eq_refl eq_refl) as (fn & s2 & RF & RR & RV & RP).
  assert (SM : sim d (yylex a) s2). { repeat split; [now rewrite RR|now rewrite RV|rewrite RP; reflexivity]. }
  pose proof (frame g d f (IStar (IN n_outerTopStatement)) (yylex a) s2 SM (or_intror eq_refl)) as FR.
  rewrite ER in FR. destruct (run g f (IStar (IN n_outerTopStatement)) s2) as [[tr' sr'|sr']|] eqn:ER'; cbn [simR] in FR; try contradiction.
  destruct FR as (-> & (SR & _ & SP) & _).
  assert (ALL : Runs g (rule n_start) b (Ok (o :: fn :: map (shift d) tr) sr')).
  { cbn [rule]. change (o :: fn :: map (shift d) tr) with ([o] ++ [fn] ++ map (shift d) tr).
    refine (Runs_star_go g _ b [o] (yylex b) (Ok ([fn] ++ map (shift d) tr) sr') M RO' _).
    refine (Runs_star_go g _ (yylex b) [fn] s2 (Ok (map (shift d) tr) sr') _ RF _); [vm_compute; reflexivity|]. exists f. exact ER'. }
  destruct ALL as [f' ALL]. exists f', o, fn, tr, (pos sr). eexists. split; [reflexivity|].
  unfold parseFile. fold b. rewrite ALL. rewrite <- SR, R1. rewrite SP. reflexivity.
Qed.

Lemma noBraces_flat : forall bad, noBraces bad -> flat bad.
Proof.
  intros bad H k K. specialize (H k K). split.
  - destruct (opener k) eqn:O; [|reflexivity]. exfalso. apply H. unfold opener in O. apply existsb_exists in O as (x & X & E).
    apply teq_eq in E. subst x. cbn in X |- *. tauto.
  - destruct (inStop k innerStop) eqn:O; [|reflexivity]. exfalso. apply H. unfold inStop in O. apply existsb_exists in O as (x & X & E).
    apply teq_eq in E. subst x. cbn in X |- *. tauto.
Qed.

(** [<?php function f() { echo "{$a;}"; }]: the brace in the string closes the function. *)
Definition badString : list Tok :=
  T_OPEN_TAG :: functionText [T_ECHO; T_DOUBLE_QUOTE; T_CURLY_OPEN; T_VARIABLE; T_SEMICOLON; T_RBRACE; T_DOUBLE_QUOTE; T_SEMICOLON].
Definition pinned (g : Gen) (b u : bool) : Gen :=
  {| resync := fun n k => if teq k T_RBRACE then true
                          else if teq k T_SEMICOLON then match n with n_topStatement => b | _ => resync g n T_SEMICOLON end
                          else resync g n k; unblocks := u |}.
Lemma pinned_run : forall g b u, exists ps, parseFile (pinned g b u) 300 badString = Some (Rejected ps).
Proof. intros g [|] [|]; eexists; vm_compute; reflexivity. Qed.
Theorem nested_lost : forall g, (forall n, resync g n T_RBRACE = true) -> exists ps, parseFile g 300 badString = Some (Rejected ps).
Proof.
  intros g HR. destruct (pinned_run g (resync g n_topStatement T_SEMICOLON) (unblocks g)) as [ps H]. exists ps. rewrite <- H.
  apply parseFile_ext; [reflexivity|]. intros n k. cbn. destruct (teq k T_RBRACE) eqn:E1; [apply teq_eq in E1; subst k; apply HR|].
  destruct (teq k T_SEMICOLON) eqn:E2; [|reflexivity]. apply teq_eq in E2. subst k. destruct n; reflexivity.
Qed.
