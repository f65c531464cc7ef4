(** A file that is accepted without an error is a word of the grammar. *)
From Coq Require Import List Bool NArith ZArith Lia Arith.
From Verif Require Import Chars LexModel ParseModel ParseSpec ParseProofs ParseProofs2 ParseProofs3.
Import ListNotations.
Open Scope nat_scope.

Definition errs (s : PS) : nat := List.length (filter isError (problems s)).

(** Problems are only added, and only at tokens of the file. *)
Definition grows (s s' : PS) : Prop :=
  exists l, problems s' = problems s ++ l /\ Forall (fun p => pr_index p < size s) l.
Lemma grows_refl : forall s, grows s s.
Proof. intros s. exists []. rewrite app_nil_r. auto. Qed.
Lemma grows_same : forall s s', problems s' = problems s -> grows s s'.
Proof. intros s s' E. exists []. rewrite app_nil_r. auto. Qed.
Lemma grows_trans : forall a b c, size b = size a -> grows a b -> grows b c -> grows a c.
Proof.
  intros a b c S (l & A & B) (m & C & D). exists (l ++ m). rewrite app_assoc, <- A. split; [exact C|].
  apply Forall_app. split; [exact B|]. now rewrite S in D.
Qed.
Lemma grows_errs : forall s s', grows s s' -> errs s <= errs s'.
Proof. intros s s' (l & A & _). unfold errs. rewrite A, filter_app, app_length. lia. Qed.
Lemma grows_report : forall sev b s, grows s (report sev b s).
Proof.
  intros. unfold report. destruct (size s <=? pos s + 1 - b) eqn:E; [apply grows_refl|].
  apply Nat.leb_gt in E. eexists. split; [reflexivity|]. constructor; [exact E|constructor].
Qed.
Lemma grows_expected : forall s, grows s (expected s).
Proof. intros. unfold expected. destruct (blocked s); [apply grows_refl|apply grows_report]. Qed.
Lemma problems_yylex : forall s, problems (yylex s) = problems s.
Proof. intros. unfold yylex. now destruct (rest s). Qed.
Lemma problems_skipTo : forall stop l s, problems (skipTo stop l s) = problems s.
Proof.
  intros stop l. induction l as [|k r IH]; intros s; [reflexivity|]. cbn. destruct (stop k); [reflexivity|].
  rewrite IH. apply problems_yylex.
Qed.
Lemma problems_recover : forall stop s0 s, problems (recover stop s0 s) = problems s.
Proof.
  intros. unfold recover. rewrite problems_skipTo. destruct (_ =? _); [rewrite problems_yylex|]; reflexivity.
Qed.
Lemma grows_act : forall x s, grows s (stateOf (doAct x s)).
Proof.
  intros x s. destruct x; cbn [doAct stateOf]; try (apply grows_same; reflexivity); try apply grows_report.
  - destruct (teq _ _); [|apply grows_same; reflexivity]. destruct (grows_report SevWarning 2 s) as (l & A & B).
    exists l. split; [exact A|exact B].
  - destruct (isVar s); [apply grows_refl|apply grows_report].
  - destruct (imp s), (cimp s); try apply grows_refl; apply grows_report.
Qed.
Lemma after_size : forall s s', after s s' -> size s' = size s.
Proof. intros s s' (l & _ & _ & C & _). exact C. Qed.
Lemma after_blocked : forall s s', after s s' -> blocked s' = blocked s.
Proof. intros s s' (l & _ & _ & _ & C). exact C. Qed.

Lemma run_grows : forall rs f i s r, run rs f i s = Some r -> grows s (stateOf r).
Proof.
  intros rs. induction f as [|f IH]; intros i s r H; [discriminate|].
  assert (TR : forall i1 s1 r1 r2 i2, run rs f i1 s = Some r1 -> s1 = stateOf r1 -> run rs f i2 s1 = Some r2 -> grows s (stateOf r2)).
  { intros i1 s1 r1 r2 i2 E -> E2. eapply grows_trans; [|exact (IH _ _ _ E)|exact (IH _ _ _ E2)].
    apply after_size. exact (run_after _ _ _ _ _ E). }
  destruct i; cbn [run] in H.
  - injection H as <-. destruct (teq _ _); [apply grows_same, problems_yylex|apply grows_expected].
  - destruct (enters (rule n) s); [|injection H as <-; apply grows_expected].
    destruct (run rs f (rule n) s) as [[t s'|s']|] eqn:E; [| |discriminate]; injection H as <-.
    + exact (IH _ _ _ E).
    + eapply grows_trans; [|exact (IH _ _ _ E)|apply grows_expected]. apply after_size. exact (run_after _ _ _ _ _ E).
  - injection H as <-. apply grows_refl.
  - injection H as <-. apply grows_refl.
  - destruct (run rs f i1 s) as [[t1 s1|s1]|] eqn:E; [| |discriminate].
    + destruct (run rs f i2 s1) as [[t2 s2|s2]|] eqn:E2; [| |discriminate]; injection H as <-;
        exact (TR _ _ _ _ _ E eq_refl E2).
    + injection H as <-. exact (IH _ _ _ E).
  - destruct (test i1 s); exact (IH _ _ _ H).
  - exact (IH _ _ _ H).
  - destruct (mem _ _); [|injection H as <-; apply grows_refl].
    destruct (run rs f i s) as [[t1 s1|s1]|] eqn:E; [| |discriminate].
    + destruct (run rs f (IStar i) s1) as [[t2 s2|s2]|] eqn:E2; [| |discriminate]; injection H as <-;
        exact (TR _ _ _ _ _ E eq_refl E2).
    + injection H as <-. exact (IH _ _ _ E).
  - destruct (run rs f i s) as [[t1 s1|s1]|] eqn:E; [| |discriminate].
    + pose proof (IH _ _ _ E) as G1. pose proof (after_size _ _ (run_after _ _ _ _ _ E)) as Z1. cbn [stateOf] in G1, Z1.
      assert (G2 : grows s (yylex s1)).
      { destruct G1 as (l & A & B). exists l. rewrite problems_yylex. auto. }
      destruct (teq _ _); [|injection H as <-; exact G1]. cbv zeta in H.
      destruct (match brk with Some b => _ | None => false end); [injection H as <-; exact G2|].
      destruct (run rs f (IList i sep brk) (yylex s1)) as [[t2 s2|s2]|] eqn:E2; [| |discriminate]; injection H as <-;
        (eapply grows_trans; [|exact G2|exact (IH _ _ _ E2)]; rewrite (after_size _ _ (after_yylex s1)); exact Z1).
    + injection H as <-. exact (IH _ _ _ E).
  - destruct (run rs f i1 (setBlocked s true)) as [[t1 s1|s1]|] eqn:E; [| |discriminate].
    + injection H as <-. exact (IH _ _ _ E).
    + eapply (grows_trans s (rewind s (restoreState s (setBlocked s1 (blocked s))))); [|exact (IH _ _ _ E)|exact (IH _ _ _ H)].
      exact (after_size _ _ (run_after _ _ _ _ _ E)).
  - destruct (run rs f (IN n) (setBlocked s (blocked s && negb (unblocks rs)))) as [[t1 s1|s1]|] eqn:E; [| |discriminate]; injection H as <-.
    + exact (IH _ _ _ E).
    + destruct (IH _ _ _ E) as (l & A & B). exists l. cbn [stateOf]. rewrite problems_recover. auto.
  - injection H as <-. apply grows_act.
  - destruct (run rs f i s) as [[t1 s1|s1]|] eqn:E; [| |discriminate].
    + pose proof (IH _ _ _ E) as G1. pose proof (after_size _ _ (run_after _ _ _ _ _ E)) as Z1. cbn [stateOf] in G1, Z1.
      destruct (inStop _ _); [injection H as <-; exact G1|].
      assert (G2 : grows s (yylex (report SevError 1 s1))).
      { destruct (grows_trans _ _ _ Z1 G1 (grows_report SevError 1 s1)) as (l & A & B). exists l. rewrite problems_yylex. auto. }
      assert (Z2 : size (yylex (report SevError 1 s1)) = size s).
      { rewrite (after_size _ _ (after_yylex _)), (after_size _ _ (after_report SevError 1 s1)). exact Z1. }
      destruct (run rs f (ILoopAgain i stop) _) as [[t2 s2|s2]|] eqn:E2; [| |discriminate]; injection H as <-;
        (eapply grows_trans; [exact Z2|exact G2|exact (IH _ _ _ E2)]).
    + injection H as <-. exact (IH _ _ _ E).
  - destruct (run rs f i s) as [[t1 s1|s1]|] eqn:E; [| |discriminate].
    + pose proof (IH _ _ _ E) as G1. pose proof (after_size _ _ (run_after _ _ _ _ _ E)) as Z1. cbn [stateOf] in G1, Z1.
      destruct (inStop _ _); [injection H as <-; exact G1|].
      assert (G2 : grows s (yylex s1)).
      { destruct G1 as (l & A & B). exists l. rewrite problems_yylex. auto. }
      destruct (run rs f (ILoopAgain i stop) _) as [[t2 s2|s2]|] eqn:E2; [| |discriminate]; injection H as <-;
        (eapply grows_trans; [|exact G2|exact (IH _ _ _ E2)]; rewrite (after_size _ _ (after_yylex s1)); exact Z1).
    + injection H as <-. exact (IH _ _ _ E).
  - injection H as <-. destruct (teq _ _); [apply grows_refl|apply grows_expected].
Qed.

Lemma inFile_lt : forall ts s, inFile ts s -> pos s < size s.
Proof. intros ts s F. pose proof (inFile_pos _ _ F). destruct F as (pre & A & B & C). lia. Qed.
Lemma report_errs : forall s, pos s < size s -> errs (report SevError 1 s) = S (errs s).
Proof.
  intros s L. unfold report, errs. replace (pos s + 1 - 1) with (pos s) by lia.
  destruct (size s <=? pos s) eqn:E; [apply Nat.leb_le in E; lia|]. cbn [problems].
  rewrite filter_app, app_length. cbn. lia.
Qed.
Lemma nt_fail_errs : forall rs ts f n s s', run rs f (IN n) s = Some (Fail s') -> inFile ts s ->
  blocked s = false -> errs s < errs s'.
Proof.
  intros rs ts f n s s' H F B. destruct f as [|f]; [discriminate|]. cbn [run] in H.
  destruct (enters (rule n) s).
  - destruct (run rs f (rule n) s) as [[t1 s1|s1]|] eqn:E; try discriminate. injection H as <-.
    pose proof (run_after _ _ _ _ _ E) as A. pose proof (grows_errs _ _ (run_grows _ _ _ _ _ E)) as G. cbn [stateOf] in A, G.
    unfold expected. rewrite (after_blocked _ _ A), B. rewrite report_errs; [lia|].
    exact (inFile_lt _ _ (inFile_after _ _ _ F A)).
  - injection H as <-. unfold expected. rewrite B, report_errs; [lia|]. exact (inFile_lt _ _ F).
Qed.

(** While errors are blocked no try/recover is tried, unless through a closure. *)
Fixpoint chkT (t : list bool) (i : item) : bool :=
  match i with
  | IN n => nth (ntId n) t false
  | IRecover _ => false
  | ISeq a b | IAlt a b | IRollback a b => chkT t a && chkT t b
  | ICond _ a | IStar a | IList a _ _ | ILoop a _ | ILoopAgain a _ => chkT t a
  | _ => true
  end.
Definition chkTab : list bool :=
  Eval vm_compute in
  Nat.iter 60 (fun t => map (fun n => match n with n_closure => true | _ => chkT t (rule n) end) allNT) (map (fun _ => true) allNT).
Definition chk : item -> bool := chkT chkTab.
Lemma chk_rule : forall n, chk (IN n) = true -> n = n_closure \/ chk (rule n) = true.
Proof. intros n. destruct n; vm_compute; intros H; try discriminate H; auto. Qed.
Fixpoint wfR (i : item) : bool :=
  match i with
  | IRollback a b => chk a && wfR a && wfR b
  | ISeq a b | IAlt a b => wfR a && wfR b
  | ICond _ a | IStar a | IList a _ _ | ILoop a _ => wfR a
  | ILoopAgain _ _ => false
  | _ => true
  end.
Lemma wfR_rule : forall n, wfR (rule n) = true.
Proof. destruct n; vm_compute; reflexivity. Qed.

Lemma rest_cur : forall s k, teq (yytoken s) k = true -> k <> T_EOF -> rest s = k :: rest (yylex s).
Proof.
  intros s k T N. apply teq_eq in T. unfold yylex. destruct (rest s) as [|x r] eqn:R.
  - rewrite (yytoken_nil _ R) in T. congruence.
  - rewrite (yytoken_cons _ _ _ R) in T. subst x. reflexivity.
Qed.

Lemma closure_needs : forall rs f s t s', run rs f (rule n_closure) s = Some (Ok t s') ->
  exists r, rest s = T_FUNCTION :: T_LPAREN :: r \/ rest s = T_FUNCTION :: T_BIT_AND :: T_LPAREN :: r.
Proof.
  intros rs f s t s' H. cbn [rule seqs alts] in H.
  destruct f as [|f]; [discriminate|]. cbn [run] in H.
  destruct f as [|f]; [discriminate|]. rewrite (eq_refl : run rs (S f) (IT T_FUNCTION) s = Some (if teq (yytoken s) T_FUNCTION then Ok [Leaf T_FUNCTION (pos s)] (yylex s) else Fail (expected s))) in H.
  destruct (teq (yytoken s) T_FUNCTION) eqn:T1; [|discriminate].
  apply rest_cur in T1; [|discriminate]. set (s1 := yylex s) in *.
  match type of H with match ?x with _ => _ end = _ => destruct x as [[t2 s2|s2]|] eqn:E; try discriminate end. clear H.
  cbn [run] in E. destruct f as [|f]; [discriminate|].
  match type of E with match ?x with _ => _ end = _ => destruct x as [[t3 s3|s3]|] eqn:E1; try discriminate end.
  match type of E with match ?x with _ => _ end = _ => destruct x as [[t4 s4|s4]|] eqn:E2; try discriminate end.
  assert (Z : rest s3 = T_LPAREN :: rest (yylex s3)).
  { cbn [run] in E2. match type of E2 with match ?x with _ => _ end = _ => destruct x as [[t5 s5|s5]|] eqn:E3; try discriminate end.
    destruct f as [|f]; [discriminate|]. cbn [run] in E3.
    destruct (teq (yytoken s3) T_LPAREN) eqn:T3; [|discriminate]. apply rest_cur; [exact T3|discriminate]. }
  cbn [run] in E1. destruct (test (IT T_BIT_AND) s1).
  - destruct f as [|f]; [discriminate|]. cbn [run] in E1.
    destruct (teq (yytoken s1) T_BIT_AND) eqn:T2; [|discriminate]. injection E1 as _ <-.
    apply rest_cur in T2; [|discriminate]. eexists. right. rewrite T1, T2, Z. reflexivity.
  - destruct f as [|f]; [discriminate|]. cbn [run] in E1. destruct (test IEps s1); [|].
    + destruct f as [|f]; [discriminate|]. cbn [run] in E1. injection E1 as _ <-. eexists. left. rewrite T1, Z. reflexivity.
    + destruct f as [|f]; [discriminate|]. cbn [run] in E1. discriminate.
Qed.
