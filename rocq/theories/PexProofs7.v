(** Assignments to something that is not a variable; the effort of nested indices. *)
From Coq Require Import List Bool NArith ZArith Lia Arith.
From Verif Require Import Chars LexModel ParseModel ParseSpec ParseProofs ParseProofs2 ParseProofs4 PexSpec PexProofs PexProofs2 PexProofs3 PexProofs4 PexPath PexPath2 PexProofs5 PexEvery PexProofs6.
Import ListNotations.
Open Scope nat_scope.

(** ** reads only grows *)
Lemma reads_yylex : forall s, reads s <= reads (yylex s).
Proof. intros s. unfold yylex. destruct (rest s); cbn; lia. Qed.
Lemma reads_report : forall a b s, reads (report a b s) = reads s.
Proof. intros a b s. unfold report. destruct (_ <=? _); reflexivity. Qed.
Lemma reads_expected : forall s, reads (expected s) = reads s.
Proof. intros s. unfold expected. destruct (blocked s); [reflexivity|apply reads_report]. Qed.
Lemma reads_skipTo : forall stop l s, reads s <= reads (skipTo stop l s).
Proof.
  intros stop. induction l as [|k l IH]; intros s; cbn [skipTo]; [lia|]. destruct (stop k); [lia|]. specialize (IH (yylex s)). pose proof (reads_yylex s). lia.
Qed.
Lemma reads_recover : forall stop s0 s, reads s <= reads (recover stop s0 s).
Proof.
  intros stop s0 s. unfold recover. cbv zeta. set (s2 := if pos (restoreState s0 s) =? pos s0 then yylex (restoreState s0 s) else restoreState s0 s).
  assert (reads s <= reads s2).
  { subst s2. destruct (_ =? _); [|cbn; lia]. pose proof (reads_yylex (restoreState s0 s)) as X. cbn in *. lia. }
  pose proof (reads_skipTo stop (rest s2) s2). lia.
Qed.
Lemma reads_act : forall x s, reads (stateOf (doAct x s)) = reads s.
Proof.
  intros [b| | | | |i|i| |] s; cbn [doAct]; try reflexivity; try apply reads_report.
  - destruct (teq _ _); [cbn; apply reads_report|reflexivity].
  - destruct (isVar s); [reflexivity|apply reads_report].
  - cbn. destruct (imp s), (cimp s); try reflexivity; apply reads_report.
Qed.
Lemma run_reads : forall rs f i s r, run rs f i s = Some r -> reads s <= reads (stateOf r).
Proof.
  intros rs. induction f as [|f IH]; intros i s r H; [discriminate|]. destruct i; cbn [run] in H.
  - injection H as <-. destruct (teq _ _); cbn; [apply reads_yylex|rewrite reads_expected; lia].
  - destruct (enters _ _).
    + destruct (run rs f (rule n) s) as [[t1 s1|s1]|] eqn:E; try discriminate; injection H as <-; apply IH in E; cbn in *; rewrite ?reads_expected; exact E.
    + injection H as <-. cbn. rewrite reads_expected. lia.
  - injection H as <-. cbn. lia.
  - injection H as <-. cbn. lia.
  - destruct (run rs f i1 s) as [[t1 s1|s1]|] eqn:E; try discriminate.
    + apply IH in E. destruct (run rs f i2 s1) as [[t2 s2|s2]|] eqn:E2; try discriminate; injection H as <-; apply IH in E2; cbn in *; lia.
    + injection H as <-. apply IH in E. exact E.
  - destruct (test i1 s); eapply IH; exact H.
  - eapply IH; exact H.
  - destruct (mem _ _).
    + destruct (run rs f i s) as [[t1 s1|s1]|] eqn:E; try discriminate.
      * apply IH in E. destruct (run rs f (IStar i) s1) as [[t2 s2|s2]|] eqn:E2; try discriminate; injection H as <-; apply IH in E2; cbn in *; lia.
      * injection H as <-. apply IH in E. exact E.
    + injection H as <-. cbn. lia.
  - destruct (run rs f i s) as [[t1 s1|s1]|] eqn:E; try discriminate.
    + apply IH in E. cbn in E. pose proof (reads_yylex s1). destruct (teq _ _).
      * destruct (match brk with Some b => _ | None => _ end).
        -- injection H as <-. cbn. lia.
        -- destruct (run rs f (IList i sep brk) (yylex s1)) as [[t2 s2|s2]|] eqn:E2; try discriminate; injection H as <-; apply IH in E2; cbn in *; lia.
      * injection H as <-. cbn. lia.
    + injection H as <-. apply IH in E. exact E.
  - destruct (run rs f i1 (setBlocked s true)) as [[t1 s1|s1]|] eqn:E; try discriminate; apply IH in E; cbn in E.
    + injection H as <-. exact E.
    + apply IH in H. cbn in H. lia.
  - destruct (run rs f (IN n) _) as [[t1 s1|s1]|] eqn:E; try discriminate; apply IH in E; cbn in E; injection H as <-; cbn.
    + exact E.
    + pose proof (reads_recover (resync rs n) s (setBlocked s1 (blocked s))) as X. cbn in X. lia.
  - injection H as <-. rewrite reads_act. lia.
  - destruct (run rs f i s) as [[t1 s1|s1]|] eqn:E; try discriminate.
    + apply IH in E. cbn in E. destruct (inStop _ _); [injection H as <-; exact E|].
      pose proof (reads_yylex (report SevError 1 s1)) as X. rewrite reads_report in X.
      destruct (run rs f (ILoopAgain i stop) _) as [[t2 s2|s2]|] eqn:E2; try discriminate; injection H as <-; apply IH in E2; cbn in *; lia.
    + injection H as <-. apply IH in E. exact E.
  - destruct (run rs f i s) as [[t1 s1|s1]|] eqn:E; try discriminate.
    + apply IH in E. cbn in E. destruct (inStop _ _); [injection H as <-; exact E|].
      pose proof (reads_yylex s1) as X.
      destruct (run rs f (ILoopAgain i stop) _) as [[t2 s2|s2]|] eqn:E2; try discriminate; injection H as <-; apply IH in E2; cbn in *; lia.
    + injection H as <-. apply IH in E. exact E.
  - injection H as <-. destruct (teq _ _); cbn; [lia|rewrite reads_expected; lia].
Qed.
Lemma Runs_reads : forall rs i s r, Runs rs i s r -> reads s <= reads (stateOf r).
Proof. intros rs i s r [f H]. eapply run_reads, H. Qed.

(** ** The effort *)
Section Cost.
Variable rs : Gen.
Context {Fs : Functions} {FsR : FunctionsRead rs}.
Definition Costs (i : item) (w : list Tok) (c : nat) : Prop :=
  forall s res, rest s = w -> vst s = Normal -> Runs rs i s res -> reads s + c <= reads (stateOf res).

Ltac inv H := let f := fresh "f" in destruct H as [[|f] H]; [discriminate H|]; cbn [run] in H.

Lemma costs_N : forall n w c, enters (rule n) (at_ w) = true -> Costs (rule n) w c -> Costs (IN n) w c.
Proof.
  intros n w c E C s res R V H. inv H. replace (enters (rule n) s) with true in H
    by (rewrite <- E; unfold enters, yytoken, la, at_; rewrite R; reflexivity).
  destruct (run rs f (rule n) s) as [[t1 s1|s1]|] eqn:E1; try discriminate; injection H as <-;
    specialize (C s _ R V (ex_intro _ f E1)); cbn in *; rewrite ?reads_expected; exact C.
Qed.
Lemma costs_seq_l : forall a b w c, Costs a w c -> Costs (ISeq a b) w c.
Proof.
  intros a b w c C s res R V H. inv H. destruct (run rs f a s) as [[t1 s1|s1]|] eqn:E1; try discriminate.
  - specialize (C s _ R V (ex_intro _ f E1)). cbn in C.
    destruct (run rs f b s1) as [[t2 s2|s2]|] eqn:E2; try discriminate; injection H as <-; apply run_reads in E2; cbn in *; lia.
  - injection H as <-. exact (C s _ R V (ex_intro _ f E1)).
Qed.
Lemma costs_seq_r : forall a b w1 w2 vs c, Takes rs a w1 w2 vs -> Costs b w2 c -> Costs (ISeq a b) (w1 ++ w2) c.
Proof.
  intros a b w1 w2 vs c T C s res R V H. destruct (T s R V) as (ts & s1 & RU & _ & A1 & A2 & A3 & A4).
  pose proof (Runs_reads _ _ _ _ RU) as M. cbn in M.
  inv H. destruct (run rs f a s) as [r1|] eqn:E1; [|discriminate].
  assert (r1 = Ok ts s1) by (eapply Runs_det; [exists f; exact E1|exact RU]). subst r1.
  destruct (run rs f b s1) as [r2|] eqn:E2; [|discriminate]. specialize (C s1 r2 A1 A3 (ex_intro _ f E2)).
  destruct r2; injection H as <-; cbn in *; lia.
Qed.
Lemma costs_alt_l : forall a b w c, test a (at_ w) = true -> Costs a w c -> Costs (IAlt a b) w c.
Proof.
  intros a b w c E C s res R V H. inv H. rewrite test_at, R, E in H by exact V. exact (C s _ R V (ex_intro _ f H)).
Qed.
Lemma costs_alt_r : forall a b w c, test a (at_ w) = false -> Costs b w c -> Costs (IAlt a b) w c.
Proof.
  intros a b w c E C s res R V H. inv H. rewrite test_at, R, E in H by exact V. exact (C s _ R V (ex_intro _ f H)).
Qed.
Lemma costs_star : forall a w c, mem (hd T_EOF w) (first a) = true -> Costs a w c -> Costs (IStar a) w c.
Proof.
  intros a w c E C s res R V H. inv H. rewrite (yytoken_hd _ _ R), E in H.
  destruct (run rs f a s) as [[t1 s1|s1]|] eqn:E1; try discriminate.
  - specialize (C s _ R V (ex_intro _ f E1)). cbn in C.
    destruct (run rs f (IStar a) s1) as [[t2 s2|s2]|] eqn:E2; try discriminate; injection H as <-; apply run_reads in E2; cbn in *; lia.
  - injection H as <-. exact (C s _ R V (ex_intro _ f E1)).
Qed.
Lemma costs_list : forall a sep brk w c, Costs a w c -> Costs (IList a sep brk) w c.
Proof.
  intros a sep brk w c C s res R V H. inv H. destruct (run rs f a s) as [[t1 s1|s1]|] eqn:E1; try discriminate.
  - specialize (C s _ R V (ex_intro _ f E1)). cbn in C. pose proof (reads_yylex s1). destruct (teq _ _).
    + destruct (match brk with Some b => _ | None => _ end).
      * injection H as <-. cbn. lia.
      * destruct (run rs f (IList a sep brk) (yylex s1)) as [[t2 s2|s2]|] eqn:E2; try discriminate; injection H as <-; apply run_reads in E2; cbn in *; lia.
    + injection H as <-. exact C.
  - injection H as <-. exact (C s _ R V (ex_intro _ f E1)).
Qed.
Lemma costs_try : forall a b w c, Costs a w c -> Costs (IRollback a b) w c.
Proof.
  intros a b w c C s res R V H. inv H. destruct (run rs f a (setBlocked s true)) as [[t1 s1|s1]|] eqn:E1; try discriminate;
    specialize (C (setBlocked s true) _ R V (ex_intro _ f E1)); cbn in C.
  - injection H as <-. exact C.
  - apply run_reads in H. cbn in H. lia.
Qed.
Lemma costs_both : forall a b w c d, Refuses rs a w -> Costs a w c -> Costs b w d -> Costs (IRollback a b) w (c + d).
Proof.
  intros a b w c d F C D s res R V H. inv H. destruct (F (setBlocked s true) R V eq_refl) as (s1 & RU & _).
  destruct (run rs f a (setBlocked s true)) as [r1|] eqn:E1; [|discriminate].
  assert (r1 = Fail s1) by (eapply Runs_det; [exists f; exact E1|exact RU]). subst r1.
  specialize (C (setBlocked s true) _ R V (ex_intro _ f E1)). cbn in C.
  specialize (D (rewind s (restoreState s (setBlocked s1 (blocked s)))) _ R V (ex_intro _ f H)). cbn in D. lia.
Qed.
Lemma costs_cond : forall k a w c, Costs a w c -> Costs (ICond k a) w c.
Proof. intros k a w c C s res R V H. inv H. exact (C s _ R V (ex_intro _ f H)). Qed.
Lemma costs_one : forall n k r, enters (rule n) (at_ (k :: r)) = true -> rule n = IT k -> Costs (IN n) (k :: r) 1.
Proof.
  intros n k r E RN. apply costs_N; [exact E|]. rewrite RN. intros s res R V H. inv H.
  rewrite (yytoken_cons _ _ _ R), teq_refl in H. injection H as <-. cbn. unfold yylex. rewrite R. cbn. lia.
Qed.

(** From a rule of the ladder to the next. *)
Ltac cyes := apply costs_alt_l; [vm_compute; reflexivity|].
Ltac cno := apply costs_alt_r; [vm_compute; reflexivity|].
Lemma takes_act_isvar : forall b w, Takes rs (IAct (ASetIsVariable b)) [] w [].
Proof. intros b w s R V. exists [], (setIsVar s b). split; [exact (Runs_act rs (ASetIsVariable b) s)|]. split; [reflexivity|]. cbn. repeat split; assumption. Qed.
Lemma costs_down : forall r c, Costs (IN n_variable) (T_VARIABLE :: r) c -> Costs (IN n_expr) (T_VARIABLE :: r) c.
Proof.
  intros r c C. set (w := T_VARIABLE :: r) in *.
  Ltac go := apply costs_N; [vm_compute; reflexivity|]; cbn [rule seqs alts].
  go. go. apply costs_list. go. apply costs_list. go. apply costs_list. go.
  apply (costs_seq_r _ _ [] w [] c); [apply takes_alt_r; [vm_compute; reflexivity|]; apply takes_alt_l; [reflexivity|apply takes_eps]|].
  go. apply (costs_seq_r _ _ [] w [] c); [apply takes_act_isvar|]. apply costs_seq_l.
  go. apply costs_seq_l. go. apply costs_list. go. apply costs_list. go. apply costs_list. go. apply costs_list. go. apply costs_list. go. apply costs_list.
  go. apply costs_seq_l. go. apply costs_seq_l. go. apply costs_seq_l. go. apply costs_seq_l. go. apply costs_seq_l.
  go. repeat cno. cyes. go.
  apply (costs_seq_r _ _ [] w [] c); [apply takes_star_stop; vm_compute; reflexivity|]. apply costs_seq_l.
  go. repeat cno. cyes. go. repeat cno. cyes. apply costs_try. apply costs_seq_l. exact C.
Qed.

(** [$a[$a[..]]], n brackets deep *)
Fixpoint nested (n : nat) : ex := match n with O => EVar | S m => EIndex EVar (nested m) end.
Lemma nested_plain : forall n, plain (nested n) = true.
Proof. induction n as [|n IH]; [reflexivity|exact IH]. Qed.
Lemma nested_hd : forall n, exists w, text (nested n) = T_VARIABLE :: w.
Proof. intros [|n]; eexists; reflexivity. Qed.
Lemma nested_good : forall n, Good rs 0 (text (nested n)) (nested n) false.
Proof. intros n. apply (fine_0 rs), (every rs), nested_plain. Qed.

Lemma nested_costs : forall n r, stops 0 r -> Costs (IN n_expr) (text (nested n) ++ r) (2 ^ n).
Proof.
  induction n as [|n IH]; intros r ST.
  - cbn [nested text app]. apply costs_down. go. apply costs_seq_l. go.
    apply costs_try. cbn [seqs]. apply costs_seq_l. go. cno. cyes. cbn [seqs]. apply costs_seq_l. go. apply costs_seq_l. go. cno. cyes.
    apply costs_one; vm_compute; reflexivity.
  - cbn [nested text]. rewrite <- app_assoc. cbn [app]. rewrite <- app_assoc. cbn [app].
    set (inner := T_LBRACKET :: text (nested n) ++ T_RBRACKET :: r).
    assert (GI : goodPart rs (text (nested n), nested n)) by exact (nested_good n).
    assert (DT : inner = dimsText [(text (nested n), nested n)] ++ r) by (subst inner; unfold dimsText, dimText; cbn [flat_map map List.concat fst app]; rewrite ?app_nil_r; rewrite <- ?app_comm_cons, <- ?app_assoc; reflexivity).
    destruct (stops_ends r (stops_le 0 21 r ltac:(lia) ltac:(lia) ST)) as ((ND & NP & _) & _).
    assert (CI : Costs (IStar (IN n_dimListItem)) inner (2 ^ n)).
    { apply costs_star; [vm_compute; reflexivity|]. go. cyes. go.
      apply (costs_seq_r _ _ [T_LBRACKET] _ [VTok T_LBRACKET]); [apply takes_tok|].
      apply costs_seq_l. apply costs_alt_l; [|apply IH; vm_compute; reflexivity].
      eapply test_head; [exact (nested_good n)|discriminate|vm_compute; reflexivity]. }
    apply costs_down. go. apply costs_seq_l. go.
    replace (2 ^ S n) with (2 ^ n + 2 ^ n) by (cbn [Nat.pow]; lia).
    apply costs_both.
    + cbn [seqs]. apply refuses_seq_l. apply refuses_N; [vm_compute; reflexivity|]. cbn [rule alts].
      apply refuses_alt_r; [vm_compute; reflexivity|]. apply refuses_alt_l; [vm_compute; reflexivity|]. cbn [seqs].
      rewrite DT. change (T_VARIABLE :: dimsText [(text (nested n), nested n)] ++ r) with ((T_VARIABLE :: dimsText [(text (nested n), nested n)]) ++ r).
      eapply refuses_seq_r; [apply takes_woo; [constructor; [exact GI|constructor]|exact ND]|]. apply refuses_seq_l. now apply refuses_tok.
    + cbn [seqs]. apply costs_seq_l. go. cno. cyes. cbn [seqs]. apply costs_seq_l. go.
      apply (costs_seq_r _ _ [T_VARIABLE] inner [VEx EVar]); [apply takes_var|exact CI].
    + go. cyes. cbn [seqs]. apply (costs_seq_r _ _ [T_VARIABLE] inner [VEx EVar]); [apply takes_var|exact CI].
Qed.

Lemma nested_length : forall n, List.length (text (nested n)) = 3 * n + 1.
Proof. induction n as [|n IH]; [reflexivity|]. change (text (nested (S n))) with (T_VARIABLE :: T_LBRACKET :: text (nested n) ++ [T_RBRACKET]). cbn [List.length]. rewrite app_length, IH. cbn [List.length]. lia. Qed.
Theorem effort : forall n f r, run rs f (rule n_start) (initial (fileOf [nested n])) = Some r -> 2 ^ n <= reads (stateOf r).
Proof.
  intros n f r H. assert (W : fileOf [nested n] = [T_OPEN_TAG] ++ (text (nested n) ++ [T_SEMICOLON])) by (unfold fileOf; cbn [flat_map map List.concat app]; rewrite ?app_nil_r; reflexivity).
  assert (C : Costs (IStar (IN n_outerTopStatement)) (text (nested n) ++ [T_SEMICOLON]) (2 ^ n)).
  { pose proof (nested_costs n [T_SEMICOLON] ltac:(vm_compute; reflexivity)) as C0. destruct (nested_hd n) as [w E]. rewrite E in *. cbn [app] in *.
    apply costs_star; [vm_compute; reflexivity|]. go. cno. cyes. go. cyes. apply costs_cond. go.
    repeat cno. cyes. apply costs_cond. cbn [seqs]. apply costs_seq_l. exact C0. }
  cbn [rule] in H. destruct f as [|f]; [discriminate|]. cbn [run] in H.
  replace (mem (yytoken (initial (fileOf [nested n]))) (first (IN n_outerTopStatement))) with true in H by (vm_compute; reflexivity).
  destruct (tag_shape rs (initial (fileOf [nested n])) (text (nested n) ++ [T_SEMICOLON]) W) as (t & RU & _).
  destruct (run rs f (IN n_outerTopStatement) _) as [r1|] eqn:E1; [|discriminate].
  assert (r1 = Ok [t] (yylex (initial (fileOf [nested n])))) by (eapply Runs_det; [exists f; exact E1|exact RU]). subst r1.
  destruct (run rs f (IStar (IN n_outerTopStatement)) _) as [r2|] eqn:E2; [|discriminate].
  specialize (C (yylex (initial (fileOf [nested n]))) r2 ltac:(change (rest (yylex (initial (fileOf [nested n])))) with (tl (fileOf [nested n])); rewrite W; reflexivity) eq_refl (ex_intro _ f E2)). cbn [reads yylex initial fileOf rest] in C.
  destruct r2; injection H as <-; cbn in *; lia.
Qed.
End Cost.
