(** The generated parser always comes to an end. *)
From Coq Require Import List Bool NArith ZArith Lia Arith.
From Verif Require Import Chars LexModel ParseModel ParseProofs.
Import ListNotations.
Open Scope nat_scope.

(** Items that can succeed without taking a token. *)
Fixpoint canEmptyT (t : list bool) (i : item) : bool :=
  match i with
  | IT k => teq k T_EOF
  | IFail => false
  | IN n => nth (ntId n) t true
  | IEps | IStar _ | IAct _ | ILoop _ _ | ILoopAgain _ _ | IPeek _ | IRecover _ => true
  | ISeq a b => canEmptyT t a && canEmptyT t b
  | IAlt a b | IRollback a b => canEmptyT t a || canEmptyT t b
  | ICond _ a => canEmptyT t a
  | IList a _ _ => canEmptyT t a
  end.
Definition emptyTab : list bool :=
  Eval vm_compute in Nat.iter 60 (fun t => map (fun n => canEmptyT t (rule n)) allNT) (map (fun _ => false) allNT).
Definition canEmpty : item -> bool := canEmptyT emptyTab.

Lemma canEmpty_rule : forall n, canEmpty (IN n) = canEmpty (rule n).
Proof. destruct n; vm_compute; reflexivity. Qed.

Lemma yylex_less : forall s, rest s <> [] -> List.length (rest (yylex s)) < List.length (rest s).
Proof. intros s H. unfold yylex. destruct (rest s) as [|k r] eqn:E; [congruence|]. cbn. lia. Qed.

Lemma run_less : forall rs f i s t s', run rs f i s = Some (Ok t s') -> canEmpty i = false ->
  List.length (rest s') < List.length (rest s).
Proof.
  intros rs. induction f as [|f IH]; intros i s t s' H C; [discriminate|].
  destruct i; try (discriminate C); cbn [run] in H.
  - destruct (teq (yytoken s) k) eqn:T; [|discriminate]. injection H as _ <-.
    apply yylex_less. intros R. rewrite (yytoken_nil _ R) in T. cbn in C. apply teq_eq in T. subst k. discriminate.
  - rewrite canEmpty_rule in C. destruct (enters (rule n) s); [|discriminate].
    destruct (run rs f (rule n) s) as [[t1 s1|s1]|] eqn:E; try discriminate. injection H as _ <-. eauto.
  - discriminate.
  - destruct (run rs f i1 s) as [[t1 s1|s1]|] eqn:E; try discriminate.
    destruct (run rs f i2 s1) as [[t2 s2|s2]|] eqn:E2; try discriminate. injection H as _ <-.
    pose proof (after_length _ _ (run_after _ _ _ _ _ E)) as L1.
    pose proof (after_length _ _ (run_after _ _ _ _ _ E2)) as L2. cbn in L1, L2.
    apply andb_false_iff in C as [C|C].
    + pose proof (IH _ _ _ _ E C). lia.
    + pose proof (IH _ _ _ _ E2 C). lia.
  - apply orb_false_iff in C as [C1 C2]. destruct (test i1 s); eauto.
  - eauto.
  - destruct (run rs f i s) as [[t1 s1|s1]|] eqn:E; try discriminate. pose proof (IH _ _ _ _ E C) as L.
    destruct (teq _ _); [|injection H as _ <-; exact L]. cbv zeta in H.
    pose proof (after_length _ _ (after_yylex s1)) as L2.
    destruct (match brk with Some b => _ | None => false end).
    + injection H as _ <-. lia.
    + destruct (run rs f (IList i sep brk) (yylex s1)) as [[t2 s2|s2]|] eqn:E2; try discriminate. injection H as _ <-.
      pose proof (after_length _ _ (run_after _ _ _ _ _ E2)) as L3. cbn in L3. lia.
  - apply orb_false_iff in C as [C1 C2].
    destruct (run rs f i1 (setBlocked s true)) as [[t1 s1|s1]|] eqn:E; try discriminate.
    + injection H as _ <-. exact (IH _ _ _ _ E C1).
    + exact (IH _ _ _ _ H C2).
Qed.

(** Loops take at least one token in every round. *)
Definition progress (a : item) : bool :=
  negb (mem T_EOF (first a)) && (negb (canEmpty a) || match a with IRecover n => negb (canEmpty (IN n)) | _ => false end).
Fixpoint wf (i : item) : bool :=
  match i with
  | ISeq a b | IAlt a b | IRollback a b => wf a && wf b
  | ICond _ a => wf a
  | IStar a => wf a && progress a
  | IList a sep _ => wf a && negb (teq sep T_EOF)
  | ILoop a stop | ILoopAgain a stop => wf a && inStop T_EOF stop
  | _ => true
  end.
Lemma wf_rule : forall n, wf (rule n) = true.
Proof. destruct n; vm_compute; reflexivity. Qed.

(** The rules that a rule can call before it takes a token have a smaller rank: no left recursion. *)
Definition rankOf (t : list nat) (n : NT) : nat := nth (ntId n) t 0.
Fixpoint leftT (t : list nat) (i : item) : nat :=
  match i with
  | IN n | IRecover n => S (rankOf t n)
  | ISeq a b => if canEmpty a then Nat.max (leftT t a) (leftT t b) else leftT t a
  | IAlt a b | IRollback a b => Nat.max (leftT t a) (leftT t b)
  | ICond _ a | IStar a | IList a _ _ | ILoop a _ | ILoopAgain a _ => leftT t a
  | IT _ | IEps | IFail | IAct _ | IPeek _ => 0
  end.
Definition rankTab : list nat :=
  Eval vm_compute in Nat.iter 60 (fun t => map (fun n => leftT t (rule n)) allNT) (map (fun _ => 0) allNT).
Definition rank : NT -> nat := rankOf rankTab.
Definition left : item -> nat := leftT rankTab.
Lemma left_rule : forall n, left (rule n) <= rank n.
Proof. destruct n; vm_compute; repeat constructor. Qed.
Definition top : nat := 100.
Lemma rank_top : forall n, rank n < top.
Proof. intros n. apply Nat.ltb_lt. destruct n; vm_compute; reflexivity. Qed.
Lemma left_top : forall i, left i <= top.
Proof.
  induction i; unfold left in *; cbn [leftT]; try exact IHi; try exact (rank_top n);
    try (destruct (canEmpty i1)); try lia; unfold top; lia.
Qed.

Definition Ends (rs : Gen) (i : item) (s : PS) : Prop := exists r, Runs rs i s r.

Lemma Runs_after : forall rs i s r, Runs rs i s r -> List.length (rest (stateOf r)) <= List.length (rest s).
Proof. intros rs i s r [f H]. apply after_length. eapply run_after; eassumption. Qed.
Lemma Runs_less : forall rs i s t s', Runs rs i s (Ok t s') -> canEmpty i = false ->
  List.length (rest s') < List.length (rest s).
Proof. intros rs i s t s' [f H]. eapply run_less; eassumption. Qed.

Lemma skipTo_length : forall stop l s, List.length (rest (skipTo stop l s)) <= List.length (rest s).
Proof. intros. apply after_length, after_skipTo. Qed.

Lemma progress_less : forall rs a s t s', progress a = true -> mem (yytoken s) (first a) = true ->
  Runs rs a s (Ok t s') -> List.length (rest s') < List.length (rest s).
Proof.
  intros rs a s t s' P M R. apply andb_true_iff in P as [PE P]. apply orb_true_iff in P as [P|P].
  - eapply Runs_less; [exact R|]. now destruct (canEmpty a).
  - destruct a; try discriminate P. apply negb_true_iff in P.
    assert (NE : rest s <> []). { intros Z. rewrite (yytoken_nil _ Z) in M. rewrite M in PE. discriminate. }
    destruct R as [f R]. destruct f as [|f]; [discriminate|]. cbn [run] in R.
    destruct (run rs f (IN n) (setBlocked s (blocked s && negb (unblocks rs)))) as [[t1 s1|s1]|] eqn:E; try discriminate; injection R as _ <-.
    + cbn [rest setBlocked]. change (rest s) with (rest (setBlocked s (blocked s && negb (unblocks rs)))). eapply run_less; eassumption.
    + destruct (run_after _ _ _ _ _ E) as (l & A & B & _). cbn [stateOf rest pos setBlocked] in A, B.
      unfold recover. eapply Nat.le_lt_trans; [apply skipTo_length|]. cbn [restoreState setIsVar setVst pos rest setBlocked].
      destruct (pos s1 =? pos s) eqn:Q.
      * apply Nat.eqb_eq in Q. assert (List.length l = 0) by lia. destruct l; [|discriminate].
        cbn in A. eapply Nat.lt_le_trans; [apply yylex_less; cbn; congruence|]. cbn. rewrite A. lia.
      * apply Nat.eqb_neq in Q. cbn. rewrite A, app_length. lia.
Qed.

Theorem ends : forall rs m r i s, wf i = true -> left i <= r -> List.length (rest s) <= m -> Ends rs i s.
Proof.
  intros rs m. induction m as [m IHm] using lt_wf_ind.
  assert (LESS : forall i s, wf i = true -> List.length (rest s) < m -> Ends rs i s).
  { intros i s W L. apply (IHm (List.length (rest s)) L top i s W (left_top i)). lia. }
  intros r. induction r as [r IHr] using lt_wf_ind.
  induction i; intros s W LE LM; cbn [wf] in W; unfold left in LE; cbn [leftT] in LE; fold left in *.
  - eexists. apply Runs_T.
  - destruct (enters (rule n) s) eqn:E; [|eexists; now apply Runs_N_no].
    destruct (IHr (rank n) ltac:(unfold rank; lia) (rule n) s (wf_rule n) (left_rule n) LM) as [[t s'|s'] R].
    + eexists. eapply Runs_N_ok; eassumption.
    + eexists. eapply Runs_N_fail; eassumption.
  - eexists. apply Runs_eps.
  - eexists. apply Runs_fail.
  - apply andb_true_iff in W as [W1 W2].
    assert (LE1 : left i1 <= r) by (destruct (canEmpty i1); unfold left in *; lia).
    destruct (IHi1 s W1 LE1 LM) as [[t1 s1|s1] R]; [|eexists; eapply Runs_seq_fail; eassumption].
    assert (E2 : Ends rs i2 s1).
    { destruct (canEmpty i1) eqn:C.
      - apply IHi2; [exact W2|unfold left in *; lia|]. pose proof (Runs_after _ _ _ _ R). cbn in *. lia.
      - apply LESS; [exact W2|]. pose proof (Runs_less _ _ _ _ _ R C). lia. }
    destruct E2 as [r2 R2]. eexists. eapply Runs_seq; eassumption.
  - apply andb_true_iff in W as [W1 W2]. destruct (test i1 s) eqn:T.
    + destruct (IHi1 s W1 ltac:(unfold left in *; lia) LM) as [x R]. eexists. eapply Runs_alt_l; eassumption.
    + destruct (IHi2 s W2 ltac:(unfold left in *; lia) LM) as [x R]. eexists. eapply Runs_alt_r; eassumption.
  - destruct (IHi s W LE LM) as [x R]. eexists. eapply Runs_cond; eassumption.
  - apply andb_true_iff in W as [W P].
    destruct (mem (yytoken s) (first i)) eqn:M; [|eexists; now apply Runs_star_stop].
    destruct (IHi s W LE LM) as [[t1 s1|s1] R]; [|eexists; eapply Runs_star_fail; eassumption].
    pose proof (progress_less _ _ _ _ _ P M R) as L.
    destruct (LESS (IStar i) s1) as [r2 R2]; [cbn; now rewrite W, P|lia|].
    eexists. eapply Runs_star_go; eassumption.
  - apply andb_true_iff in W as [W NE].
    destruct (IHi s W LE LM) as [[t1 s1|s1] R]; [|eexists; eapply Runs_list_fail; eassumption].
    destruct (teq (yytoken s1) sep) eqn:T; [|eexists; eapply Runs_list_stop; eassumption].
    destruct (breaks brk (yylex s1)) eqn:B; [eexists; eapply Runs_list_break; eassumption|].
    assert (NR : rest s1 <> []).
    { intros Z. rewrite (yytoken_nil _ Z) in T. apply teq_eq in T. subst sep. discriminate. }
    pose proof (yylex_less _ NR). pose proof (Runs_after _ _ _ _ R). cbn in H0.
    destruct (LESS (IList i sep brk) (yylex s1)) as [r2 R2]; [cbn; now rewrite W, NE|lia|].
    eexists. eapply Runs_list_go; eassumption.
  - apply andb_true_iff in W as [W1 W2].
    destruct (IHi1 (setBlocked s true) W1 ltac:(unfold left in *; lia) LM) as [[t1 s1|s1] R].
    + eexists. eapply Runs_rollback_ok; eassumption.
    + destruct (IHi2 (rewind s (restoreState s (setBlocked s1 (blocked s)))) W2 ltac:(unfold left in *; lia) LM) as [x R2].
      eexists. eapply Runs_rollback_catch; eassumption.
  - destruct (enters (rule n) (setBlocked s (blocked s && negb (unblocks rs)))) eqn:E.
    + destruct (IHr (rank n) ltac:(unfold rank; lia) (rule n) (setBlocked s (blocked s && negb (unblocks rs))) (wf_rule n) (left_rule n) LM) as [[t s'|s'] R];
        eexists; apply Runs_recover; [eapply Runs_N_ok|eapply Runs_N_fail]; eassumption.
    + eexists. apply Runs_recover. now apply Runs_N_no.
  - eexists. apply Runs_act.
  - apply andb_true_iff in W as [W ST].
    destruct (IHi s W LE LM) as [[t1 s1|s1] R]; [|eexists; eapply Runs_loop_fail; eassumption].
    destruct (inStop (yytoken s1) stop) eqn:T; [eexists; eapply Runs_loop_stop; eassumption|].
    assert (NR : rest s1 <> []). { intros Z. rewrite (yytoken_nil _ Z) in T. congruence. }
    pose proof (after_length _ _ (after_report SevError 1 s1)).
    assert (NR2 : rest (report SevError 1 s1) = rest s1) by (unfold report; destruct (_ <=? _); reflexivity).
    pose proof (yylex_less (report SevError 1 s1) ltac:(congruence)). pose proof (Runs_after _ _ _ _ R). cbn in H1.
    destruct (LESS (ILoopAgain i stop) (yylex (report SevError 1 s1))) as [r2 R2]; [cbn; now rewrite W, ST|lia|].
    eexists. eapply Runs_loop_go; eassumption.
  - apply andb_true_iff in W as [W ST].
    destruct (IHi s W LE LM) as [[t1 s1|s1] R]; [|eexists; eapply Runs_again_fail; eassumption].
    destruct (inStop (yytoken s1) stop) eqn:T; [eexists; eapply Runs_again_stop; eassumption|].
    assert (NR : rest s1 <> []). { intros Z. rewrite (yytoken_nil _ Z) in T. congruence. }
    pose proof (yylex_less s1 NR). pose proof (Runs_after _ _ _ _ R). cbn in H0.
    destruct (LESS (ILoopAgain i stop) (yylex s1)) as [r2 R2]; [cbn; now rewrite W, ST|lia|].
    eexists. eapply Runs_again_go; eassumption.
  - eexists. apply Runs_peek.
Qed.

(** Every token list, every starting rule. *)
Theorem run_ends : forall rs i s, wf i = true -> exists f0 r, forall f, f0 <= f -> run rs f i s = Some r.
Proof.
  intros rs i s W. destruct (ends rs (List.length (rest s)) top i s W (left_top i) (le_n _)) as [r [f0 R]].
  exists f0, r. intros f L. eapply run_mono; eassumption.
Qed.
Theorem parse_ends : forall rs ts, exists f0 r, forall f, f0 <= f -> parseFile rs f ts = Some r.
Proof.
  intros rs ts. destruct (run_ends rs (rule n_start) (initial ts) (wf_rule n_start)) as (f0 & r & H).
  exists f0. unfold parseFile. destruct r as [t s'|s'].
  - destruct (rest s') eqn:E.
    + eexists. intros f L. rewrite (H f L), E. reflexivity.
    + eexists. intros f L. rewrite (H f L), E. reflexivity.
  - eexists. intros f L. rewrite (H f L). reflexivity.
Qed.
