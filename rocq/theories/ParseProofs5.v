(** A file that is accepted without an error is a word of the grammar. *)
From Coq Require Import List Bool NArith ZArith Lia Arith.
From Verif Require Import Chars LexModel ParseModel ParseSpec ParseProofs ParseProofs2 ParseProofs3 ParseProofs4.
Import ListNotations.
Open Scope nat_scope.

(** The tree has exactly the tokens between the two positions. *)
Definition covers (s : PS) (t : list tree) (s' : PS) : Prop :=
  exists l, rest s = l ++ rest s' /\ pos s' = pos s + List.length l
         /\ flat_map leaves t = combine l (seq (pos s) (List.length l)).
Lemma combine_app : forall A B (a c : list A) (b d : list B), List.length a = List.length b ->
  combine (a ++ c) (b ++ d) = combine a b ++ combine c d.
Proof.
  intros A B a c. induction a as [|x a IH]; intros b d L; destruct b; try discriminate; [reflexivity|].
  cbn. f_equal. apply IH. now injection L.
Qed.
Lemma covers_nil : forall s s', rest s' = rest s -> pos s' = pos s -> covers s [] s'.
Proof. intros s s' A B. exists []. cbn. rewrite A, B. repeat split; lia. Qed.
Lemma covers_app : forall s t s1 t' s2, covers s t s1 -> covers s1 t' s2 -> covers s (t ++ t') s2.
Proof.
  intros s t s1 t' s2 (l & A & B & C) (m & D & E & F). exists (l ++ m).
  rewrite app_length, seq_app, combine_app, flat_map_app, <- B by (rewrite seq_length; reflexivity).
  repeat split; [rewrite <- app_assoc; congruence|lia|congruence].
Qed.
Lemma covers_leaf : forall s k, teq (yytoken s) k = true -> k <> T_EOF -> covers s [Leaf k (pos s)] (yylex s).
Proof.
  intros s k T N. pose proof (rest_cur _ _ T N) as R. exists [k]. cbn. split; [exact R|]. split; [|reflexivity].
  unfold yylex. rewrite R. cbn. lia.
Qed.
Lemma covers_node : forall s t s' n a b, covers s t s' -> covers s [Node n a t b] s'.
Proof. intros s t s' n a b (l & A & B & C). exists l. cbn. rewrite app_nil_r. auto. Qed.
Lemma covers_same : forall s t s' s0 s0', covers s t s' -> rest s0 = rest s -> pos s0 = pos s ->
  rest s0' = rest s' -> pos s0' = pos s' -> covers s0 t s0'.
Proof. intros s t s' s0 s0' (l & A & B & C) D E F G. exists l. rewrite D, E, F, G. auto. Qed.

Lemma noClosure_rest : forall ts s, noClosure ts -> inFile ts s -> noClosure (rest s).
Proof.
  intros ts s N (p & A & _) pre post. destruct (N (p ++ pre) post) as [N1 N2].
  split; intros E; [apply N1|apply N2]; rewrite A, E, <- app_assoc; reflexivity.
Qed.

Lemma doAct_ok : forall x s t s', doAct x s = Ok t s' -> t = [] /\ rest s' = rest s /\ pos s' = pos s.
Proof.
  assert (RR : forall sev b s, rest (report sev b s) = rest s /\ pos (report sev b s) = pos s).
  { intros. unfold report. destruct (_ <=? _); split; reflexivity. }
  intros x s t s' H. destruct x; cbn [doAct] in H.
  - injection H as <- <-. auto.
  - injection H as <- <-. auto.
  - injection H as <- <-. destruct (teq _ _); cbn; [|auto]. destruct (RR SevWarning 2 s). auto.
  - destruct (isVar s); [|discriminate]. injection H as <- <-. auto.
  - injection H as <- <-. destruct (RR SevError 1 s). auto.
  - injection H as <- <-. auto.
  - injection H as <- <-. auto.
  - injection H as <- <-. destruct (RR SevError 2 s). destruct (imp s), (cimp s); auto.
  - injection H as <- <-. destruct (RR SevError 2 s). auto.
Qed.

Lemma errs_yylex : forall s, errs (yylex s) = errs s.
Proof. intros. unfold errs. now rewrite problems_yylex. Qed.

Definition heard (rs : Gen) (s : PS) (i : item) : Prop := (blocked s = false \/ unblocks rs = true) \/ chk i = true.
Theorem run_derives : forall rs ts, unblocks rs = true \/ noClosure ts -> forall f i s t s',
  run rs f i s = Some (Ok t s') -> errs s' = errs s -> inFile ts s ->
  heard rs s i -> wfR i = true -> noEOF i = true ->
  Derives i t /\ covers s t s'.
Proof.
  intros rs ts NC. induction f as [|f IH]; intros i s t s' H Q F B W E0; [discriminate|]. unfold heard in B.
  assert (STEP : forall a s0 x, run rs f a s0 = Some x -> errs s0 <= errs (stateOf x)).
  { intros a s0 x X. exact (grows_errs _ _ (run_grows _ _ _ _ _ X)). }
  destruct i; cbn [run] in H.
  - (* token *)
    destruct (teq (yytoken s) k) eqn:T; [|discriminate]. injection H as <- <-. split; [constructor|].
    apply covers_leaf; [exact T|]. intros ->. discriminate.
  - (* rule *)
    destruct (enters (rule n) s); [|discriminate].
    destruct (run rs f (rule n) s) as [[t1 s1|s1]|] eqn:E; try discriminate. injection H as <- <-.
    assert (B1 : heard rs s (rule n)).
    { destruct B as [B|B]; [now left|]. destruct (chk_rule _ B) as [->|B']; [|now right].
      destruct NC as [U|NC]; [now left; right|]. exfalso. destruct (closure_needs _ _ _ _ _ E) as (r & [X|X]);
        destruct (noClosure_rest _ _ NC F [] r) as [N1 N2]; cbn [app] in N1, N2; congruence. }
    destruct (IH _ _ _ _ E Q F B1 (wfR_rule n) (noEOF_rule n)) as [D C].
    split; [now constructor|]. now apply covers_node.
  - injection H as <- <-. split; [constructor|]. now apply covers_nil.
  - discriminate.
  - (* seq *)
    cbn [wfR noEOF] in W, E0. apply andb_true_iff in W as [W1 W2]. apply andb_true_iff in E0 as [Z1 Z2].
    destruct (run rs f i1 s) as [[t1 s1|s1]|] eqn:E; try discriminate.
    destruct (run rs f i2 s1) as [[t2 s2|s2]|] eqn:E2; try discriminate. injection H as <- <-.
    pose proof (STEP _ _ _ E) as G1. pose proof (STEP _ _ _ E2) as G2. cbn [stateOf] in G1, G2.
    pose proof (run_after _ _ _ _ _ E) as A1. cbn [stateOf] in A1.
    assert (BB : heard rs s i1 /\ heard rs s1 i2).
    { unfold heard. destruct B as [B|B]; [rewrite (after_blocked _ _ A1); auto|].
      unfold chk in *. cbn [chkT] in B. apply andb_true_iff in B as [? ?]. auto. }
    destruct BB as [B1 B2].
    destruct (IH _ _ _ _ E ltac:(lia) F B1 W1 Z1) as [D1 C1].
    destruct (IH _ _ _ _ E2 ltac:(lia) (inFile_after _ _ _ F A1) B2 W2 Z2) as [D2 C2].
    split; [now constructor|eapply covers_app; eassumption].
  - (* alternatives *)
    cbn [wfR noEOF] in W, E0. apply andb_true_iff in W as [W1 W2]. apply andb_true_iff in E0 as [Z1 Z2].
    assert (BB : heard rs s i1 /\ heard rs s i2).
    { unfold heard. destruct B as [B|B]; [auto|]. unfold chk in *. cbn [chkT] in B. apply andb_true_iff in B as [? ?]. auto. }
    destruct BB as [B1 B2]. destruct (test i1 s).
    + destruct (IH _ _ _ _ H Q F B1 W1 Z1) as [D C]. split; [now apply D_left|exact C].
    + destruct (IH _ _ _ _ H Q F B2 W2 Z2) as [D C]. split; [now apply D_right|exact C].
  - destruct (IH _ _ _ _ H Q F B W E0) as [D C]. split; [now constructor|exact C].
  - (* star *)
    destruct (mem (yytoken s) (first i)); [|injection H as <- <-; split; [constructor|now apply covers_nil]].
    destruct (run rs f i s) as [[t1 s1|s1]|] eqn:E; try discriminate.
    destruct (run rs f (IStar i) s1) as [[t2 s2|s2]|] eqn:E2; try discriminate. injection H as <- <-.
    pose proof (STEP _ _ _ E) as G1. pose proof (STEP _ _ _ E2) as G2. cbn [stateOf] in G1, G2.
    pose proof (run_after _ _ _ _ _ E) as A1. cbn [stateOf] in A1.
    destruct (IH _ _ _ _ E ltac:(lia) F B W E0) as [D1 C1].
    destruct (IH _ _ _ _ E2 ltac:(lia) (inFile_after _ _ _ F A1) ltac:(unfold heard; rewrite (after_blocked _ _ A1); exact B) W E0) as [D2 C2].
    split; [now constructor|eapply covers_app; eassumption].
  - (* list *)
    cbn [wfR noEOF] in W, E0. apply andb_true_iff in E0 as [Z1 Z2].
    destruct (run rs f i s) as [[t1 s1|s1]|] eqn:E; try discriminate.
    pose proof (run_after _ _ _ _ _ E) as A1. cbn [stateOf] in A1.
    pose proof (STEP _ _ _ E) as G1. cbn [stateOf] in G1.
    assert (NE : sep <> T_EOF) by (intros ->; discriminate Z2).
    destruct (teq (yytoken s1) sep) eqn:T.
    + cbv zeta in H. pose proof (covers_leaf _ _ T NE) as CL.
      destruct (match brk with Some b => _ | None => false end) eqn:BR.
      * injection H as <- <-. rewrite errs_yylex in Q. destruct (IH _ _ _ _ E Q F B W Z1) as [D1 C1].
        destruct brk as [b|]; [|discriminate]. split; [now constructor|eapply covers_app; eassumption].
      * destruct (run rs f (IList i sep brk) (yylex s1)) as [[t2 s2|s2]|] eqn:E2; try discriminate. injection H as <- <-.
        pose proof (STEP _ _ _ E2) as G2. cbn [stateOf] in G2. rewrite errs_yylex in G2.
        destruct (IH _ _ _ _ E ltac:(lia) F B W Z1) as [D1 C1].
        pose proof (after_trans _ _ _ A1 (after_yylex s1)) as A2.
        destruct (IH _ _ _ _ E2 ltac:(rewrite errs_yylex; lia) (inFile_after _ _ _ F A2)
                     ltac:(unfold heard; rewrite (after_blocked _ _ A2); exact B) W ltac:(cbn; now rewrite Z1, Z2)) as [D2 C2].
        split; [now constructor|]. eapply covers_app; [exact C1|]. exact (covers_app _ _ _ _ _ CL C2).
    + injection H as <- <-. destruct (IH _ _ _ _ E Q F B W Z1) as [D1 C1]. split; [now constructor|exact C1].
  - (* try/rollback *)
    cbn [wfR noEOF] in W, E0. apply andb_true_iff in W as [W W2]. apply andb_true_iff in W as [K W1].
    apply andb_true_iff in E0 as [Z1 Z2].
    destruct (run rs f i1 (setBlocked s true)) as [[t1 s1|s1]|] eqn:E; try discriminate.
    + injection H as <- <-.
      destruct (IH _ _ _ _ E Q (inFile_same _ _ _ F eq_refl eq_refl eq_refl) (or_intror K) W1 Z1) as [D C].
      split; [now apply D_try|]. eapply covers_same; [exact C|reflexivity..].
    + pose proof (STEP _ _ _ E) as G1. pose proof (STEP _ _ _ H) as G2. cbn [stateOf] in G1, G2.
      change (errs s <= errs s1) in G1. change (errs s1 <= errs s') in G2.
      assert (F2 : inFile ts (rewind s (restoreState s (setBlocked s1 (blocked s))))).
      { destruct (run_after _ _ _ _ _ E) as (l & _ & _ & Y & _). eapply inFile_same; [exact F|reflexivity|reflexivity|exact Y]. }
      assert (B2 : heard rs s i2).
      { unfold heard. destruct B as [B|B]; [now left|]. unfold chk in *. cbn [chkT] in B. apply andb_true_iff in B as [? ?]. auto. }
      assert (Q2 : errs s' = errs s1) by lia.
      destruct (IH _ _ _ _ H Q2 F2 B2 W2 Z2) as [D C].
      split; [now apply D_catch|]. eapply covers_same; [exact C|reflexivity..].
  - (* try/recover *)
    destruct B as [B|B]; [|discriminate B].
    set (s0 := setBlocked s (blocked s && negb (unblocks rs))) in *.
    assert (B0 : blocked s0 = false).
    { subst s0. cbn. destruct B as [-> | ->]; [reflexivity|]. now rewrite andb_false_r. }
    assert (F0 : inFile ts s0) by (eapply inFile_same; [exact F|reflexivity..]).
    destruct (run rs f (IN n) s0) as [[t1 s1|s1]|] eqn:E; try discriminate; injection H as <- <-.
    + destruct (IH _ _ _ _ E Q F0 (or_introl (or_introl B0)) eq_refl eq_refl) as [D C].
      split; [now constructor|]. eapply covers_same; [exact C|reflexivity..].
    + exfalso. pose proof (nt_fail_errs _ _ _ _ _ _ E F0 B0) as L. unfold errs in *. rewrite problems_recover in Q.
      cbn [problems setBlocked] in Q. change (problems s0) with (problems s) in L. lia.
  - injection H as H. destruct (doAct_ok _ _ _ _ H) as (-> & R & P). split; [constructor|now apply covers_nil].
  - (* loop *)
    destruct (run rs f i s) as [[t1 s1|s1]|] eqn:E; try discriminate.
    pose proof (STEP _ _ _ E) as G1. cbn [stateOf] in G1. pose proof (run_after _ _ _ _ _ E) as A1. cbn [stateOf] in A1.
    destruct (inStop _ _).
    + injection H as <- <-. destruct (IH _ _ _ _ E Q F B W E0) as [D C]. split; [now constructor|exact C].
    + exfalso. destruct (run rs f (ILoopAgain i stop) (yylex (report SevError 1 s1))) as [[t2 s2|s2]|] eqn:E2; try discriminate.
      injection H as _ <-. pose proof (STEP _ _ _ E2) as G2. cbn [stateOf] in G2. rewrite errs_yylex in G2.
      rewrite report_errs in G2; [lia|]. exact (inFile_lt _ _ (inFile_after _ _ _ F A1)).
  - discriminate W.
  - destruct (teq _ _); [|discriminate]. injection H as <- <-. split; [constructor|now apply covers_nil].
Qed.

Lemma accepted_errs : forall l, filter isError l = [] <-> forall p, In p l -> isError p = false.
Proof.
  induction l as [|x l IH]; cbn; [split; [contradiction|auto]|]. destruct (isError x) eqn:E.
  - split; [discriminate|]. intros H. rewrite (H x (or_introl eq_refl)) in E. discriminate.
  - rewrite IH. split; [intros H p [<-|I0]; auto|auto].
Qed.

Theorem parse_sound : forall rs f ts t ps, unblocks rs = true \/ noClosure ts -> parseFile rs f ts = Some (Accepted t ps) ->
  (forall p, In p ps -> isError p = false) -> treeOf ts t.
Proof.
  intros rs f ts t ps NC H NE. unfold parseFile in H.
  destruct (run rs f (rule n_start) (initial ts)) as [[t1 s1|s1]|] eqn:E; try discriminate.
  destruct (rest s1) eqn:R; [|discriminate]. injection H as <- <-.
  assert (Q : errs s1 = errs (initial ts)). { unfold errs. apply accepted_errs in NE. rewrite NE. reflexivity. }
  destruct (run_derives rs ts NC _ _ _ _ _ E Q (inFile_initial ts) (or_introl (or_introl eq_refl)) (wfR_rule n_start) (noEOF_rule n_start))
    as [D (l & A & B & C)].
  split; [now constructor|]. rewrite R, app_nil_r in A. cbn [rest initial] in A. subst l. exact C.
Qed.

(** Every problem lies at a token of the file, the end-of-file token included; a file that is
    rejected has an error. *)
Theorem parse_problems : forall rs f ts r, parseFile rs f ts = Some r ->
  match r with
  | Accepted _ ps => forall p, In p ps -> pr_index p <= List.length ts
  | Rejected ps => (forall p, In p ps -> pr_index p <= List.length ts) /\ exists p, In p ps /\ isError p = true
  end.
Proof.
  intros rs f ts r H. unfold parseFile in H.
  destruct (run rs f (rule n_start) (initial ts)) as [x|] eqn:E; [|discriminate].
  pose proof (run_grows _ _ _ _ _ E) as G. pose proof (run_after _ _ _ _ _ E) as A.
  set (s1 := stateOf x) in *.
  assert (G1 : forall p, In p (problems s1) -> pr_index p <= List.length ts).
  { destruct G as (l & P & Q). cbn in P. intros p I0. rewrite P in I0. rewrite Forall_forall in Q. specialize (Q p I0). cbn in Q. lia. }
  pose proof (inFile_after _ _ _ (inFile_initial ts) A) as F.
  assert (RJ : (forall p, In p (problems (report SevError 1 s1)) -> pr_index p <= List.length ts)
               /\ exists p, In p (problems (report SevError 1 s1)) /\ isError p = true).
  { pose proof (inFile_lt _ _ F) as L. destruct F as (pre & _ & _ & Z). unfold report.
    replace (pos s1 + 1 - 1) with (pos s1) by lia.
    destruct (size s1 <=? pos s1) eqn:LE; [apply Nat.leb_le in LE; lia|]. cbn [problems].
    split.
    - intros p I0. apply in_app_iff in I0 as [I0|[<-|[]]]; [now apply G1|]. cbn. lia.
    - eexists. split; [apply in_app_iff; right; left; reflexivity|reflexivity]. }
  destruct x as [t1 s1'|s1']; cbn [stateOf] in s1; subst s1.
  - destruct (rest s1'); injection H as <-; [exact G1|exact RJ].
  - injection H as <-. exact RJ.
Qed.

