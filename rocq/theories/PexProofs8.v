(** An assignment to something that contains no variable. *)
From Coq Require Import List Bool NArith ZArith Lia Arith.
From Verif Require Import Chars LexModel ParseModel ParseSpec ParseProofs ParseProofs2 ParseProofs4 ParseProofs8 PexSpec PexSpec2 PexProofs PexProofs2 PexProofs3 PexProofs4 PexPath PexPath2 PexProofs5 PexEvery PexProofs6.
Import ListNotations.
Open Scope nat_scope.

Definition isV (k : Tok) : bool := mem k (first (IN n_variable)).
(** [isVariable = true] only comes behind a variable. *)
Fixpoint okI (i : item) : bool :=
  match i with
  | IAct (ASetIsVariable b) => negb b
  | ISeq (IN n_variable) (IAct (ASetIsVariable true)) => true
  | ISeq a b | IAlt a b | IRollback a b => okI a && okI b
  | ICond _ a | IList a _ _ | IStar a | ILoop a _ | ILoopAgain a _ => okI a
  | _ => true
  end.
Lemma ok_rule : forall n, okI (rule n) = true.
Proof. intros n. destruct n; vm_compute; reflexivity. Qed.
Lemma ok_seq_other : forall n b, n <> n_variable -> okI (ISeq (IN n) b) = okI (IN n) && okI b.
Proof. intros n b N. destruct n; try reflexivity. congruence. Qed.
Lemma ok_seq : forall a b, okI (ISeq a b) = true -> (a = IN n_variable /\ b = IAct (ASetIsVariable true)) \/ (okI a = true /\ okI b = true).
Proof.
  intros a b H. destruct a as [| n | | | | | | | | | | | | |]; try (right; cbn [okI] in H; now apply andb_true_iff).
  assert (D : n = n_variable \/ n <> n_variable) by (destruct n; first [now left|now right]).
  destruct D as [->|D]; [|rewrite (ok_seq_other _ _ D) in H; right; now apply andb_true_iff].
  destruct b as [| | | | | | | | | | |x | | |]; try (right; cbn [okI] in H; now apply andb_true_iff).
  destruct x as [[]| | | | | | | |]; try (right; cbn [okI] in H; now apply andb_true_iff). now left.
Qed.

Definition keeps (s s' : PS) : Prop :=
  forall l, rest s = l ++ rest s' -> isVar s' = true -> isVar s = true \/ existsb isV l = true.
Lemma keeps_same : forall s s', isVar s' = isVar s -> keeps s s'.
Proof. intros s s' E l _ H. left. congruence. Qed.
Lemma keeps_trans : forall a b c, after a b -> after b c -> keeps a b -> keeps b c -> keeps a c.
Proof.
  intros a b c (l1 & A1 & _) (l2 & A2 & _) KA KB l E H.
  assert (l = l1 ++ l2) by (apply (app_inv_tail (rest c)); rewrite <- app_assoc, <- A2, <- A1; now symmetry). subst l.
  rewrite existsb_app. destruct (KB l2 A2 H) as [K|K]; [|right; rewrite K; apply orb_true_r].
  destruct (KA l1 A1 K) as [K'|K']; [now left|right; now rewrite K'].
Qed.
Lemma keeps_lex : forall s, keeps s (yylex s).
Proof. intros. apply keeps_same, isVar_lex. Qed.
Lemma variable_takes : forall rs f s t s', run rs f (IN n_variable) s = Some (Ok t s') ->
  forall l, rest s = l ++ rest s' -> existsb isV l = true.
Proof.
  intros rs f s t s' H l E.
  assert (LT : List.length (rest s') < List.length (rest s)) by (eapply run_less; [exact H|reflexivity]).
  destruct l as [|k l]; [rewrite E in LT; cbn in LT; lia|]. destruct f as [|f]; [discriminate|]. cbn [run] in H.
  destruct (enters (rule n_variable) s) eqn:EN; [|discriminate]. clear H.
  unfold enters in EN. change (nullable (rule n_variable)) with false in EN. cbn [orb] in EN.
  assert (Y : yytoken s = k) by (unfold yytoken, la; rewrite E; reflexivity). rewrite Y in EN.
  cbn [existsb]. unfold isV at 1. replace (first (IN n_variable)) with (first (rule n_variable)) by (vm_compute; reflexivity). now rewrite EN.
Qed.
Lemma keeps_run : forall rs f i s t s', okI i = true -> run rs f i s = Some (Ok t s') -> keeps s s'.
Proof.
  intros rs. induction f as [|f IH]; intros i s t s' O H; [discriminate|].
  assert (AF : forall j x y u, run rs f j x = Some (Ok u y) -> after x y) by (intros j x y u R; exact (run_after _ _ _ _ _ R)).
  destruct i; cbn [run] in H.
  - destruct (teq _ _); [|discriminate]. injection H as <- <-. apply keeps_lex.
  - destruct (enters (rule n) s); [|discriminate].
    destruct (run rs f (rule n) s) as [[t1 s1|s1]|] eqn:E; try discriminate. injection H as <- <-. exact (IH _ _ _ _ (ok_rule n) E).
  - injection H as <- <-. now apply keeps_same.
  - discriminate.
  - destruct (run rs f i1 s) as [[t1 s1|s1]|] eqn:E; try discriminate.
    destruct (run rs f i2 s1) as [[t2 s2|s2]|] eqn:E2; try discriminate. injection H as <- <-.
    destruct (ok_seq _ _ O) as [[-> ->]|[O1 O2]].
    + intros l R _. right. destruct f as [|f']; [discriminate|]. cbn [run doAct] in E2. injection E2 as _ <-. eapply variable_takes; [exact E|exact R].
    + eapply keeps_trans; [exact (AF _ _ _ _ E)|exact (AF _ _ _ _ E2)|exact (IH _ _ _ _ O1 E)|exact (IH _ _ _ _ O2 E2)].
  - cbn [okI] in O. apply andb_true_iff in O as [O1 O2]. destruct (test i1 s); [exact (IH _ _ _ _ O1 H)|exact (IH _ _ _ _ O2 H)].
  - exact (IH i _ _ _ O H).
  - destruct (mem _ _); [|injection H as <- <-; now apply keeps_same].
    destruct (run rs f i s) as [[t1 s1|s1]|] eqn:E; try discriminate.
    destruct (run rs f (IStar i) s1) as [[t2 s2|s2]|] eqn:E2; try discriminate. injection H as <- <-.
    eapply keeps_trans; [exact (AF _ _ _ _ E)|exact (AF _ _ _ _ E2)|exact (IH i _ _ _ O E)|exact (IH (IStar i) _ _ _ O E2)].
  - destruct (run rs f i s) as [[t1 s1|s1]|] eqn:E; try discriminate.
    destruct (teq _ _); [|injection H as <- <-; exact (IH i _ _ _ O E)]. cbv zeta in H.
    assert (K : keeps s (yylex s1)) by (eapply keeps_trans; [exact (AF _ _ _ _ E)|apply after_yylex|exact (IH i _ _ _ O E)|apply keeps_lex]).
    assert (A : after s (yylex s1)) by (eapply after_trans; [exact (AF _ _ _ _ E)|apply after_yylex]).
    destruct (match brk with Some b => _ | None => false end).
    + injection H as <- <-. exact K.
    + destruct (run rs f (IList i sep brk) (yylex s1)) as [[t2 s2|s2]|] eqn:E2; try discriminate. injection H as <- <-.
      eapply keeps_trans; [exact A|exact (AF _ _ _ _ E2)|exact K|exact (IH (IList i sep brk) _ _ _ O E2)].
  - cbn [okI] in O. apply andb_true_iff in O as [O1 O2].
    destruct (run rs f i1 (setBlocked s true)) as [[t1 s1|s1]|] eqn:E; try discriminate.
    + injection H as <- <-. exact (IH _ _ _ _ O1 E).
    + exact (IH _ _ _ _ O2 H).
  - destruct (run rs f (IN n) (setBlocked s (blocked s && negb (unblocks rs)))) as [[t1 s1|s1]|] eqn:E; try discriminate; injection H as <- <-.
    + exact (IH (IN n) _ _ _ O E).
    + apply keeps_same, isVar_recover.
  - injection H as H. destruct x as [[]| | | | | | | |]; cbn in O; try discriminate O; cbn [doAct] in H.
    + injection H as <- <-. intros l _ K. discriminate K.
    + injection H as <- <-. now apply keeps_same.
    + injection H as <- <-. apply keeps_same. destruct (teq _ _); [|reflexivity]. exact (proj2 (proj2 (proj2 (rest_report SevWarning 2 s)))).
    + destruct (isVar s) eqn:V; [|discriminate]. injection H as <- <-. now apply keeps_same.
    + injection H as <- <-. apply keeps_same. exact (proj2 (proj2 (proj2 (rest_report SevError 1 s)))).
    + injection H as <- <-. now apply keeps_same.
    + injection H as <- <-. now apply keeps_same.
    + injection H as <- <-. apply keeps_same. destruct (imp s), (cimp s); try reflexivity; exact (proj2 (proj2 (proj2 (rest_report SevError 2 s)))).
    + injection H as <- <-. apply keeps_same. exact (proj2 (proj2 (proj2 (rest_report SevError 2 s)))).
  - destruct (run rs f i s) as [[t1 s1|s1]|] eqn:E; try discriminate.
    destruct (inStop _ _); [injection H as <- <-; exact (IH i _ _ _ O E)|].
    destruct (run rs f (ILoopAgain i stop) _) as [[t2 s2|s2]|] eqn:E2; try discriminate. injection H as <- <-.
    eapply keeps_trans; [|exact (AF _ _ _ _ E2)| |exact (IH (ILoopAgain i stop) _ _ _ O E2)].
    + eapply after_trans; [exact (AF _ _ _ _ E)|]. eapply after_trans; [apply after_report|apply after_yylex].
    + eapply keeps_trans; [exact (AF _ _ _ _ E)| |exact (IH i _ _ _ O E)|].
      * eapply after_trans; [apply after_report|apply after_yylex].
      * apply keeps_same. rewrite isVar_lex. exact (proj2 (proj2 (proj2 (rest_report SevError 1 s1)))).
  - destruct (run rs f i s) as [[t1 s1|s1]|] eqn:E; try discriminate.
    destruct (inStop _ _); [injection H as <- <-; exact (IH i _ _ _ O E)|].
    destruct (run rs f (ILoopAgain i stop) _) as [[t2 s2|s2]|] eqn:E2; try discriminate. injection H as <- <-.
    eapply keeps_trans; [|exact (AF _ _ _ _ E2)| |exact (IH (ILoopAgain i stop) _ _ _ O E2)].
    + eapply after_trans; [exact (AF _ _ _ _ E)|apply after_yylex].
    + eapply keeps_trans; [exact (AF _ _ _ _ E)|apply after_yylex|exact (IH i _ _ _ O E)|apply keeps_lex].
  - destruct (teq _ _); [|discriminate]. injection H as <- <-. now apply keeps_same.
Qed.

Section NoV.
Context {Fs : Functions}.
Lemma wrap_noV : forall l e, existsb isV (text e) = false -> existsb isV (wrap l e (text e)) = false.
Proof.
  intros l e H. unfold wrap. destruct (level e <? l); [|exact H]. cbn [existsb]. rewrite existsb_app, H. vm_compute. reflexivity.
Qed.
Lemma app_noV : forall v w, existsb isV v = false -> existsb isV w = false -> existsb isV (v ++ w) = false.
Proof. intros v w A B. now rewrite existsb_app, A, B. Qed.
Lemma cons_noV : forall k w, isV k = false -> existsb isV w = false -> existsb isV (k :: w) = false.
Proof. intros k w A B. cbn [existsb]. now rewrite A, B. Qed.
Lemma commas_noV : forall l, (forall w, In w l -> existsb isV w = false) -> existsb isV (commas l) = false.
Proof.
  induction l as [|w l IH]; intros H; [reflexivity|]. destruct l as [|w' l]; [apply H; now left|]. change (commas (w :: w' :: l)) with (w ++ T_COMMA :: commas (w' :: l)).
  apply app_noV; [apply H; now left|]. apply cons_noV; [vm_compute; reflexivity|]. apply IH. intros x I0. apply H. now right.
Qed.
Lemma constant_noV : forall e, constant e = true -> existsb isV (text e) = false.
Proof.
  Ltac tk := first [vm_compute; reflexivity | match goal with x : _ |- isV _ = false => destruct x; vm_compute; reflexivity end].
  induction e using ex_induction. intros C.
  destruct e as [| |o a b|o a|o v a|a b c|a c|a|a|k a| | |l| |l|a i|a|a l|k|q l|s c l|c args|l|a|a|o|a|pre inc v|l a|o|a|f]; cbn [constant] in C; try discriminate C; cbn [text subs] in *.
  - vm_compute. reflexivity.
  - apply andb_true_iff in C as [A B]. apply app_noV; [apply wrap_noV, H; [now left|exact A]|]. apply cons_noV; [tk|]. apply wrap_noV, H; [right; now left|exact B].
  - apply cons_noV; [tk|]. apply wrap_noV, H; [now left|exact C].
  - apply andb_true_iff in C as [C D]. apply andb_true_iff in C as [A B]. apply app_noV; [apply wrap_noV, H; [now left|exact A]|]. apply cons_noV; [tk|].
    apply app_noV; [apply wrap_noV, H; [right; now left|exact B]|]. apply cons_noV; [tk|]. apply wrap_noV, H; [right; right; now left|exact D].
  - apply andb_true_iff in C as [A B]. apply app_noV; [apply wrap_noV, H; [now left|exact A]|]. apply cons_noV; [tk|]. apply cons_noV; [tk|].
    apply wrap_noV, H; [right; now left|exact B].
  - apply cons_noV; [tk|]. apply wrap_noV, H; [now left|exact C].
  - apply cons_noV; [tk|]. apply wrap_noV, H; [now left|exact C].
  - destruct k; try discriminate C; vm_compute; reflexivity.
  - apply cons_noV; [tk|]. apply app_noV; [|destruct q; vm_compute; reflexivity]. clear H. induction l as [|x l IH]; [reflexivity|].
    cbn [forallb] in C. apply andb_true_iff in C as [C1 C2]. destruct x; try discriminate C1. cbn [flat_map bitText app]. apply cons_noV; [tk|]. exact (IH C2).
  - assert (E : existsb isV (commas (map (entryText text (fun k => wrap 5 k (text k))) l)) = false).
    { apply commas_noV. intros w I0. apply in_map_iff in I0 as (n & <- & I0). rewrite forallb_forall in C. specialize (C n I0). destruct n as [a|k a|v|k v]; try discriminate C; cbn [entryText].
      - apply H; [|exact C]. apply in_flat_map. exists (NVal a). split; [exact I0|now left].
      - apply andb_true_iff in C as [A B]. apply app_noV; [apply wrap_noV, H; [|exact A]; apply in_flat_map; exists (NPair k a); split; [exact I0|now left]|].
        apply cons_noV; [tk|]. apply H; [|exact B]. apply in_flat_map; exists (NPair k a); split; [exact I0|right; now left]. }
    unfold arrayText. destruct s; [apply cons_noV; [tk|]|apply cons_noV; [tk|]; apply cons_noV; [tk|]]; (apply app_noV; [apply app_noV; [exact E|destruct c; vm_compute; reflexivity]|vm_compute; reflexivity]).
  - apply cons_noV; [tk|]. apply cons_noV; [tk|]. apply app_noV; [apply H; [now left|exact C]|vm_compute; reflexivity].
  - apply cons_noV; [tk|]. apply cons_noV; [tk|]. apply app_noV; [apply H; [now left|exact C]|vm_compute; reflexivity].
  - destruct o as [[a|]|]; [|vm_compute; reflexivity..]. apply cons_noV; [tk|]. apply cons_noV; [tk|]. apply app_noV; [apply H; [now left|exact C]|vm_compute; reflexivity].
  - apply cons_noV; [tk|]. apply wrap_noV, H; [now left|exact C].
  - destruct o as [[[k|] a]|]; [| |vm_compute; reflexivity].
    + apply andb_true_iff in C as [A B]. apply cons_noV; [tk|]. apply app_noV; [apply wrap_noV, H; [now left|exact A]|]. apply cons_noV; [tk|]. apply wrap_noV, H; [right; now left|exact B].
    + apply cons_noV; [tk|]. apply wrap_noV, H; [now left|exact C].
  - apply cons_noV; [tk|]. apply wrap_noV, H; [now left|exact C].
Qed.

End NoV.

Section Assign.
Variable rs : Gen.
Context {Fs : Functions} {FsR : FunctionsRead rs}.
(** A failed run that has reported an error at token [n]. *)
Definition said (n : nat) (s : PS) : Prop := In {| pr_sev := SevError; pr_index := n |} (problems s).
Definition FailsAt (i : item) (s : PS) (n : nat) : Prop := exists s', Runs rs i s (Fail s') /\ said n s'.
Lemma said_expected : forall n s, said n s -> said n (expected s).
Proof.
  intros n s H. destruct (grows_expected s) as (l & E & _). unfold said. rewrite E. apply in_or_app. now left.
Qed.
Lemma fails_N : forall n s k, enters (rule n) s = true -> FailsAt (rule n) s k -> FailsAt (IN n) s k.
Proof. intros n s k E (s' & R & S0). exists (expected s'). split; [now apply Runs_N_fail|now apply said_expected]. Qed.
Lemma fails_seq_l : forall a b s k, FailsAt a s k -> FailsAt (ISeq a b) s k.
Proof. intros a b s k (s' & R & S0). exists s'. split; [now apply Runs_seq_fail|exact S0]. Qed.
Lemma fails_seq_r : forall a b s t s1 k, Runs rs a s (Ok t s1) -> FailsAt b s1 k -> FailsAt (ISeq a b) s k.
Proof. intros a b s t s1 k RA (s' & R & S0). exists s'. split; [exact (Runs_seq rs _ _ _ _ _ _ RA R)|exact S0]. Qed.
Lemma fails_alt_l : forall a b s k, test a s = true -> FailsAt a s k -> FailsAt (IAlt a b) s k.
Proof. intros a b s k T (s' & R & S0). exists s'. split; [now apply Runs_alt_l|exact S0]. Qed.
Lemma fails_alt_r : forall a b s k, test a s = false -> FailsAt b s k -> FailsAt (IAlt a b) s k.
Proof. intros a b s k T (s' & R & S0). exists s'. split; [now apply Runs_alt_r|exact S0]. Qed.
Lemma fails_list : forall a sep brk s k, FailsAt a s k -> FailsAt (IList a sep brk) s k.
Proof. intros a sep brk s k (s' & R & S0). exists s'. split; [now apply Runs_list_fail|exact S0]. Qed.
Lemma fails_cond : forall c a s k, FailsAt a s k -> FailsAt (ICond c a) s k.
Proof. intros c a s k (s' & R & S0). exists s'. split; [now apply Runs_cond|exact S0]. Qed.

Definition within (s : PS) : Prop := pos s + S (List.length (rest s)) = size s.
Lemma within_after : forall s s', after s s' -> within s -> within s'.
Proof. intros s s' (l & A & B & C & _) W. unfold within in *. rewrite A, app_length in W. lia. Qed.

Lemma check_fails : forall s, isVar s = false -> within s -> FailsAt (IN n_assignmentExpressionCheckIfVariable) s (pos s).
Proof.
  intros s V W. apply fails_N; [reflexivity|]. exists (report SevError 1 s). split.
  - pose proof (Runs_act rs ACheckVariable s) as R. cbn [doAct] in R. rewrite V in R. exact R.
  - unfold said, report. replace (pos s + 1 - 1) with (pos s) by lia. unfold within in W.
    replace (size s <=? pos s) with false by (symmetry; apply Nat.leb_gt; lia). cbn. apply in_or_app. right. now left.
Qed.

Lemma cont_asg : forall o r, stops 6 (asgTok o :: r).
Proof. intros o r. unfold stops. cbn [hd]. destruct o; vm_compute; reflexivity. Qed.

Lemma asg_fails : forall e o r s, Good rs 6 (wrap 6 e (text e)) e false -> existsb isV (wrap 6 e (text e)) = false ->
  rest s = wrap 6 e (text e) ++ asgTok o :: r -> vst s = Normal -> within s ->
  FailsAt (IN n_assignmentExpression) s (pos s + S (List.length (wrap 6 e (text e)))).
Proof.
  intros e o r s [S0 G] NV R V W. pose proof (starts_tok _ _ _ _ S0 R) as HI.
  assert (EN : enters (rule n_assignmentExpression) s = true).
  { apply (enters_head 5); [lia|]. now apply (heads_le 5 6); [lia|]. }
  apply fails_N; [exact EN|]. cbn [rule seqs].
  set (s1 := setIsVar s false). apply (fails_seq_r _ _ s [] s1); [exact (Runs_act rs (ASetIsVariable false) s)|].
  destruct (G (asgTok o :: r) (cont_asg o r) s1 R V) as (t & s2 & RU & _ & A1 & _ & _ & _ & _).
  destruct RU as [f RU]. pose proof (run_after _ _ _ _ _ RU) as AF. cbn [stateOf] in AF.
  assert (V2 : isVar s2 = false).
  { destruct (isVar s2) eqn:E; [|reflexivity]. pose proof (keeps_run rs f (IN (ntOf 6)) s1 _ s2 eq_refl RU) as K.
    destruct (K (wrap 6 e (text e))) as [X|X]; [rewrite A1; exact R|exact E|discriminate X|congruence]. }
  assert (P2 : pos s2 = pos s + List.length (wrap 6 e (text e))).
  { destruct AF as (l & B1 & B2 & _). rewrite B2. cbn [pos s1 setIsVar]. f_equal. f_equal.
    apply (app_inv_tail (rest s2)). rewrite <- B1, A1. exact R. }
  assert (W2 : within s2) by (eapply within_after; [exact AF|exact W]).
  destruct (yylex_rest _ _ _ A1) as (Y1 & _ & _ & _ & Y5 & Y6).
  assert (W3 : within (yylex s2)) by (eapply within_after; [apply after_yylex|exact W2]).
  assert (Y : yytoken s2 = asgTok o) by exact (yytoken_cons _ _ _ A1).
  eapply fails_seq_r; [exists f; exact RU|]. cbn [alts].
  assert (CK : FailsAt (IN n_assignmentExpressionCheckIfVariable) (yylex s2) (pos s + S (List.length (wrap 6 e (text e))))).
  { replace (pos s + S (List.length (wrap 6 e (text e)))) with (pos (yylex s2)) by lia. apply check_fails; [congruence|exact W3]. }
  destruct o; cbn [asgTok] in Y;
    [ apply fails_alt_l; [cbn [test]; unfold enters; rewrite Y; vm_compute; reflexivity|];
      apply fails_N; [unfold enters; rewrite Y; vm_compute; reflexivity|]; cbn [rule seqs];
      eapply fails_seq_r; [apply Runs_tok, Y|]; apply fails_seq_l; exact CK
    | .. ];
    (apply fails_alt_r; [cbn [test]; unfold enters; rewrite Y; vm_compute; reflexivity|];
     apply fails_alt_l; [cbn [test seqs]; unfold enters; rewrite Y; vm_compute; reflexivity|]; cbn [seqs alts];
     eapply fails_seq_r; [|apply fails_seq_l; exact CK];
     repeat (apply Runs_alt_r; [cbn [test]; unfold enters; rewrite Y; vm_compute; reflexivity|]);
     apply Runs_alt_l; [cbn [test]; unfold enters; rewrite Y; vm_compute; reflexivity|]; apply Runs_tok, Y).
Qed.

Lemma expr_fails : forall e o r s, Good rs 6 (wrap 6 e (text e)) e false -> existsb isV (wrap 6 e (text e)) = false ->
  rest s = wrap 6 e (text e) ++ asgTok o :: r -> vst s = Normal -> within s ->
  FailsAt (IN n_expr) s (pos s + S (List.length (wrap 6 e (text e)))).
Proof.
  intros e o r s G NV R V W. pose proof (starts_tok _ _ _ _ (proj1 G) R) as HI.
  assert (EN : forall l, l <= 6 -> enters (rule (ntOf l)) s = true).
  { intros l L. apply enters_head; [lia|]. now apply (heads_le l 6). }
  apply fails_N; [exact (EN 0 ltac:(lia))|]. cbn [rule].
  apply fails_N; [exact (EN 1 ltac:(lia))|]. cbn [rule]. apply fails_list.
  apply fails_N; [exact (EN 2 ltac:(lia))|]. cbn [rule]. apply fails_list.
  apply fails_N; [exact (EN 3 ltac:(lia))|]. cbn [rule]. apply fails_list.
  apply fails_N; [exact (EN 4 ltac:(lia))|]. cbn [rule seqs alts].
  apply (fails_seq_r _ _ s [] s).
  - apply Runs_alt_r; [|apply Runs_alt_l; [reflexivity|apply Runs_eps]].
    cbn [test]. unfold enters. cbn in HI. repeat (destruct HI as [HI|HI]; [rewrite <- HI; vm_compute; reflexivity|]). contradiction.
  - exact (asg_fails e o r s G NV R V W).
Qed.

Lemma anon_wrap : forall l e, plain e = true -> anon (wrap l e (text e)).
Proof.
  intros l e P. unfold wrap. destruct (level e <? l); [|exact (text_anon rs e P)]. cbn. intro A. discriminate.
Qed.

Lemma statement_fails : forall e o r s, Good rs 6 (wrap 6 e (text e)) e false -> second (wrap 6 e (text e)) -> anon (wrap 6 e (text e)) ->
  existsb isV (wrap 6 e (text e)) = false ->
  rest s = wrap 6 e (text e) ++ asgTok o :: r -> vst s = Normal -> within s ->
  FailsAt (IN n_outerTopStatement) s (pos s + S (List.length (wrap 6 e (text e))))
  /\ mem (yytoken s) (first (IN n_outerTopStatement)) = true.
Proof.
  intros e o r s G SEC AN NV R V W. pose proof (starts_tok _ _ _ _ (proj1 G) R) as HI.
  pose proof (anon_holds _ _ _ R (proj1 (proj1 G)) AN) as AH.
  pose proof (expr_fails e o r s G NV R V W) as EF.
  assert (LA : la 1 s = yytoken s) by reflexivity.
  assert (L2 : teq (la 2 s) T_COLON = false).
  { apply teq_neq. unfold la. rewrite R. exact (SEC (asgTok o :: r) ltac:(destruct o; discriminate)). }
  cbn in HI. repeat (destruct HI as [HI|HI]; [|]); try contradiction;
    (assert (EN : forall i, enters i s = nullable i || mem (yytoken s) (first i)) by reflexivity; rewrite <- HI in EN, LA;
     split; [|rewrite <- HI; vm_compute; reflexivity];
     apply fails_N; [rewrite EN; vm_compute; reflexivity|]; cbn [rule alts];
     apply fails_alt_r; [cbn [test]; rewrite EN; vm_compute; reflexivity|];
     apply fails_alt_l; [cbn [test]; rewrite EN; vm_compute; reflexivity|];
     apply fails_N; [rewrite EN; vm_compute; reflexivity|]; cbn [rule alts];
     apply fails_alt_l; [cbn [test]; rewrite AH, EN; vm_compute; reflexivity|]; apply fails_cond;
     apply fails_N; [rewrite EN; vm_compute; reflexivity|]; cbn [rule alts];
     repeat (apply fails_alt_r; [cbn [test seqs]; rewrite EN; vm_compute; reflexivity|]);
     apply fails_alt_l; [cbn [test seqs holds]; rewrite EN, LA, L2; vm_compute; reflexivity|];
     apply fails_cond; cbn [seqs]; apply fails_seq_l; exact EF).
Qed.

Lemma statements_fail : forall es e o tail s, (forall x, In x es -> plain x = true) -> constant e = true -> plain e = true ->
  rest s = flat_map (fun e => text e ++ [T_SEMICOLON]) es ++ wrap 6 e (text e) ++ asgTok o :: tail -> vst s = Normal -> within s ->
  FailsAt (IStar (IN n_outerTopStatement)) s
    (pos s + List.length (flat_map (fun e => text e ++ [T_SEMICOLON]) es) + S (List.length (wrap 6 e (text e)))).
Proof.
  induction es as [|x es IH]; intros e o tail s P C PE R V W.
  - cbn [flat_map app List.length] in *. rewrite Nat.add_0_r.
    assert (G : Good rs 6 (wrap 6 e (text e)) e false) by (apply (fine_wrap rs); [exact (every rs e PE)|lia|apply fits_low; lia]).
    destruct (statement_fails e o tail s G (second_wrap rs 6 e PE (text_second rs e PE)) (anon_wrap 6 e PE) (wrap_noV 6 e (constant_noV e C)) R V W) as [(s' & F & S0) M].
    exists s'. split; [now apply Runs_star_fail|exact S0].
  - cbn [flat_map] in R. rewrite <- !app_assoc in R. cbn [app] in R.
    assert (G : Good rs 0 (text x) x false).
    { apply (fine_0 rs), (every rs), P. now left. }
    destruct (statement_reads rs _ _ _ s G (text_second rs x (P x (or_introl eq_refl))) (text_anon rs x (P x (or_introl eq_refl))) R V) as (t & s1 & RU & _ & A1 & _ & A3 & _ & _).
    assert (AF : after s s1) by (destruct RU as [f RU]; exact (run_after _ _ _ _ _ RU)).
    destruct (IH e o tail s1 (fun e H => P e (or_intror H)) C PE A1 A3 (within_after _ _ AF W)) as (s' & F & S0).
    exists s'. split.
    + refine (Runs_star_go rs _ _ _ _ _ _ RU F).
      pose proof (starts_tok _ _ _ _ (proj1 G) R) as HI. cbn in HI.
      repeat (destruct HI as [HI|HI]; [rewrite <- HI; vm_compute; reflexivity|]). contradiction.
    + cbn [flat_map]. destruct AF as (l & B1 & B2 & _). rewrite A1 in B1. rewrite R in B1.
      assert (l = text x ++ [T_SEMICOLON]).
      { apply (app_inv_tail (flat_map (fun e => text e ++ [T_SEMICOLON]) es ++ wrap 6 e (text e) ++ asgTok o :: tail)). rewrite <- B1, <- app_assoc. reflexivity. }
      subst l. rewrite app_length. rewrite B2 in S0. rewrite Nat.add_assoc. exact S0.
Qed.

Theorem assignment_reported : forall es e o tail, (forall x, In x es -> plain x = true) -> constant e = true -> plain e = true ->
  exists f0, forall f, f0 <= f -> exists ps, parseFile rs f (assigned es e o tail) = Some (Rejected ps)
    /\ In {| pr_sev := SevError; pr_index := S (List.length (before es e)) |} ps.
Proof.
  intros es e o tail P C PE. set (s := initial (assigned es e o tail)).
  assert (RS : rest s = T_OPEN_TAG :: (flat_map (fun e => text e ++ [T_SEMICOLON]) es ++ wrap 6 e (text e) ++ asgTok o :: tail)).
  { cbn [rest s initial]. unfold assigned, before, fileOf. rewrite <- app_assoc. reflexivity. }
  destruct (tag_shape rs s _ RS) as (t & RU & _). destruct (yylex_rest _ _ _ RS) as (Y1 & _ & Y3 & _ & _ & Y6).
  assert (W : within (yylex s)).
  { eapply within_after; [apply after_yylex|]. unfold within. reflexivity. }
  destruct (statements_fail es e o tail (yylex s) P C PE Y1 Y3 W) as (s' & F & S0).
  assert (RR : Runs rs (rule n_start) s (Fail s')).
  { cbn [rule]. refine (Runs_star_go rs _ _ _ _ _ _ RU F). rewrite (yytoken_cons _ _ _ RS). vm_compute. reflexivity. }
  destruct RR as [f0 RR]. exists f0. intros f L. eexists. unfold parseFile. fold s. rewrite (run_mono _ _ _ _ _ _ L RR). split; [reflexivity|].
  rewrite Y6 in S0. cbn [pos s initial] in S0.
  destruct (grows_report SevError 1 s') as (l & E & _). rewrite E. apply in_or_app. left.
  unfold before, fileOf. rewrite app_length. cbn [List.length].
  replace (S (S (List.length (flat_map (fun e : ex => text e ++ [T_SEMICOLON]) es)) + List.length (wrap 6 e (text e))))
    with (1 + List.length (flat_map (fun e : ex => text e ++ [T_SEMICOLON]) es) + S (List.length (wrap 6 e (text e)))) by lia. exact S0.
Qed.
End Assign.
