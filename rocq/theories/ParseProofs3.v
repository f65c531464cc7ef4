(** The tree and the tokens of the file. *)
From Coq Require Import List Bool NArith ZArith Lia Arith.
From Verif Require Import Chars LexModel ParseModel ParseSpec ParseProofs ParseProofs2.
Import ListNotations.
Open Scope nat_scope.

Inductive spans (ts : list Tok) : nat -> list tree -> nat -> Prop :=
| sp_nil : forall lo hi, lo <= hi -> spans ts lo [] hi
| sp_leaf : forall lo k p r hi, lo <= p -> nth_error ts p = Some k -> spans ts (S p) r hi ->
    spans ts lo (Leaf k p :: r) hi
| sp_node : forall lo n a ch b r hi, lo <= a -> spans ts a ch b -> spans ts b r hi ->
    spans ts lo (Node n a ch b :: r) hi.
Lemma spans_le : forall ts lo l hi, spans ts lo l hi -> lo <= hi.
Proof. intros ts lo l hi H. induction H; lia. Qed.
Lemma spans_weak : forall ts lo lo' l hi, spans ts lo l hi -> lo' <= lo -> spans ts lo' l hi.
Proof.
  intros ts lo lo' l hi H L. destruct H; [apply sp_nil|apply sp_leaf|apply sp_node]; try assumption; lia.
Qed.
Lemma spans_weakr : forall ts lo l hi hi', spans ts lo l hi -> hi <= hi' -> spans ts lo l hi'.
Proof.
  intros ts lo l hi hi' H. revert hi'. induction H; intros hi' L; [apply sp_nil; lia|apply sp_leaf; auto|].
  apply sp_node; auto.
Qed.
Lemma spans_app : forall ts lo l m l' hi, spans ts lo l m -> spans ts m l' hi -> spans ts lo (l ++ l') hi.
Proof.
  intros ts lo l m l' hi H. revert l' hi. induction H; intros l' hi' H'; cbn.
  - eapply spans_weak; eassumption.
  - apply sp_leaf; auto.
  - apply sp_node; auto.
Qed.

(** The parser stands at [pos] in [ts]. *)
Definition inFile (ts : list Tok) (s : PS) : Prop :=
  exists pre, ts = pre ++ rest s /\ pos s = List.length pre /\ size s = S (List.length ts).
Lemma inFile_after : forall ts s s', inFile ts s -> after s s' -> inFile ts s'.
Proof.
  intros ts s s' (pre & A & B & C) (l & D & E & F & _). exists (pre ++ l). rewrite app_length.
  repeat split; [|lia|congruence]. rewrite <- app_assoc, <- D. exact A.
Qed.
Lemma inFile_same : forall ts s s', inFile ts s -> rest s' = rest s -> pos s' = pos s -> size s' = size s -> inFile ts s'.
Proof. intros ts s s' (pre & A & B & C) D E F. exists pre. repeat split; congruence. Qed.
Lemma inFile_cur : forall ts s k, inFile ts s -> teq (yytoken s) k = true -> k <> T_EOF ->
  nth_error ts (pos s) = Some k /\ pos (yylex s) = S (pos s).
Proof.
  intros ts s k (pre & A & B & C) T N. apply teq_eq in T. unfold yylex.
  destruct (rest s) as [|x r] eqn:R.
  - rewrite (yytoken_nil _ R) in T. congruence.
  - rewrite (yytoken_cons _ _ _ R) in T. subst x. cbn. split; [|reflexivity].
    rewrite A, B, nth_error_app2, Nat.sub_diag; [reflexivity|lia].
Qed.
Lemma after_pos : forall s s', after s s' -> pos s <= pos s'.
Proof. intros s s' (l & _ & B & _). lia. Qed.

(** No rule asks for the end-of-file token. *)
Fixpoint noEOF (i : item) : bool :=
  match i with
  | IT k => negb (teq k T_EOF)
  | ISeq a b | IAlt a b | IRollback a b => noEOF a && noEOF b
  | ICond _ a | IStar a | ILoop a _ | ILoopAgain a _ => noEOF a
  | IList a sep _ => noEOF a && negb (teq sep T_EOF)
  | _ => true
  end.
Lemma noEOF_rule : forall n, noEOF (rule n) = true.
Proof. destruct n; vm_compute; reflexivity. Qed.

Lemma run_spans : forall rs ts f i s t s', run rs f i s = Some (Ok t s') -> noEOF i = true ->
  inFile ts s -> spans ts (pos s) t (pos s').
Proof.
  intros rs ts. induction f as [|f IH]; intros i s t s' H W F; [discriminate|].
  pose proof (run_after _ _ _ _ _ H) as AF. cbn [stateOf] in AF.
  destruct i; cbn [run] in H; cbn [noEOF] in W.
  - destruct (teq (yytoken s) k) eqn:T; [|discriminate]. injection H as <- <-.
    destruct (inFile_cur ts s k F T) as [A B]; [intros ->; discriminate|].
    apply sp_leaf; [lia|exact A|apply sp_nil; lia].
  - destruct (enters (rule n) s); [|discriminate].
    destruct (run rs f (rule n) s) as [[t1 s1|s1]|] eqn:E; try discriminate. injection H as <- <-.
    pose proof (IH _ _ _ _ E (noEOF_rule n) F) as A. apply sp_node; [lia|exact A|apply sp_nil; lia].
  - injection H as <- <-. apply sp_nil. lia.
  - discriminate.
  - apply andb_true_iff in W as [W1 W2].
    destruct (run rs f i1 s) as [[t1 s1|s1]|] eqn:E; try discriminate.
    destruct (run rs f i2 s1) as [[t2 s2|s2]|] eqn:E2; try discriminate. injection H as <- <-.
    eapply spans_app; [eapply IH; eassumption|]. eapply IH; [eassumption|exact W2|].
    eapply inFile_after; [exact F|exact (run_after _ _ _ _ _ E)].
  - apply andb_true_iff in W as [W1 W2]. destruct (test i1 s); eauto.
  - eauto.
  - destruct (mem (yytoken s) (first i)); [|injection H as <- <-; apply sp_nil; lia].
    destruct (run rs f i s) as [[t1 s1|s1]|] eqn:E; try discriminate.
    destruct (run rs f (IStar i) s1) as [[t2 s2|s2]|] eqn:E2; try discriminate. injection H as <- <-.
    eapply spans_app; [eapply IH; eassumption|]. eapply IH; [eassumption|exact W|].
    eapply inFile_after; [exact F|exact (run_after _ _ _ _ _ E)].
  - apply andb_true_iff in W as [W1 W2].
    destruct (run rs f i s) as [[t1 s1|s1]|] eqn:E; try discriminate.
    assert (F1 : inFile ts s1) by (eapply inFile_after; [exact F|exact (run_after _ _ _ _ _ E)]).
    destruct (teq (yytoken s1) sep) eqn:T; [|injection H as <- <-; eauto]. cbv zeta in H.
    destruct (inFile_cur ts s1 sep F1 T) as [A B]; [intros ->; discriminate|].
    destruct (match brk with Some b => _ | None => false end).
    + injection H as <- <-. eapply spans_app; [eapply IH; eassumption|].
      apply sp_leaf; [lia|exact A|apply sp_nil; lia].
    + destruct (run rs f (IList i sep brk) (yylex s1)) as [[t2 s2|s2]|] eqn:E2; try discriminate. injection H as <- <-.
      eapply spans_app; [eapply IH; eassumption|]. apply sp_leaf; [lia|exact A|]. rewrite <- B.
      eapply IH; [eassumption|cbn; now rewrite W1, W2|]. eapply inFile_after; [exact F1|apply after_yylex].
  - apply andb_true_iff in W as [W1 W2].
    destruct (run rs f i1 (setBlocked s true)) as [[t1 s1|s1]|] eqn:E; try discriminate.
    + injection H as <- <-. eapply (IH _ _ _ _ E W1). eapply inFile_same; [exact F|reflexivity..].
    + eapply (IH _ _ _ _ H W2). destruct (run_after _ _ _ _ _ E) as (l & _ & _ & Z & _).
      eapply inFile_same; [exact F|reflexivity|reflexivity|exact Z].
  - destruct (run rs f (IN n) (setBlocked s (blocked s && negb (unblocks rs)))) as [[t1 s1|s1]|] eqn:E; try discriminate; injection H as <- <-.
    + eapply (IH _ _ _ _ E eq_refl). eapply inFile_same; [exact F|reflexivity..].
    + apply sp_nil. exact (after_pos _ _ AF).
  - destruct x; cbn [doAct] in H; try (injection H as <- <-; apply sp_nil; exact (after_pos _ _ AF)).
    destruct (isVar s); [|discriminate]. injection H as <- <-. apply sp_nil. lia.
  - destruct (run rs f i s) as [[t1 s1|s1]|] eqn:E; try discriminate.
    destruct (inStop _ _); [injection H as <- <-; eauto|].
    destruct (run rs f (ILoopAgain i stop) (yylex (report SevError 1 s1))) as [[t2 s2|s2]|] eqn:E2; try discriminate.
    injection H as <- <-. eapply spans_app; [eapply IH; eassumption|].
    assert (AF2 : after s1 (yylex (report SevError 1 s1))).
    { eapply after_trans; [apply after_report|apply after_yylex]. }
    eapply spans_weak; [eapply IH; [eassumption|exact W|]|exact (after_pos _ _ AF2)].
    eapply inFile_after; [|exact AF2]. eapply inFile_after; [exact F|exact (run_after _ _ _ _ _ E)].
  - destruct (run rs f i s) as [[t1 s1|s1]|] eqn:E; try discriminate.
    destruct (inStop _ _); [injection H as <- <-; eauto|].
    destruct (run rs f (ILoopAgain i stop) (yylex s1)) as [[t2 s2|s2]|] eqn:E2; try discriminate.
    injection H as <- <-. eapply spans_app; [eapply IH; eassumption|].
    pose proof (after_yylex s1) as AF2.
    eapply spans_weak; [eapply IH; [eassumption|exact W|]|exact (after_pos _ _ AF2)].
    eapply inFile_after; [|exact AF2]. eapply inFile_after; [exact F|exact (run_after _ _ _ _ _ E)].
  - destruct (teq _ _); [|discriminate]. injection H as <- <-. apply sp_nil. lia.
Qed.

(** From [spans] to the description in ParseSpec. *)
Lemma ascending_app : forall a b x, ascending (a ++ [x]) -> (forall y, In y b -> x < y) -> ascending b -> ascending (a ++ [x] ++ b).
Proof.
  induction a as [|y a IH]; intros b x A B C.
  - cbn. destruct b as [|z b]; [exact I|]. split; [apply B; now left|exact C].
  - cbn [app] in *. destruct a as [|z a].
    + destruct A as [A1 A2]. split; [exact A1|]. exact (IH b x A2 B C).
    + destruct A as [A1 A2]. split; [exact A1|]. exact (IH b x A2 B C).
Qed.
Lemma ascending_glue : forall m a b, ascending a -> ascending b -> (forall y, In y a -> y < m) ->
  (forall y, In y b -> m <= y) -> ascending (a ++ b).
Proof.
  intros m a b A B LA LB. destruct a as [|x0 a0] using rev_ind; [exact B|]. clear IHa0.
  rewrite <- app_assoc. apply ascending_app; [exact A| |exact B].
  intros y Hy. specialize (LB y Hy). specialize (LA x0). rewrite in_app_iff in LA. specialize (LA (or_intror (or_introl eq_refl))). lia.
Qed.

Lemma spans_facts : forall ts lo l hi, spans ts lo l hi ->
  (forall k p, In (k, p) (flat_map leaves l) -> nth_error ts p = Some k /\ lo <= p < hi)
  /\ ascending (map snd (flat_map leaves l))
  /\ (forall a ch b, In (a, ch, b) (flat_map nodes l) ->
        a <= b /\ lo <= a /\ b <= hi
        /\ (forall k p, In (k, p) (flat_map leaves ch) -> a <= p < b)
        /\ (forall a' ch' b', In (a', ch', b') (flat_map nodes ch) -> a <= a' /\ b' <= b)).
Proof.
  intros ts lo l hi H. induction H as [lo hi L|lo k p r hi L N S0 IH|lo n a ch b r hi L S1 IH1 S2 IH2].
  - cbn. repeat split; contradiction.
  - destruct IH as (A & B & C). pose proof (spans_le _ _ _ _ S0). cbn [flat_map leaves nodes app map]. split; [|split].
    + intros k0 p0 [E|I0]; [injection E as <- <-; split; [exact N|lia]|]. destruct (A _ _ I0). split; [assumption|lia].
    + cbn [snd]. apply (ascending_glue (S p) [p]); [exact I|exact B|intros y [<-|[]]; lia|].
      intros y Hy. apply in_map_iff in Hy as ((k0, p0) & <- & Hy). destruct (A _ _ Hy). cbn. lia.
    + intros a ch b I0. destruct (C _ _ _ I0) as (C1 & C2 & C3 & C4). split; [lia|split; [lia|split; [lia|exact C4]]].
  - destruct IH1 as (A & B & C), IH2 as (A2 & B2 & C2).
    pose proof (spans_le _ _ _ _ S1). pose proof (spans_le _ _ _ _ S2). cbn [flat_map leaves nodes]. split; [|split].
    + intros k p I0. apply in_app_iff in I0 as [I0|I0].
      * destruct (A _ _ I0). split; [assumption|lia].
      * destruct (A2 _ _ I0). split; [assumption|lia].
    + rewrite map_app. apply (ascending_glue b); [exact B|exact B2| |].
      * intros y Hy. apply in_map_iff in Hy as ((k0, p0) & <- & Hy). destruct (A _ _ Hy). cbn. lia.
      * intros y Hy. apply in_map_iff in Hy as ((k0, p0) & <- & Hy). destruct (A2 _ _ Hy). cbn. lia.
    + intros a0 ch0 b0 I0. apply in_app_iff in I0 as [I0|I0].
      * cbn in I0. destruct I0 as [E|I0].
        -- injection E as <- <- <-. repeat split; try lia.
           ++ destruct (A _ _ H1). lia.
           ++ destruct (A _ _ H1). lia.
           ++ destruct (C _ _ _ H1) as (? & ? & ? & _). lia.
           ++ destruct (C _ _ _ H1) as (? & ? & ? & _). lia.
        -- destruct (C _ _ _ I0) as (C1 & C3 & C4 & C5). split; [lia|split; [lia|split; [lia|exact C5]]].
      * destruct (C2 _ _ _ I0) as (C1 & C3 & C4 & C5). split; [lia|split; [lia|split; [lia|exact C5]]].
Qed.

Lemma inFile_initial : forall ts, inFile ts (initial ts).
Proof. intros ts. exists []. repeat split. Qed.
Lemma inFile_pos : forall ts s, inFile ts s -> pos s <= List.length ts.
Proof. intros ts s (pre & A & B & C). rewrite A, app_length. lia. Qed.

Theorem parse_placed : forall rs f ts t ps, parseFile rs f ts = Some (Accepted t ps) -> wellPlaced ts t.
Proof.
  intros rs f ts t ps H. unfold parseFile in H.
  destruct (run rs f (rule n_start) (initial ts)) as [[t1 s1|s1]|] eqn:E; try discriminate.
  destruct (rest s1) eqn:R; [|discriminate]. injection H as <- _.
  pose proof (run_spans _ ts _ _ _ _ _ E (noEOF_rule n_start) (inFile_initial ts)) as S.
  assert (L : pos s1 <= List.length ts).
  { apply inFile_pos. eapply inFile_after; [apply inFile_initial|exact (run_after _ _ _ _ _ E)]. }
  pose proof (sp_node ts 0 n_start 0 t1 (pos s1) [] (pos s1) (le_n _) S (sp_nil _ _ _ (le_n _))) as S'.
  destruct (spans_facts _ _ _ _ S') as (A & B & C). cbn [flat_map] in A, B, C. rewrite app_nil_r in A, B, C.
  split; [|split].
  - intros k p I0. now destruct (A _ _ I0).
  - exact B.
  - intros a ch b I0. destruct (C _ _ _ I0) as (C1 & C2 & C3 & C4). split; [lia|exact C4].
Qed.
