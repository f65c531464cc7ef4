(** Proofs about single tokens, part 7: sequences of calls (proof file). *)
From Verif Require Export LexFun6.
Open Scope nat_scope.

Section F.
Variable cc : CharClass.
Hypothesis OK : ascii_ok cc.
Variable content : qstring.

Lemma halt_not4 h k : h <> 4 -> k <> T_SEMICOLON -> snd (haltStep h k) <> 4.
Proof.
  intros Hh Hk. destruct h as [|[|[|[|[|h]]]]]; try congruence; destruct k; try congruence; cbn; lia.
Qed.

Lemma at_next m l rest k text tail l' m' q :
  at_ cc content m l rest -> yields cc content l k text tail l' -> k <> T_EOF -> k <> T_SEMICOLON ->
  lx_st l' = m' :: q -> at_ cc content m' l' tail.
Proof.
  intros Hat [t [nl [HN [Hk [_ Hr]]]]] HE HS Hst. pose proof Hat as Hat'.
  apply (at_facts cc OK) in Hat' as [HI [Hh _]]. destruct Hat as [[l0 [Hi Hre]] _].
  destruct (handsOut_step cc OK content _ _ _ _ HI HN ltac:(congruence)) as [_ Hh'].
  split; [exists l0; split; auto; eapply reach_step; eauto|]. split.
  - rewrite Hh', Hk. now apply halt_not4.
  - split; [eauto|exact Hr].
Qed.

Lemma nowdoc_all l w id body s : let start := str "<<<" ++ w ++ [39%N] ++ id ++ [39%N; 10%N] in
  at_ cc content DefaultState l (start ++ body ++ s) ->
  hereBlanks w -> docIdent cc id -> ~ endsDoc id (body ++ s) -> nowdocBody id (body ++ s) body s ->
  exists l1 l2 l3, yields cc content l T_START_NOWDOC start (body ++ s) l1 /\
    yields cc content l1 T_STRING body s l2 /\
    yields cc content l2 T_END_NOWDOC id (skipn (List.length id) s) l3 /\ lx_st l3 = lx_st l.
Proof.
  intros start Hat Hw Hid HnE Hb.
  assert (Hne : body ++ s <> []) by (destruct Hb as [_ [_ [[b ->] _]]]; destruct b; discriminate).
  destruct (nowdoc_start cc OK content l w id (body ++ s)) as [l1 [Y1 [S1 I1]]]; auto.
  { unfold start in Hat. rewrite <- !app_assoc in Hat. exact Hat. }
  pose proof (at_next _ _ _ _ _ _ _ _ _ Hat Y1 ltac:(discriminate) ltac:(discriminate) S1) as A1.
  destruct (nowdoc_body cc OK content l1 id _ body s A1 I1 HnE Hb) as [l2 [Y2 [S2 I2]]].
  rewrite S1 in S2.
  pose proof (at_next _ _ _ _ _ _ _ _ _ A1 Y2 ltac:(discriminate) ltac:(discriminate) S2) as A2.
  destruct (nowdoc_end cc OK content l2 (lx_st l) id s A2 S2 I2) as [l3 [Y3 S3]].
  { destruct Hid as [[c [x [-> _]]] _]. discriminate. }
  { destruct Hb as [_ [HE _]]. exact HE. }
  exists l1, l2, l3. auto.
Qed.

Lemma nowdoc_empty l w id s : let start := str "<<<" ++ w ++ [39%N] ++ id ++ [39%N; 10%N] in
  at_ cc content DefaultState l (start ++ s) ->
  hereBlanks w -> docIdent cc id -> endsDoc id s ->
  exists l1 l2, yields cc content l T_START_NOWDOC start s l1 /\
    yields cc content l1 T_END_NOWDOC id (skipn (List.length id) s) l2 /\ lx_st l2 = lx_st l.
Proof.
  intros start Hat Hw Hid HE.
  assert (Hne : s <> []) by (destruct HE as [x [-> | ->]]; destruct id; discriminate).
  destruct (nowdoc_start cc OK content l w id s) as [l1 [Y1 [S1 I1]]]; auto.
  { unfold start in Hat. rewrite <- !app_assoc in Hat. exact Hat. }
  pose proof (at_next _ _ _ _ _ _ _ _ _ Hat Y1 ltac:(discriminate) ltac:(discriminate) S1) as A1.
  destruct (nowdoc_end cc OK content l1 (lx_st l) id s A1 S1 I1) as [l3 [Y3 S3]]; auto.
  { destruct Hid as [[c [x [-> _]]] _]. discriminate. }
  exists l1, l3. auto.
Qed.
Lemma nowdoc_open l w id r : let start := str "<<<" ++ w ++ [39%N] ++ id ++ [39%N; 10%N] in
  at_ cc content DefaultState l (start ++ r) ->
  hereBlanks w -> docIdent cc id -> r <> [] -> ~ endsDoc id r -> (forall b s, r = b ++ cNL :: s -> ~ endsDoc id s) ->
  exists l1 l2, yields cc content l T_START_NOWDOC start r l1 /\ yields cc content l1 T_STRING r [] l2.
Proof.
  intros start Hat Hw Hid Hne HnE Hn.
  destruct (nowdoc_start cc OK content l w id r) as [l1 [Y1 [S1 I1]]]; auto.
  { unfold start in Hat. rewrite <- !app_assoc in Hat. exact Hat. }
  pose proof (at_next _ _ _ _ _ _ _ _ _ Hat Y1 ltac:(discriminate) ltac:(discriminate) S1) as A1.
  destruct (nowdoc_unclosed cc OK content l1 id r A1 I1 Hne HnE Hn) as [l2 [Y2 _]].
  exists l1, l2. auto.
Qed.
End F.
