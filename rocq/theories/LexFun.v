(** Proofs about single tokens, part 1: framework, strings, comments (proof file). *)
From Verif Require Export LexSpec2 LexRun3.
Open Scope nat_scope.

Lemma haltStep_same h t : h <> 4 -> fst (haltStep h t) = t.
Proof.
  intros Hh. unfold haltStep. destruct (Nat.eqb_spec h 0); [destruct t; reflexivity|].
  destruct (Nat.eqb_spec h 4); [contradiction|].
  destruct (isBlankOrComment t) eqn:E; [destruct t; reflexivity|].
  destruct h as [|[|[|[|?]]]]; destruct t; reflexivity.
Qed.

Section F.
Variable cc : CharClass.
Hypothesis OK : ascii_ok cc.
Variable content : qstring.

Lemma yields_intro l rest o :
  remaining content l = rest -> rest <> [] -> lx_halt l <> 4 ->
  handler cc (lx_st l) (lx_id l) (rev (firstn (lx_pos l) content)) rest = Some o ->
  o_len o <= S (List.length rest) ->
  exists l', yields cc content l (o_tok o) (firstn (o_len o) rest) (skipn (o_len o) rest) l' /\
    lx_st l' = o_st o /\ lx_id l' = o_id o /\ lx_halt l' = snd (haltStep (lx_halt l) (o_tok o)) /\
    lx_pos l' = lx_pos l + o_len o.
Proof.
  unfold remaining. intros Hr Hne Hh Ho Hl.
  assert (Hlt : lx_pos l < List.length content).
  { destruct (Nat.lt_ge_cases (lx_pos l) (List.length content)); auto.
    rewrite skipn_all2 in Hr by lia. congruence. }
  assert (Hlen : List.length rest = List.length content - lx_pos l) by (rewrite <- Hr; apply skipn_length).
  pose proof (haltStep_same (lx_halt l) (o_tok o) Hh) as Hk.
  destruct (haltStep (lx_halt l) (o_tok o)) as [tk h] eqn:Eh. cbn [fst snd] in *. subst tk.
  eexists. split.
  - unfold yields, nextToken. rewrite Hr, Ho.
    replace (List.length content <=? lx_pos l) with false by (symmetry; apply Nat.leb_gt; lia).
    replace (S (List.length content) <? lx_pos l + o_len o) with false by (symmetry; apply Nat.ltb_ge; lia).
    rewrite Eh. do 2 eexists. split; [reflexivity|]. split; [reflexivity|]. split.
    + rewrite (symbol_slice content _ (lx_pos l) (lx_pos l + o_len o)) by (cbn; auto; lia).
      rewrite Hr. f_equal. lia.
    + unfold remaining. cbn [lx_pos]. rewrite <- Hr. now rewrite skipn_add.
  - cbn. auto.
Qed.

Lemma at_facts m l rest : at_ cc content m l rest ->
  LInv cc content l /\ lx_halt l <> 4 /\ (exists r, lx_st l = m :: r) /\ remaining content l = rest.
Proof.
  intros [[l0 [Hi Hr]] [Hh [Hm Hrem]]]. split; [|auto].
  now apply (reachable_inv cc OK content l0).
Qed.

(** The PHP-mode handler is lexDefault. *)
Lemma php_yields l rest o :
  inPhp cc content l rest -> rest <> [] ->
  lexDefault cc (lx_st l) (lx_id l) (rev (firstn (lx_pos l) content)) rest = Some o ->
  o_len o <= S (List.length rest) ->
  exists l', yields cc content l (o_tok o) (firstn (o_len o) rest) (skipn (o_len o) rest) l' /\
    lx_st l' = o_st o /\ lx_id l' = o_id o /\ lx_halt l' = snd (haltStep (lx_halt l) (o_tok o)) /\
    lx_pos l' = lx_pos l + o_len o.
Proof.
  intros Hp Hne Ho Hl.
  destruct Hp as [Hp|Hp]; destruct (at_facts _ _ _ Hp) as [_ [Hh [[r Hs] Hr]]];
    eapply yields_intro; eauto; unfold handler; rewrite Hs in *; exact Ho.
Qed.

Lemma php_split l text tail k n nl st' id' :
  inPhp cc content l (text ++ tail) -> text <> [] ->
  lexDefault cc (lx_st l) (lx_id l) (rev (firstn (lx_pos l) content)) (text ++ tail)
    = Some {| o_tok := k; o_len := n; o_nl := nl; o_st := st'; o_id := id' |} ->
  n = List.length text \/ (n = S (List.length text) /\ tail = []) ->
  exists l', yields cc content l k text tail l' /\ lx_st l' = st' /\ lx_id l' = id' /\
    lx_halt l' = snd (haltStep (lx_halt l) k).
Proof.
  intros Hp Hne Ho Hn.
  destruct (php_yields l _ _ Hp ltac:(destruct text; [congruence|discriminate]) Ho) as [l' [HY [H1 [H2 [H3 H4]]]]].
  { cbn [o_len]. rewrite app_length. lia. }
  cbn [o_len o_tok o_st o_id] in *. exists l'. split; [|auto].
  destruct Hn as [-> | [-> ->]].
  - rewrite firstn_app, Nat.sub_diag, firstn_all, firstn_O, app_nil_r in HY.
    rewrite skipn_app, Nat.sub_diag, skipn_all in HY. exact HY.
  - rewrite app_nil_r in *. rewrite firstn_all2, skipn_all2 in HY by lia. exact HY.
Qed.

Lemma inPhp_inv l rest : inPhp cc content l rest -> LInv cc content l.
Proof. intros [H|H]; apply at_facts in H; tauto. Qed.

Lemma inPhp_state l rest : inPhp cc content l rest ->
  exists s r, lx_st l = s :: r /\ (s = DefaultState \/ s = StringVariableCurly).
Proof. intros [H|H]; apply at_facts in H; destruct H as [_ [_ [[r Hr] _]]]; eauto 6. Qed.

(** ** Skipping the tests in front of a punctuation character *)
Definition punct (c : N) : bool :=
  (c <? 128)%N && negb (asciiSpace c) && negb (asciiDigit c) && negb (c =? 36)%N && negb (c =? 46)%N.

Lemma punct_tests c r : punct c = true ->
  isSpace cc c = false /\ isDigit cc c = false /\ (c =? 46)%N = false /\ processVariable cc (c :: r) = Some None /\
  (c =? 36)%N = false.
Proof.
  unfold punct. rewrite !andb_true_iff, !negb_true_iff. intros [[[[H1 H2] H3] H4] H5].
  apply N.ltb_lt in H1. rewrite (ok_space _ OK), (ok_digit _ OK) by auto.
  repeat split; auto. unfold processVariable, isC, test. cbn. rewrite H4. reflexivity.
Qed.

(** ** Strings *)
Lemma sq_found body : quoted 39%N body -> forall before r i, oddBackslashes before = Some false ->
  1 <= i -> exists nl, sqLoop before (body ++ 39%N :: r) i = Some (i + List.length body, nl).
Proof.
  intros H. induction H as [|c s Hq Hb Hs IH|c s Hs IH]; intros before r i Ho Hi.
  - cbn [app sqLoop]. rewrite N.eqb_refl. unfold isEscaped.
    exists []. destruct (1 <? i); rewrite ?Ho; cbn; rewrite Nat.add_0_r; reflexivity.
  - cbn [app sqLoop]. apply N.eqb_neq in Hq. rewrite Hq. cbn [mAnd].
    destruct (IH (c :: before) r (S i)) as [nl E]; [|lia|].
    { cbn. apply N.eqb_neq in Hb. rewrite Hb. reflexivity. }
    rewrite E. eexists; cbn [List.length]; rewrite <- !Nat.add_succ_comm; reflexivity.
  - cbn [app sqLoop]. change (92 =? 39)%N with false. cbn [mAnd].
    unfold isEscaped at 1. replace (1 <? S i) with true by (symmetry; apply Nat.ltb_lt; lia).
    replace (oddBackslashes (92%N :: before)) with (Some true) by (cbn; rewrite Ho; reflexivity).
    cbn [mNot option_map negb].
    destruct (IH (c :: 92%N :: before) r (S (S i))) as [nl E]; [|lia|].
    { cbn. destruct (c =? 92)%N; rewrite ?Ho; reflexivity. }
    rewrite E. destruct (c =? 39)%N; eexists; cbn [List.length]; rewrite <- !Nat.add_succ_comm; reflexivity.
Qed.

Lemma sq_open n : forall it before i, List.length it <= n ->
  (forall body r, it = body ++ 39%N :: r -> ~ quoted 39%N body) ->
  oddBackslashes before = Some false ->
  1 <= i -> exists nl, sqLoop before it i = Some (i + List.length it, nl).
Proof.
  induction n as [|n IH]; intros it before i Hn H Ho Hi;
    (destruct it as [|c it]; [exists []; cbn; rewrite Nat.add_0_r; reflexivity|]).
  - cbn in Hn. lia.
  - cbn [List.length] in Hn. cbn [sqLoop].
    destruct (N.eqb_spec c 39) as [->|Hc].
    + exfalso. apply (H [] it); auto. constructor.
    + cbn [mAnd]. destruct (N.eqb_spec c 92) as [->|Hb].
      * destruct it as [|d it].
        -- exists []. cbn. rewrite Nat.add_1_r. reflexivity.
        -- cbn [sqLoop]. unfold isEscaped at 1. replace (1 <? S i) with true by (symmetry; apply Nat.ltb_lt; lia).
           replace (oddBackslashes (92%N :: before)) with (Some true) by (cbn; rewrite Ho; reflexivity).
           cbn [mNot option_map negb].
                  destruct (IH it (d :: 92%N :: before) (S (S i))) as [nl E]; [cbn in Hn; lia| | |lia|].
           { intros body r -> Hq. apply (H (92%N :: d :: body) r); auto. now constructor. }
           { cbn. destruct (d =? 92)%N; rewrite ?Ho; reflexivity. }
           rewrite E. destruct (d =? 39)%N; eexists; cbn [List.length]; rewrite <- !Nat.add_succ_comm; reflexivity.
      * destruct (IH it (c :: before) (S i)) as [nl E]; [lia| | |lia|].
        { intros body r -> Hq. apply (H (c :: body) r); auto. constructor; auto. }
        { cbn. apply N.eqb_neq in Hb. rewrite Hb. reflexivity. }
        rewrite E. eexists; cbn [List.length]; rewrite <- !Nat.add_succ_comm; reflexivity.
Qed.

Lemma lexDefault_sq s q id before r : s = DefaultState \/ s = StringVariableCurly ->
  lexDefault cc (s :: q) id before (39%N :: r) = lexSQ (s :: q) id before (39%N :: r).
Proof.
  intros _. unfold lexDefault. cbn [peek stateAt nth_error].
  destruct (punct_tests 39%N r eq_refl) as [-> [-> [-> [-> _]]]]. reflexivity.
Qed.
Lemma lexDefault_dq s q id before r : s = DefaultState \/ s = StringVariableCurly ->
  lexDefault cc (s :: q) id before (34%N :: r) = lexDQ cc (s :: q) id before (34%N :: r).
Proof.
  intros _. unfold lexDefault. cbn [peek stateAt nth_error].
  destruct (punct_tests 34%N r eq_refl) as [-> [-> [-> [-> _]]]]. reflexivity.
Qed.

Lemma single_closed l body r :
  inPhp cc content l (39%N :: body ++ 39%N :: r) -> quoted 39%N body ->
  exists l', yields cc content l T_CONSTANT_ENCAPSED_STRING (39%N :: body ++ [39%N]) r l' /\ lx_st l' = lx_st l.
Proof.
  intros Hp Hq. destruct (inPhp_state _ _ Hp) as [s [q [Hs Hm]]].
  destruct (sq_found body Hq (39%N :: rev (firstn (lx_pos l) content)) r 1) as [nl E]; [reflexivity|lia|].
  assert (E1 : 39%N :: body ++ 39%N :: r = (39%N :: body ++ [39%N]) ++ r) by (cbn; now rewrite <- app_assoc).
  rewrite E1 in Hp. edestruct php_split as [l' [HY [Hst _]]]; [exact Hp|discriminate| | |].
  - rewrite <- E1, Hs, lexDefault_sq by auto. unfold lexSQ. cbn [skipn]. rewrite E. reflexivity.
  - left. match goal with |- context [Nat.eqb ?a ?b] => destruct (Nat.eqb_spec a b) as [Hx|Hx] end;
      cbn in *; rewrite app_length in *; cbn in *; lia.
  - exists l'. split; [exact HY|congruence].
Qed.

Lemma single_open l r :
  inPhp cc content l (39%N :: r) -> (forall body r2, r = body ++ 39%N :: r2 -> ~ quoted 39%N body) ->
  exists l', yields cc content l T_CONSTANT_ENCAPSED_STRING (39%N :: r) [] l' /\ lx_st l' = lx_st l.
Proof.
  intros Hp Hq. destruct (inPhp_state _ _ Hp) as [s [q [Hs Hm]]].
  destruct (sq_open _ r (39%N :: rev (firstn (lx_pos l) content)) 1 (le_n _) Hq) as [nl E]; [reflexivity|lia|].
  rewrite <- (app_nil_r (39%N :: r)) in Hp.
  edestruct php_split as [l' [HY [Hst _]]]; [exact Hp|discriminate| | |].
  - rewrite app_nil_r, Hs, lexDefault_sq by auto. unfold lexSQ. cbn [skipn]. rewrite E. reflexivity.
  - left. change (1 + List.length r) with (List.length (39%N :: r)). rewrite Nat.eqb_refl. reflexivity.
  - exists l'. split; [exact HY|congruence].
Qed.

(** Double quotes *)
Definition varAt (c d : N) : bool := (c =? 36)%N && ((d =? 123)%N || isIdentStart cc d).

Lemma identStart_spec c : isIdentStart cc c = true <-> identStart cc c.
Proof.
  unfold isIdentStart, isIdent, identStart, identChar.
  rewrite andb_true_iff, !orb_true_iff, negb_true_iff, N.eqb_eq, N.ltb_lt. tauto.
Qed.
Lemma identChar_spec c : isIdent cc c = true <-> identChar cc c.
Proof. unfold isIdent, identChar. rewrite !orb_true_iff, N.eqb_eq, N.ltb_lt. tauto. Qed.

(** One step of the double-quote loop on an unescaped character. *)
Lemma dq_step c t before i : oddBackslashes before = Some false -> 1 <= i ->
  dqLoop cc before (c :: t) i =
    if (c =? 34)%N then Some (i, false)
    else if varAt c (hd 0%N t) then Some (i, true)
    else dqLoop cc (c :: before) t (S i).
Proof.
  intros Ho Hi. cbn [dqLoop]. unfold isEscaped.
  replace (if 1 <? i then oddBackslashes before else Some false) with (Some false) by (destruct (1 <? i); auto).
  destruct (c =? 34)%N; [reflexivity|]. cbn [mAnd mNot option_map negb].
  unfold varAt, isC, test. destruct (c =? 36)%N; [|reflexivity].
  destruct t as [|d t]; cbn [peek hd andb].
  - cbn. rewrite (isIdentStart_nul cc OK). reflexivity.
  - cbn. destruct (d =? 123)%N; [reflexivity|]. cbn. destruct (isIdentStart cc d); reflexivity.
Qed.
Lemma dq_pair d t before i : oddBackslashes before = Some false -> 1 <= i ->
  dqLoop cc before (92%N :: d :: t) i = dqLoop cc (d :: 92%N :: before) t (S (S i)).
Proof.
  intros Ho Hi. rewrite dq_step by auto. change (92 =? 34)%N with false.
  change (varAt 92 (hd 0%N (d :: t))) with false. cbv iota.
  cbn [dqLoop]. unfold isEscaped. replace (1 <? S i) with true by (symmetry; apply Nat.ltb_lt; lia).
  replace (oddBackslashes (92%N :: before)) with (Some true) by (cbn; rewrite Ho; reflexivity).
  cbn [mNot option_map negb]. destruct (d =? 34)%N, (d =? 36)%N; reflexivity.
Qed.
Lemma odd_step c before : c <> 92%N -> oddBackslashes (c :: before) = Some false.
Proof. intros H. cbn. apply N.eqb_neq in H. rewrite H. reflexivity. Qed.
Lemma odd_pair c before : oddBackslashes before = Some false -> oddBackslashes (c :: 92%N :: before) = Some false.
Proof. intros H. cbn. destruct (c =? 92)%N; rewrite ?H; reflexivity. Qed.

(** A variable start behind a quoted prefix that has none earlier. *)
Lemma dq_var a : quoted 34%N a -> forall c b before i, (c = 123%N \/ identStart cc c) ->
  oddBackslashes before = Some false -> 1 <= i ->
  exists j, dqLoop cc before (a ++ 36%N :: c :: b) i = Some (j, true).
Proof.
  intros H. induction H as [|x s Hq Hb Hs IH|x s Hs IH]; intros c b before i Hc Ho Hi.
  - cbn [app]. rewrite dq_step by auto. change (36 =? 34)%N with false. unfold varAt. cbn [hd].
    replace (_ && _) with true; [eauto|]. symmetry. cbn. destruct Hc as [->|Hc]; auto.
    apply identStart_spec in Hc. rewrite Hc. apply orb_true_r.
  - cbn [app]. rewrite dq_step by auto. apply N.eqb_neq in Hq. rewrite Hq.
    destruct (varAt x _); eauto. apply IH; auto using odd_step.
  - cbn [app]. rewrite dq_pair by auto. apply IH; auto using odd_pair.
Qed.

Lemma dq_closed body : quoted 34%N body -> forall r before i,
  ~ varStart cc 34%N body ->
  oddBackslashes before = Some false -> 1 <= i ->
  dqLoop cc before (body ++ 34%N :: r) i = Some (i + List.length body, false).
Proof.
  intros H. induction H as [|x s Hq Hb Hs IH|x s Hs IH]; intros r before i Hv Ho Hi.
  - cbn [app]. rewrite dq_step by auto. rewrite N.eqb_refl, Nat.add_0_r. reflexivity.
  - cbn [app]. rewrite dq_step by auto. apply N.eqb_neq in Hq. rewrite Hq. apply N.eqb_neq in Hq.
    replace (varAt x _) with false.
    + rewrite IH; [|intros [a [c [b [-> [Ha Hc]]]]]; apply Hv; exists (x :: a), c, b; repeat split; auto; now constructor|now apply odd_step|lia].
      cbn [List.length]. now rewrite <- Nat.add_succ_comm.
    + symmetry. unfold varAt. destruct (N.eqb_spec x 36) as [->|]; auto. cbn [andb].
      destruct s as [|d s]; cbn [app hd].
      * change (34 =? 123)%N with false. cbn.
        unfold isIdentStart, isIdent. rewrite (ok_letter _ OK), (ok_digit _ OK) by lia. reflexivity.
      * apply not_true_iff_false. intros HT. apply Hv. exists [], d, s. split; auto. split; [constructor|].
        apply orb_true_iff in HT. rewrite N.eqb_eq, identStart_spec in HT. exact HT.
  - cbn [app]. rewrite dq_pair by auto.
    rewrite IH; [|intros [a [c [b [-> [Ha Hc]]]]]; apply Hv; exists (92%N :: x :: a), c, b; repeat split; auto; now constructor|now apply odd_pair|lia].
    cbn [List.length]. now rewrite <- !Nat.add_succ_comm.
Qed.

Lemma dq_open n : forall it before i, List.length it <= n ->
  (forall body r, it = body ++ 34%N :: r -> ~ quoted 34%N body) -> ~ varStart cc 34%N it ->
  oddBackslashes before = Some false -> 1 <= i ->
  dqLoop cc before it i = Some (i + List.length it, false).
Proof.
  induction n as [|n IH]; intros it before i Hn Hb Hv Ho Hi;
    (destruct it as [|c it]; [cbn; now rewrite Nat.add_0_r|]); [cbn in Hn; lia|].
  cbn [List.length] in Hn.
  destruct (N.eqb_spec c 92) as [->|Hc].
  - destruct it as [|d it].
    + rewrite dq_step by auto. cbn. now rewrite Nat.add_1_r.
    + rewrite dq_pair by auto. cbn in Hn. rewrite IH; [cbn [List.length]; now rewrite <- !Nat.add_succ_comm|lia| | |now apply odd_pair|lia].
      * intros body r -> Hq. apply (Hb (92%N :: d :: body) r); auto. now constructor.
      * intros [a [c [b [-> [Ha Hx]]]]]; apply Hv; exists (92%N :: d :: a), c, b; repeat split; auto; now constructor.
  - rewrite dq_step by auto. destruct (N.eqb_spec c 34) as [->|H34].
    { exfalso. apply (Hb [] it); auto. constructor. }
    replace (varAt c (hd 0%N it)) with false.
    + rewrite IH; [cbn [List.length]; now rewrite <- !Nat.add_succ_comm|lia| | |now apply odd_step|lia].
      * intros body r -> Hq. apply (Hb (c :: body) r); auto. now constructor.
      * intros [a [c' [b [-> [Ha Hx]]]]]; apply Hv; exists (c :: a), c', b; repeat split; auto; now constructor.
    + symmetry. unfold varAt. destruct (N.eqb_spec c 36) as [->|]; auto. cbn [andb].
      destruct it as [|d it]; cbn [hd]; [cbn; apply (isIdentStart_nul cc OK)|].
      apply not_true_iff_false. intros HT. apply Hv. exists [], d, it. split; auto. split; [constructor|].
      apply orb_true_iff in HT. rewrite N.eqb_eq, identStart_spec in HT. exact HT.
Qed.

Lemma double_closed l body r :
  inPhp cc content l (34%N :: body ++ 34%N :: r) -> quoted 34%N body -> ~ varStart cc 34%N body ->
  exists l', yields cc content l T_CONSTANT_ENCAPSED_STRING (34%N :: body ++ [34%N]) r l' /\ lx_st l' = lx_st l.
Proof.
  intros Hp Hq Hv. destruct (inPhp_state _ _ Hp) as [s [q [Hs Hm]]].
  pose proof (dq_closed body Hq r (34%N :: rev (firstn (lx_pos l) content)) 1 Hv eq_refl (le_n _)) as E.
  assert (E1 : 34%N :: body ++ 34%N :: r = (34%N :: body ++ [34%N]) ++ r) by (cbn; now rewrite <- app_assoc).
  rewrite E1 in Hp. edestruct php_split as [l' [HY [Hst _]]]; [exact Hp|discriminate| | |].
  - rewrite <- E1, Hs, lexDefault_dq by auto. unfold lexDQ. cbn [skipn]. rewrite E. reflexivity.
  - left. match goal with |- context [Nat.eqb ?a ?b] => destruct (Nat.eqb_spec a b) as [Hx|Hx] end;
      cbn in *; rewrite app_length in *; cbn in *; lia.
  - exists l'. split; [exact HY|congruence].
Qed.

Lemma double_open l r :
  inPhp cc content l (34%N :: r) -> (forall body r2, r = body ++ 34%N :: r2 -> ~ quoted 34%N body) ->
  ~ varStart cc 34%N r ->
  exists l', yields cc content l T_CONSTANT_ENCAPSED_STRING (34%N :: r) [] l' /\ lx_st l' = lx_st l.
Proof.
  intros Hp Hq Hv. destruct (inPhp_state _ _ Hp) as [s [q [Hs Hm]]].
  pose proof (dq_open _ r (34%N :: rev (firstn (lx_pos l) content)) 1 (le_n _) Hq Hv eq_refl (le_n _)) as E.
  rewrite <- (app_nil_r (34%N :: r)) in Hp.
  edestruct php_split as [l' [HY [Hst _]]]; [exact Hp|discriminate| | |].
  - rewrite app_nil_r, Hs, lexDefault_dq by auto. unfold lexDQ. cbn [skipn]. rewrite E. reflexivity.
  - left. change (1 + List.length r) with (List.length (34%N :: r)). rewrite Nat.eqb_refl. cbn. lia.
  - exists l'. split; [exact HY|congruence].
Qed.

Lemma double_var l r :
  inPhp cc content l (34%N :: r) -> varStart cc 34%N r ->
  exists l', yields cc content l T_DOUBLE_QUOTE [34%N] r l' /\ lx_st l' = SString :: lx_st l.
Proof.
  intros Hp [a [c [b [-> [Ha Hc]]]]]. destruct (inPhp_state _ _ Hp) as [s [q [Hs Hm]]].
  destruct (dq_var a Ha c b (34%N :: rev (firstn (lx_pos l) content)) 1 Hc eq_refl (le_n _)) as [j E].
  edestruct (php_split l [34%N]) as [l' [HY [Hst _]]]; [exact Hp|discriminate| | |].
  - cbn [app]. rewrite Hs, lexDefault_dq by auto. unfold lexDQ. cbn [skipn]. rewrite E. reflexivity.
  - left. reflexivity.
  - exists l'. split; [exact HY|congruence].
Qed.
End F.
