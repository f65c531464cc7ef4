(** Handlers, continued: comments, constant strings, names (proof file). *)
From Verif Require Export LexHandlers3.
From Coq Require Import Sorted.
Open Scope nat_scope.

Section H.
Variable cc : CharClass.
Hypothesis OK : ascii_ok cc.

Notation Inv := (Inv cc).
Notation Good := (Good cc).
Notation noNL s := (Forall (fun c => c <> 10%N) s).

Lemma starts3 it a b c : a <> 0%N -> b <> 0%N -> c <> 0%N ->
  isC it 0 a &&& isC it 1 b &&& isC it 2 c = Some (startsWith [a; b; c] it).
Proof.
  intros Ha Hb Hc. rewrite starts2 by auto.
  unfold isC, test. destruct it as [|x [|y [|z it]]]; cbn.
  - reflexivity.
  - destruct (a =? x)%N; reflexivity.
  - destruct (a =? x)%N; cbn; auto. destruct (b =? y)%N; cbn; auto.
    destruct c; [congruence|reflexivity].
  - rewrite (N.eqb_sym c z). destruct (a =? x)%N; cbn; auto. destruct (b =? y)%N; cbn; auto.
    now rewrite andb_true_r.
Qed.

Lemma lineComment_spec doc it : forall skip i,
  Forall (fun c => c <> 10%N) (firstn skip it) ->
  wp (lineComment cc doc skip it i) False (fun '(len, nl) =>
    exists n, len = i + n /\ n <= S (List.length it) /\ nl = newlinesFrom (firstn n it) i).
Proof.
  induction it as [|c t IH]; intros skip i Hs; cbn [lineComment].
  - exists 1. cbn. repeat split; auto; lia.
  - destruct skip as [|k].
    + set (close := Some _ &&& Some (c =? 63)%N &&& isC (c :: t) 1 62).
      assert (Hc : exists b, close = Some b).
      { unfold close, isC, test. destruct t; cbn; [eauto|]. destruct (c =? 63)%N; cbn; eauto. }
      destruct Hc as [b ->]. destruct b.
      { exists 0. cbn. repeat split; auto; lia. }
      destruct (N.eqb_spec c 10) as [->|Hc].
      * destruct (negb doc).
        { exists 1. cbn. repeat split; auto; lia. }
        destruct (skipWhile_spec (fun x => isSpace cc x && negb (x =? 10)%N) t (S i)) as [n [-> Hn]].
        rewrite starts3 by discriminate.
        destruct (startsWith [47%N; 47%N; 47%N] (skipn n t)) eqn:E.
        -- apply startsWith_spec in E as [r Er].
           replace (S i + n + 2 - S i) with (n + 2) by lia.
           specialize (IH (n + 2) (S i)).
           assert (Hf : noNL (firstn (n + 2) t)).
           { rewrite firstn_add, Er. cbn. apply Forall_app. split.
             - destruct Hn as [_ [Hf _]]. eapply Forall_impl; [|exact Hf].
               cbn. intros a Ha ->. rewrite andb_false_r in Ha. discriminate.
             - repeat constructor; discriminate. }
           specialize (IH Hf). destruct (lineComment cc doc (n + 2) t (S i)) as [[j nl]|]; cbn in *; auto.
           destruct IH as [m [-> [Hm ->]]]. exists (S m). repeat split; auto; lia.
        -- exists 1. cbn. repeat split; auto; lia.
      * specialize (IH 0 (S i)). cbn [firstn] in IH.
        destruct (lineComment cc doc 0 t (S i)) as [[j nl]|]; cbn in *; auto.
        destruct IH as [m [-> [Hm ->]]]; auto. exists (S m). cbn.
        apply N.eqb_neq in Hc. rewrite Hc. repeat split; auto; lia.
    + cbn [firstn] in Hs. inversion Hs as [|? ? Hc Hs']; subst.
      specialize (IH k (S i) Hs').
      destruct (lineComment cc doc k t (S i)) as [[j nl]|]; cbn in *; auto.
      destruct IH as [m [-> [Hm ->]]]; auto. exists (S m). cbn.
      apply N.eqb_neq in Hc. rewrite Hc. repeat split; auto; lia.
Qed.

Lemma lineComment_pos doc c t :
  c <> 63%N -> c <> 10%N ->
  wp (lineComment cc doc 0 (c :: t) 0) False (fun '(len, nl) =>
    0 < len <= S (S (List.length t)) /\ nl = newlinesFrom (firstn len (c :: t)) 0).
Proof.
  intros H1 H2. cbn [lineComment].
  apply N.eqb_neq in H1, H2. rewrite H1, H2.
  replace (Some match t with [] => false | _ :: _ => true end &&& Some false &&& isC (c :: t) 1 62)
    with (Some false) by (destruct t; reflexivity).
  pose proof (lineComment_spec doc t 0 1 (Forall_nil _)) as HL.
  destruct (lineComment cc doc 0 t 1) as [[j nl]|]; cbn [wp] in *; auto.
  destruct HL as [n [-> [Hn ->]]]. split; [lia|].
  cbn. now rewrite H2.
Qed.

Lemma blockLoop_spec it : forall i,
  wp (blockLoop it i) False (fun '(j, nl) =>
    exists n, j = i + n /\ n <= List.length it /\ nl = newlinesFrom (firstn n it) i /\
      ((exists r, skipn n it = [cSTAR; cSLASH] ++ r) \/ n = List.length it) /\
      (forall a b, it = a ++ [cSTAR; cSLASH] ++ b -> n <= List.length a)).
Proof.
  induction it as [|c t IH]; intros i; cbn [blockLoop].
  - exists 0. cbn. repeat split; auto; lia.
  - replace (Some (c =? 42)%N &&& isC (c :: t) 1 47) with (Some (startsWith [42%N; 47%N] (c :: t))).
    2: { rewrite <- starts2 by discriminate. reflexivity. }
    destruct (startsWith [42%N; 47%N] (c :: t)) eqn:E.
    + apply startsWith_spec in E as [r Er]. exists 0. cbn [firstn skipn newlinesFrom]. rewrite Er.
      repeat split; auto; try lia. left; eauto.
    + specialize (IH (S i)). destruct (blockLoop t (S i)) as [[j nl]|]; cbn [wp] in *; auto.
      destruct IH as [n [-> [Hn [-> [Hd Hm]]]]]. exists (S n).
      repeat split; auto; cbn [List.length]; try lia.
      * destruct Hd as [Hd|Hd]; [left; exact Hd|right; lia].
      * intros a b Hab. destruct a as [|x a].
        -- exfalso. cbn in Hab. rewrite Hab in E. discriminate.
        -- inversion Hab; subst. cbn. specialize (Hm a b eq_refl). lia.
Qed.

Lemma Good_over st id before it t n nl :
  Inv st id before it -> noNeed st -> 0 < n -> 
  (n <= S (List.length it) \/ (n = List.length it + 2 /\ openComment it)) ->
  (t = T_COMMENT \/ t = T_DOC_COMMENT) ->
  nl = newlinesFrom (firstn n it) 0 ->
  Good st id before it {| o_tok := t; o_len := n; o_nl := nl; o_st := st; o_id := id |}.
Proof.
  intros HI Hn Hl Ho Ht ->. constructor; proj; auto.
  - destruct Ho as [Ho|[Ho1 Ho2]]; auto.
  - apply Inv_keep; auto.
  - apply newlinesFrom_sorted.
  - apply Forall_forall. intros x Hx. apply newlinesFrom_range in Hx.
    rewrite firstn_length in Hx. lia.
  - intros ->. destruct Ht; discriminate.
Qed.

Lemma lexSlash_good st id before r :
  Inv st id before (cSLASH :: r) -> noNeed st ->
  wp (lexSlash cc st id (cSLASH :: r)) False (Good st id before (cSLASH :: r)).
Proof.
  intros HI Hn. unfold lexSlash.
  destruct r as [|c1 r].
  { cbn. apply Good_simple; auto; cbn; try lia; discriminate. }
  replace (isC (47 :: c1 :: r)%N 1 61) with (Some (c1 =? 61)%N) by reflexivity.
  replace (isC (47 :: c1 :: r)%N 1 47) with (Some (c1 =? 47)%N) by reflexivity.
  replace (isC (47 :: c1 :: r)%N 1 42) with (Some (c1 =? 42)%N) by reflexivity.
  destruct (N.eqb_spec c1 61) as [->|].
  { cbn. apply Good_simple; auto; cbn; try lia; discriminate. }
  destruct (N.eqb_spec c1 47) as [->|].
  { unfold isC, test. change (peek (47 :: 47 :: r)%N 2) with (peek r 0). rewrite peek0. cbn [option_map].
    set (doc := (hd 0%N r =? 47)%N).
    pose proof (lineComment_pos doc 47%N (47 :: r)%N ltac:(discriminate) ltac:(discriminate)) as HL.
    destruct (lineComment cc doc 0 (47 :: 47 :: r)%N 0) as [[j nl]|]; cbn [wp] in *; auto.
    destruct HL as [HL1 HL2]. apply Good_over; auto; try lia.
    - cbn [List.length] in *. lia.
    - destruct doc; auto. }
  destruct (N.eqb_spec c1 42) as [->|?].
  { assert (Hd : exists doc, isC (47 :: 42 :: r)%N 2 42 &&& test (47 :: 42 :: r)%N 3 (isSpace cc) = Some doc).
    { unfold isC, test. destruct r as [|x [|y r]]; cbn; eauto;
        destruct (x =? 42)%N; cbn; eauto. }
    destruct Hd as [doc ->].
    change (skipn 2 (47 :: 42 :: r)%N) with r.
    pose proof (blockLoop_spec r 2) as HL.
    destruct (blockLoop r 2) as [[j nl]|]; cbn [wp] in *; auto.
    destruct HL as [m [-> [Hl [-> [Hd Hm]]]]].
    apply Good_over; auto; try lia.
    - cbn [List.length]. destruct Hd as [[q Hq]|Hd].
      + left. assert (List.length (skipn m r) = 2 + List.length q) by (rewrite Hq; reflexivity).
        rewrite skipn_length in H. lia.
      + right. split; [lia|]. exists r. split; auto. intros a b Hab.
        specialize (Hm a b Hab). assert (List.length r = List.length a + (2 + List.length b))
          by (rewrite Hab, app_length; reflexivity). lia.
    - destruct doc; auto.
    - replace (2 + m + 2) with (S (S (m + 2))) by lia. cbn [firstn newlinesFrom].
      cbn. rewrite firstn_add, newlinesFrom_app.
      destruct Hd as [[q Hq]|Hd].
      + rewrite Hq. cbn. now rewrite app_nil_r.
      + rewrite skipn_all2 by lia. cbn. now rewrite app_nil_r. }
  cbn. apply Good_simple; auto; cbn; try lia; discriminate.
Qed.

Lemma lexHash_good st id before r :
  Inv st id before (cHASH :: r) -> noNeed st ->
  wp (lexHash cc st id (cHASH :: r)) False (Good st id before (cHASH :: r)).
Proof.
  intros HI Hn. unfold lexHash.
  pose proof (lineComment_pos false 35%N r ltac:(discriminate) ltac:(discriminate)) as HL.
  destruct (lineComment cc false 0 (35 :: r)%N 0) as [[j nl]|]; cbn [wp] in *; auto.
  destruct HL as [HL1 HL2]. apply Good_over; auto; try lia.
  cbn [List.length] in *. lia.
Qed.

(** Strings *)
Definition hasStop (before : list N) : Prop := exists c, In c before /\ c <> 92%N.

Lemma oddBackslashes_some before : hasStop before -> exists b, oddBackslashes before = Some b.
Proof.
  induction before as [|x t IH]; intros [c [Hc Hn]]; [destruct Hc|].
  cbn [oddBackslashes]. destruct (N.eqb_spec x 92) as [->|]; [|eauto].
  destruct Hc as [<-|Hc]; [congruence|]. destruct IH as [b ->]; [exists c; auto|]. cbn; eauto.
Qed.
Lemma isEscaped_some before gt : hasStop before -> exists b, isEscaped before gt = Some b.
Proof. intros H. unfold isEscaped. destruct gt; eauto using oddBackslashes_some. Qed.
Lemma hasStop_cons c before : hasStop before -> hasStop (c :: before).
Proof. intros [x [? ?]]. exists x. cbn; auto. Qed.

Lemma sqLoop_spec it : forall before i, hasStop before ->
  wp (sqLoop before it i) False (fun '(j, nl) =>
    exists n, j = i + n /\ n <= List.length it /\ nl = newlinesFrom (firstn n it) i /\
      (n < List.length it -> exists r, skipn n it = 39%N :: r)).
Proof.
  induction it as [|c t IH]; intros before i Hb; cbn [sqLoop].
  - exists 0. cbn. repeat split; auto; lia.
  - destruct (isEscaped_some before (1 <? i) Hb) as [e ->]. cbn [mNot option_map].
    assert (Hs : Some (c =? 39)%N &&& Some (negb e) = Some ((c =? 39)%N && negb e)).
    { destruct (c =? 39)%N; reflexivity. }
    rewrite Hs. destruct ((c =? 39)%N && negb e) eqn:E.
    + exists 0. cbn. repeat split; auto; try lia. intros _.
      apply andb_true_iff in E as [E _]. apply N.eqb_eq in E. subst. eauto.
    + specialize (IH (c :: before) (S i) (hasStop_cons c _ Hb)).
      destruct (sqLoop (c :: before) t (S i)) as [[j nl]|]; cbn [wp] in *; auto.
      destruct IH as [n [-> [Hn [-> Hd]]]]. exists (S n). cbn [List.length].
      repeat split; auto; try lia. intros Hlt. apply Hd. lia.
Qed.

Lemma lexSQ_good st id before r :
  Inv st id before (cSQ :: r) -> noNeed st ->
  wp (lexSQ st id before (cSQ :: r)) False (Good st id before (cSQ :: r)).
Proof.
  intros HI Hn. unfold lexSQ. change (skipn 1 (39%N :: r)) with r.
  pose proof (sqLoop_spec r (39%N :: before) 1) as HL.
  destruct (sqLoop (39%N :: before) r 1) as [[j nl]|]; cbn [wp] in *.
  2: { apply HL. exists 39%N. cbn; split; auto; discriminate. }
  destruct HL as [n [-> [Hl [-> Hd]]]]; [exists 39%N; cbn; split; auto; discriminate|].
  cbn [List.length]. destruct (Nat.eqb_spec (1 + n) (S (List.length r))).
  - apply Good_same; auto; cbn [List.length]; try lia; try discriminate.
  - destruct Hd as [q Hq]; [lia|].
    apply Good_same; auto; cbn [List.length]; try lia; try discriminate.
    change (firstn (S (1 + n)) (39%N :: r)) with (39%N :: firstn (S n) r).
    cbn [newlinesFrom]. change ((39 =? 10)%N) with false. cbv iota.
    replace (S n) with (n + 1) by lia.
    rewrite firstn_add, newlinesFrom_app, Hq. cbn. now rewrite app_nil_r.
Qed.

Lemma dqLoop_spec it : forall before i, hasStop before ->
  wp (dqLoop cc before it i) False (fun '(j, fv) =>
    exists n, j = i + n /\ n <= List.length it /\
      (fv = false -> n < List.length it -> exists r, skipn n it = 34%N :: r)).
Proof.
  induction it as [|c t IH]; intros before i Hb; cbn [dqLoop].
  - exists 0. cbn. repeat split; auto; lia.
  - destruct (isEscaped_some before (1 <? i) Hb) as [e ->]. cbn [mNot option_map].
    assert (Hs : Some (c =? 34)%N &&& Some (negb e) = Some ((c =? 34)%N && negb e)).
    { destruct (c =? 34)%N; reflexivity. }
    rewrite Hs. destruct ((c =? 34)%N && negb e) eqn:E.
    + exists 0. cbn. repeat split; auto; try lia. intros _ _.
      apply andb_true_iff in E as [E _]. apply N.eqb_eq in E. subst. eauto.
    + assert (Hv : exists b, Some (c =? 36)%N &&& Some (negb e)
         &&& (isC (c :: t) 1 123 ||| test (c :: t) 1 (isIdentStart cc)) = Some b).
      { unfold isC, test. change (peek (c :: t) 1) with (peek t 0). rewrite peek0. cbn [option_map].
        destruct (c =? 36)%N; cbn; eauto. destruct (negb e); cbn; eauto.
        destruct (hd 0 t =? 123)%N; cbn; eauto. }
      destruct Hv as [b ->]. destruct b.
      { exists 0. cbn. repeat split; auto; try lia; discriminate. }
      specialize (IH (c :: before) (S i) (hasStop_cons c _ Hb)).
      destruct (dqLoop cc (c :: before) t (S i)) as [[j fv]|]; cbn [wp] in *; auto.
      destruct IH as [n [-> [Hn Hd]]]. exists (S n). cbn [List.length].
      repeat split; auto; try lia. intros Hf Hlt. apply Hd; auto; lia.
Qed.

Lemma Good_dq st id before it n base :
  Inv st id before it -> noNeed st -> 0 < n <= List.length it ->
  n = List.length it -> base <= 1 ->
  Good st id before it {| o_tok := T_CONSTANT_ENCAPSED_STRING; o_len := n;
     o_nl := newlinesFrom (firstn (n - 1) (skipn 1 it)) 0; o_st := st; o_id := id |}.
Proof.
  intros HI Hn Hl He Hb. constructor; proj; auto; try lia; try discriminate.
  - apply Inv_keep; auto.
  - right. split; [unfold nlException; proj; auto|]. intros Hin. apply newlinesFrom_none.
    intros c Hc ->. apply Hin. destruct it as [|x it]; [cbn in Hl; lia|]. destruct n; [lia|].
    cbn [firstn]. right. cbn [skipn] in Hc. replace (S n - 1) with n in Hc by lia. exact Hc.
  - apply newlinesFrom_sorted.
  - apply Forall_forall. intros x Hx. apply newlinesFrom_range in Hx.
    rewrite firstn_length in Hx. lia.
Qed.

Lemma lexDQ_good st id before r :
  Inv st id before (cDQ :: r) -> 
  (topIs st DefaultState \/ topIs st StringVariableCurly) ->
  wp (lexDQ cc st id before (cDQ :: r)) False (Good st id before (cDQ :: r)).
Proof.
  intros HI Ht. unfold lexDQ. change (skipn 1 (34%N :: r)) with r.
  assert (Hn : noNeed st) by (intros s t E; destruct Ht as [[t' ->]|[t' ->]]; inversion E; reflexivity).
  pose proof (dqLoop_spec r (34%N :: before) 1) as HL.
  destruct (dqLoop cc (34%N :: before) r 1) as [[j fv]|]; cbn [wp] in *.
  2: { apply HL. exists 34%N. cbn; split; auto; discriminate. }
  destruct HL as [n [-> [Hl Hd]]]; [exists 34%N; cbn; split; auto; discriminate|].
  destruct fv; cbn [wp].
  - apply Good_newst; cbn [List.length]; try lia; try discriminate; auto.
    apply (Inv_push cc st id); auto.
    + pose proof (inv_wf _ _ _ _ _ HI) as Hw. destruct Ht as [[t' ->]|[t' ->]]; split; auto.
    + exists 34%N. cbn; split; auto; discriminate.
    + intros He. apply (inv_id _ _ _ _ _ HI). exact He.
    + apply (inv_idnl _ _ _ _ _ HI).
    + discriminate.
  - replace (1 + n - 1) with n by lia. cbn [List.length].
    destruct (Nat.eqb_spec (1 + n) (S (List.length r))).
    + assert (HG := Good_dq st id before (34%N :: r) (S n) 0 HI Hn).
      cbn [List.length skipn Nat.sub] in HG. rewrite Nat.sub_0_r in HG.
      cbn [Nat.add]. apply HG; lia.
    + destruct Hd as [q Hq]; auto; [lia|].
      apply Good_same; auto; cbn [List.length]; try lia; try discriminate.
      change (firstn (S (1 + n)) (34%N :: r)) with (34%N :: firstn (S n) r).
      cbn [newlinesFrom]. change ((34 =? 10)%N) with false. cbv iota.
      replace (S n) with (n + 1) by lia.
      rewrite firstn_add, newlinesFrom_app, Hq. cbn. now rewrite app_nil_r.
Qed.

(** Names *)
Lemma findKw_yield name : findKw cc name = Some KwYield -> map (foldCase cc) name = str "yield".
Proof.
  unfold findKw. intros H.
  destruct (find _ keywords) as [[k w]|] eqn:E; [|discriminate].
  cbn in H. inversion H; subst w. apply find_some in E as [Hin He].
  assert (Hk : k = str "yield").
  { unfold keywords in Hin. cbn [In] in Hin.
    repeat (destruct Hin as [Hin|Hin]; [inversion Hin; reflexivity|]). destruct Hin. }
  subst k. cbn [fst] in He. unfold eqsCI in He. apply eqs_eq in He. rewrite He.
  cbn. rewrite !(ok_fold _ OK) by lia. reflexivity.
Qed.

Lemma findKw_kwtok name t : findKw cc name = Some (KwTok t) -> t <> T_EOF.
Proof.
  unfold findKw. intros H.
  destruct (find _ keywords) as [[k w]|] eqn:E; [|discriminate].
  cbn in H. inversion H; subst w. apply find_some in E as [Hin He].
  unfold keywords in Hin. cbn [In] in Hin.
  repeat (destruct Hin as [Hin|Hin]; [inversion Hin; subst; discriminate|]). destruct Hin.
Qed.

Lemma lexIdent_good st id before c r :
  Inv st id before (c :: r) -> noNeed st -> isIdentStart cc c = true ->
  wp (lexIdent cc st id (c :: r)) (yieldNearEnd cc (c :: r)) (Good st id before (c :: r)).
Proof.
  intros HI Hn Hc. unfold lexIdent. set (it := c :: r) in *.
  destruct (skipWhile_spec (isIdent cc) it 0) as [n [-> Hs]].
  pose proof (scan_pos _ _ _ _ Hs (isIdentStart_ident cc _ Hc)) as Hp.
  pose proof (scan_nonl _ _ _ Hs (isIdent_nl cc OK)) as Hnl.
  assert (Hl : n <= List.length it) by apply Hs. cbn [Nat.add].
  assert (HS : forall t ub, t <> T_EOF -> wp (simple st id t n) ub (Good st id before it)).
  { intros t ub Ht. unfold simple; cbn [wp]. apply Good_simple; auto. }
  destruct (findKw cc (firstn n it)) as [[t| |]|] eqn:Ek.
  - apply HS. eapply findKw_kwtok; eauto.
  - destruct (skipWhile_spec (isSpace cc) (skipn n it) n) as [m [-> Hm]].
    destruct (skipn m (skipn n it)) as [|x la] eqn:Ela.
    + cbn [mAnd]. apply HS; discriminate.
    + unfold isC, test. change (peek (x :: la) 1) with (peek la 0). rewrite !peek0. cbn [option_map hd mAnd].
      destruct (x =? 58)%N; [destruct (hd 0 la =? 58)%N|]; apply HS; discriminate.
  - destruct (skipWhile_spec (isSpace cc) (skipn n it) n) as [m [-> Hm]].
    remember (skipn m (skipn n it)) as la eqn:Ela.
    assert (Hub : List.length la < 3 -> yieldNearEnd cc it).
    { intros Hlt. exists (firstn n it), (firstn m (skipn n it)), la. repeat split; auto.
      - rewrite Ela. now rewrite !firstn_skipn.
      - now apply findKw_yield.
      - apply forallb_forall. destruct Hm as [_ [Hf _]]. rewrite Forall_forall in Hf. exact Hf. }
    destruct la as [|a [|b [|d la]]]; try (cbn; apply Hub; cbn; lia).
    change (peek (a :: b :: d :: la) 0) with (Some a).
    change (peek (a :: b :: d :: la) 1) with (Some b).
    change (peek (a :: b :: d :: la) 2) with (Some d).
    change (peek (a :: b :: d :: la) 3) with (peek la 0). rewrite peek0.
    destruct ((4 <=? List.length (a :: b :: d :: la)) && eqs [a; b; d; hd 0%N la] (str "from")) eqn:Ef.
    + apply andb_true_iff in Ef as [Ef _]. apply Nat.leb_le in Ef.
      unfold simple; cbn [wp]. apply Good_exc; auto; try discriminate.
      assert (List.length (a :: b :: d :: la) = List.length it - n - m)
        by (rewrite Ela, !skipn_length; lia). lia.
    + apply HS; discriminate.
  - apply HS; discriminate.
Qed.
End H.
