(** Proofs about single tokens, part 2: comments (proof file). *)
From Verif Require Export LexFun.
Open Scope nat_scope.

Section F.
Variable cc : CharClass.
Hypothesis OK : ascii_ok cc.
Variable content : qstring.

(** ** Block comments *)
Lemma firstOcc_tail w c body tail s : firstOcc w (c :: s) (c :: body) tail -> firstOcc w s body tail.
Proof.
  intros [H1 H2]. split; [now injection H1|]. intros a b E.
  specialize (H2 (c :: a) b). cbn in H2. rewrite E in H2. specialize (H2 eq_refl). lia.
Qed.

Lemma block_found body : forall s tail i, firstOcc (str "*/") s body tail ->
  exists nl, blockLoop s i = Some (i + List.length body, nl).
Proof.
  induction body as [|c body IH]; intros s tail i H.
  - destruct H as [-> _]. cbn. rewrite Nat.add_0_r. eauto.
  - destruct s as [|c' s]; [destruct H as [H _]; discriminate|].
    assert (c' = c) by (destruct H as [H _]; now injection H). subst c'.
    pose proof (firstOcc_tail _ _ _ _ _ H) as H'.
    destruct (IH s tail (S i) H') as [nl E]. cbn [blockLoop].
    assert (Hs : Some (c =? 42)%N &&& isC (c :: s) 1 47%N = Some false).
    { destruct (N.eqb_spec c 42) as [->|]; [|reflexivity]. cbn [mAnd].
      destruct s as [|d s]; [destruct H' as [H' _]; destruct body; discriminate|].
      unfold isC, test. cbn. destruct (N.eqb_spec d 47) as [->|]; [|reflexivity].
      exfalso. destruct H as [_ H]. specialize (H [] s eq_refl). cbn in H. lia. }
    rewrite Hs, E. eexists. cbn [List.length]. rewrite <- Nat.add_succ_comm. reflexivity.
Qed.

Lemma block_open : forall s i, (forall a b, s <> a ++ str "*/" ++ b) ->
  exists nl, blockLoop s i = Some (i + List.length s, nl).
Proof.
  induction s as [|c s IH]; intros i H.
  - cbn. rewrite Nat.add_0_r. eauto.
  - cbn [blockLoop].
    assert (Hs : Some (c =? 42)%N &&& isC (c :: s) 1 47%N = Some false).
    { destruct (N.eqb_spec c 42) as [->|]; [|reflexivity]. cbn [mAnd].
      destruct s as [|d s]; [reflexivity|].
      unfold isC, test. cbn. destruct (N.eqb_spec d 47) as [->|]; [|reflexivity].
      exfalso. apply (H [] s). reflexivity. }
    destruct (IH (S i)) as [nl E]. { intros a b ->. apply (H (c :: a) b). reflexivity. }
    rewrite Hs, E. eexists. cbn [List.length]. rewrite <- Nat.add_succ_comm. reflexivity.
Qed.

Lemma lexDefault_slash s q id before r :
  lexDefault cc (s :: q) id before (47%N :: r) = lexSlash cc (s :: q) id (47%N :: r).
Proof.
  unfold lexDefault. cbn [peek stateAt nth_error].
  destruct (punct_tests cc OK 47%N r eq_refl) as [-> [-> [-> [-> _]]]]. reflexivity.
Qed.
Lemma lexDefault_hash s q id before r :
  lexDefault cc (s :: q) id before (35%N :: r) = lexHash cc (s :: q) id (35%N :: r).
Proof.
  unfold lexDefault. cbn [peek stateAt nth_error].
  destruct (punct_tests cc OK 35%N r eq_refl) as [-> [-> [-> [-> _]]]]. reflexivity.
Qed.

(** "/**" and a blank *)
Notation isDocBlock := (LexSpec2.isDocBlock cc).

Lemma docTest r : exists b, isC (47%N :: 42%N :: r) 2 42%N &&& test (47%N :: 42%N :: r) 3 (isSpace cc) = Some b /\
  (b = true <-> isDocBlock r).
Proof.
  unfold isC, test, isDocBlock. destruct r as [|a r]; cbn.
  - exists false. split; auto. split; [discriminate|intros [c [s [E _]]]; discriminate].
  - destruct (N.eqb_spec a 42) as [->|Ha]; cbn.
    + destruct r as [|c r]; cbn.
      * exists (isSpace cc 0%N). split; auto. rewrite (isSpace_nul cc OK). split; [discriminate|intros [c [s [E _]]]; discriminate].
      * exists (isSpace cc c). split; auto. split; [eauto|intros [c' [s [E H]]]; injection E as -> ->; auto].
    + exists false. split; auto. split; [discriminate|intros [c [s [E _]]]; congruence].
Qed.

Lemma block_closed l r body tail :
  inPhp cc content l (str "/*" ++ r) -> firstOcc (str "*/") r body tail ->
  exists l' k, yields cc content l k (str "/*" ++ body ++ str "*/") tail l' /\ lx_st l' = lx_st l /\
    ((k = T_DOC_COMMENT /\ isDocBlock r) \/ (k = T_COMMENT /\ ~ isDocBlock r)).
Proof.
  intros Hp Hf. destruct (inPhp_state _ OK _ _ _ Hp) as [s [q [Hs Hm]]].
  destruct (block_found body r tail 2 Hf) as [nl E].
  destruct (docTest r) as [b [Eb Hb]].
  assert (E1 : str "/*" ++ r = (str "/*" ++ body ++ str "*/") ++ tail)
    by (destruct Hf as [-> _]; now rewrite <- !app_assoc).
  rewrite E1 in Hp. edestruct php_split as [l' [HY [Hst _]]]; [exact OK|exact Hp|discriminate| | |].
  - rewrite <- E1, Hs. change (str "/*" ++ r) with (47%N :: 42%N :: r). rewrite lexDefault_slash. unfold lexSlash.
    change (isC (47%N :: 42%N :: r) 1 61%N) with (Some false).
    change (isC (47%N :: 42%N :: r) 1 47%N) with (Some false).
    change (isC (47%N :: 42%N :: r) 1 42%N) with (Some true). cbv iota. rewrite Eb.
    change (skipn 2 (47%N :: 42%N :: r)) with r. rewrite E. reflexivity.
  - left. cbn. rewrite !app_length. cbn. lia.
  - exists l', (if b then T_DOC_COMMENT else T_COMMENT). split; [exact HY|]. split; [congruence|].
    destruct b; [left|right]; split; auto; [now apply Hb|]. intros H. apply Hb in H. discriminate.
Qed.

Lemma block_unclosed l r :
  inPhp cc content l (str "/*" ++ r) -> (forall a b, r <> a ++ str "*/" ++ b) ->
  exists l' t nl, nextToken cc content l = Some (l', t, nl) /\ t_kind t = T_EOF.
Proof.
  intros Hp Hf. destruct (inPhp_state _ OK _ _ _ Hp) as [s [q [Hs Hm]]].
  destruct (block_open r 2 Hf) as [nl E]. destruct (docTest r) as [b [Eb _]].
  assert (Hr : remaining content l = str "/*" ++ r) by (destruct Hp as [Hp|Hp]; now apply (at_facts cc OK content) in Hp).
  assert (Hh : handler cc (lx_st l) (lx_id l) (rev (firstn (lx_pos l) content)) (str "/*" ++ r) =
     Some {| o_tok := if b then T_DOC_COMMENT else T_COMMENT; o_len := 2 + List.length r + 2; o_nl := nl;
            o_st := lx_st l; o_id := lx_id l |}).
  { unfold handler. rewrite Hs. cbn [stateAt nth_error].
    assert (HD : lexDefault cc (s :: q) (lx_id l) (rev (firstn (lx_pos l) content)) (str "/*" ++ r) =
       Some {| o_tok := if b then T_DOC_COMMENT else T_COMMENT; o_len := 2 + List.length r + 2; o_nl := nl;
            o_st := s :: q; o_id := lx_id l |}).
    { change (str "/*" ++ r) with (47%N :: 42%N :: r). rewrite lexDefault_slash. unfold lexSlash.
      change (isC (47%N :: 42%N :: r) 1 61%N) with (Some false).
      change (isC (47%N :: 42%N :: r) 1 47%N) with (Some false).
      change (isC (47%N :: 42%N :: r) 1 42%N) with (Some true). cbv iota. rewrite Eb.
      change (skipn 2 (47%N :: 42%N :: r)) with r. rewrite E. reflexivity. }
    destruct Hm as [-> | ->]; exact HD. }
  unfold nextToken. unfold remaining in Hr. rewrite Hr, Hh.
  assert (Hlen : List.length content - lx_pos l = 2 + List.length r)
    by (rewrite <- skipn_length, Hr; reflexivity).
  replace (List.length content <=? lx_pos l) with false by (symmetry; apply Nat.leb_gt; lia).
  cbn [o_len]. replace (S (List.length content) <? lx_pos l + (2 + List.length r + 2)) with true by (symmetry; apply Nat.ltb_lt; lia).
  do 3 eexists. split; reflexivity.
Qed.

(** ** Line comments *)
Lemma oneLine_tail c s : oneLine (c :: s) -> c <> 10%N /\ oneLine s.
Proof.
  intros [H1 H2]. split; [intros ->; apply H1; now left|]. split.
  - intros H. apply H1. now right.
  - intros [a [b ->]]. apply H2. exists (c :: a), b. reflexivity.
Qed.

Lemma line_skip doc s : forall x i, oneLine s -> hd 0%N x <> 62%N ->
  lineComment cc doc 0 (s ++ x) i = lineComment cc doc 0 x (i + List.length s).
Proof.
  induction s as [|c s IH]; intros x i Hs Hx; [cbn; now rewrite Nat.add_0_r|].
  destruct (oneLine_tail _ _ Hs) as [Hc Hs']. cbn [app lineComment].
  assert (Hcl : Some match s ++ x with [] => false | _ :: _ => true end &&& Some (c =? 63)%N &&& isC (c :: s ++ x) 1 62%N = Some false).
  { destruct (s ++ x) as [|d t] eqn:E; [reflexivity|]. cbn [mAnd].
    destruct (N.eqb_spec c 63) as [->|]; [|reflexivity]. unfold isC, test. cbn.
    destruct (N.eqb_spec d 62) as [->|]; [|reflexivity]. exfalso.
    destruct s as [|d' s]; cbn in E; [subst x; apply Hx; reflexivity|].
    injection E as -> _. destruct Hs as [_ Hs]. apply Hs. exists [], s. reflexivity. }
  rewrite Hcl. apply N.eqb_neq in Hc. rewrite Hc. rewrite IH by auto. cbn [List.length]. f_equal. lia.
Qed.

Lemma line_close doc r i : lineComment cc doc 0 (str "?>" ++ r) i = Some (i, []).
Proof. reflexivity. Qed.
Lemma line_nl r i : lineComment cc false 0 (10%N :: r) i = Some (S i, [i]).
Proof. destruct r; reflexivity. Qed.

Lemma line_spec s text tail i : lineEnd s text tail ->
  exists n nl, lineComment cc false 0 s i = Some (i + n, nl) /\ (n = List.length text \/ (n = S (List.length text) /\ tail = [])) /\ s = text ++ tail.
Proof.
  intros H. destruct H as [s H|s r H|s r H].
  - pose proof (line_skip false s [] i H ltac:(discriminate)) as E. rewrite app_nil_r in E. rewrite E. cbn.
    exists (S (List.length s)). eexists. rewrite Nat.add_succ_r. repeat split; auto. now rewrite app_nil_r.
  - rewrite line_skip by (auto; discriminate). rewrite line_close. do 2 eexists; repeat split; auto.
  - rewrite line_skip by (auto; discriminate). rewrite line_nl. exists (S (List.length s)). eexists.
    rewrite Nat.add_succ_r. repeat split; [left; rewrite app_length; cbn; lia|now rewrite <- app_assoc].
Qed.

Lemma lineEnd_cons c s text tail : lineEnd s text tail ->
  (forall x, (exists y, s = x ++ y) -> oneLine x -> oneLine (c :: x)) ->
  exists text' tail', lineEnd (c :: s) text' tail'.
Proof.
  intros H HL. destruct H as [s H|s r H|s r H].
  - do 2 eexists. apply (le_eof (c :: s)). apply HL; auto. exists []. now rewrite app_nil_r.
  - do 2 eexists. apply (le_close (c :: s)). apply HL; eauto.
  - do 2 eexists. apply (le_nl (c :: s)). apply HL; eauto.
Qed.

Lemma lineEnd_total s : exists text tail, lineEnd s text tail.
Proof.
  induction s as [|c s IH].
  - exists [], []. constructor. split; [auto|]. intros [a [b H]]. destruct a; discriminate.
  - destruct (N.eqb_spec c 10) as [->|Hc].
    { exists ([] ++ [10%N]), s. apply (le_nl [] s). split; [auto|]. intros [a [b H]]. destruct a; discriminate. }
    destruct (N.eqb_spec c 63) as [->|Hq].
    + destruct s as [|d s].
      * exists [63%N], []. constructor. split; [intros [H|[]]; discriminate|]. intros [a [b H]]. destruct a as [|? [|? ?]]; discriminate.
      * destruct (N.eqb_spec d 62) as [->|Hd].
        { exists [], (str "?>" ++ s). apply (le_close [] s). split; [auto|]. intros [a [b H]]. destruct a; discriminate. }
        destruct IH as [text [tail H]].
        assert (HL : forall x, (exists y, d :: s = x ++ y) -> oneLine x -> oneLine (63%N :: x)).
        { intros x [y Ey] [H1 H2]. split; [intros [E|E]; [discriminate|auto]|].
          intros [a [b E]]. destruct a as [|a0 a]; cbn in E; injection E as E; [|apply H2; exists a, b; auto].
          subst x. cbn in Ey. injection Ey as Ed _. congruence. }
        eapply lineEnd_cons; eauto.
    + assert (HL : forall x, oneLine x -> oneLine (c :: x)).
      { intros x [H1 H2]. split; [intros [E|E]; [congruence|auto]|].
        intros [a [b E]]. destruct a as [|a0 a]; cbn in E; injection E as E; [congruence|apply H2; exists a, b; auto]. }
      destruct IH as [text [tail H]]. eapply lineEnd_cons; eauto.
Qed.

Lemma skip_n doc a : forall x i, lineComment cc doc (List.length a) (a ++ x) i = lineComment cc doc 0 x (i + List.length a).
Proof.
  induction a as [|c a IH]; intros x i; cbn [List.length app]; [now rewrite Nat.add_0_r|].
  cbn [lineComment]. rewrite IH. f_equal. lia.
Qed.

Lemma skipWhile_app p w x i : Forall (fun c => p c = true) w -> (forall c s, x = c :: s -> p c = false) ->
  skipWhile p (w ++ x) i = (i + List.length w, x).
Proof.
  intros Hw Hx. revert i; induction Hw as [|c w Hc Hw IH]; intros i.
  - cbn. rewrite Nat.add_0_r. destruct x as [|c x]; auto. cbn. rewrite (Hx c x) by auto. reflexivity.
  - cbn. rewrite Hc, IH. f_equal. lia.
Qed.

Lemma skipWhile_split p s i : exists w x, s = w ++ x /\ Forall (fun c => p c = true) w /\
  (forall c y, x = c :: y -> p c = false) /\ skipWhile p s i = (i + List.length w, x).
Proof.
  revert i; induction s as [|c s IH]; intros i.
  - exists [], []. cbn. rewrite Nat.add_0_r. repeat split; auto. discriminate.
  - cbn. destruct (p c) eqn:E.
    + destruct (IH (S i)) as [w [x [-> [H1 [H2 H3]]]]]. exists (c :: w), x. rewrite H3. repeat split; auto.
      cbn. f_equal. lia.
    + exists [], (c :: s). cbn. rewrite Nat.add_0_r. repeat split; auto. intros c' y E2. injection E2 as <- <-. exact E.
Qed.

Lemma isSpace_slash : isSpace cc 47%N = false.
Proof. rewrite (ok_space _ OK) by lia. reflexivity. Qed.

Lemma doc_nl r i : (~ nextIsDoc cc r -> lineComment cc true 0 (10%N :: r) i = Some (S i, [i])) /\
  (forall w x, r = w ++ str "///" ++ x -> lineBlanks cc w ->
     lineComment cc true 0 (10%N :: r) i =
     (match lineComment cc true 0 (47%N :: x) (i + 3 + List.length w) with
      | Some (j, nl) => Some (j, i :: nl) | None => None end)).
Proof.
  assert (E : lineComment cc true 0 (10%N :: r) i =
     let '(p, it2) := skipWhile (fun x => isSpace cc x && negb (x =? 10)%N) r (S i) in
     match (isC it2 0 47%N &&& isC it2 1 47%N &&& isC it2 2 47%N) with
     | Some true => match lineComment cc true (p + 2 - S i) r (S i) with Some (j, nl) => Some (j, i :: nl) | None => None end
     | Some false => Some (S i, [i])
     | None => None end).
  { cbn [lineComment]. destruct r; [reflexivity|].
    change (Some true &&& Some (10 =? 63)%N &&& isC (10%N :: n :: r) 1 62%N) with (Some false). cbv iota.
    change (10 =? 10)%N with true. cbn [negb].
    destruct (skipWhile _ (n :: r) (S i)) as [p it2].
    destruct (isC it2 0 47%N &&& isC it2 1 47%N &&& isC it2 2 47%N) as [[]|]; reflexivity. }
  rewrite E. split.
  - intros Hn.
    destruct (skipWhile_split (fun x => isSpace cc x && negb (x =? 10)%N) r (S i)) as [w [x [-> [Hw [Hx ->]]]]].
    assert (HM : exists b, isC x 0 47%N &&& isC x 1 47%N &&& isC x 2 47%N = Some b /\ (b = true -> exists y, x = str "///" ++ y)).
    { unfold isC, test. destruct x as [|a x]; cbn; [eauto|].
      - exists false; split; auto; discriminate.
      - destruct (N.eqb_spec a 47) as [->|]; cbn; [|exists false; split; auto; discriminate].
        destruct x as [|b x]; cbn; [exists false; split; auto; discriminate|].
        destruct (N.eqb_spec b 47) as [->|]; cbn; [|exists false; split; auto; discriminate].
        destruct x as [|c x]; cbn; [exists false; split; auto; discriminate|].
        destruct (N.eqb_spec c 47) as [->|]; [|exists false; split; auto; discriminate].
        exists true. split; auto. intros _. exists x. reflexivity. }
    destruct HM as [b [-> Hb]]. destruct b; [|reflexivity].
    destruct (Hb eq_refl) as [y ->]. exfalso. apply Hn. exists w, y. split; auto.
    eapply Forall_impl; [|exact Hw]. cbn. intros a Ha. apply andb_true_iff in Ha. destruct Ha as [H1 H2].
    split; auto. apply negb_true_iff, N.eqb_neq in H2. exact H2.
  - intros w x -> Hw.
    rewrite (skipWhile_app _ w (str "///" ++ x)); [| |intros c s Ec; injection Ec as <- _; cbn; now rewrite isSpace_slash].
    + change (isC (str "///" ++ x) 0 47%N &&& isC (str "///" ++ x) 1 47%N &&& isC (str "///" ++ x) 2 47%N) with (Some true).
      cbv iota. replace (S i + List.length w + 2 - S i) with (List.length (w ++ [47%N; 47%N])) by (rewrite app_length; cbn; lia).
      replace (w ++ str "///" ++ x) with ((w ++ [47%N; 47%N]) ++ 47%N :: x) by (rewrite <- app_assoc; reflexivity).
      rewrite skip_n, app_length. cbn [List.length].
      replace (S i + (List.length w + 2)) with (i + 3 + List.length w) by lia. reflexivity.
    + eapply Forall_impl; [|exact Hw]. cbn. intros a [H1 H2]. rewrite H1. apply N.eqb_neq in H2. rewrite H2. reflexivity.
Qed.

Lemma doc_spec s text tail : docEnd cc s text tail -> forall i,
  exists n nl, lineComment cc true 0 s i = Some (i + n, nl) /\ (n = List.length text \/ (n = S (List.length text) /\ tail = [])) /\ s = text ++ tail.
Proof.
  intros H. induction H as [s H|s r H|s r H Hn|s w rest text tail H Hw Hd IH]; intros i.
  - pose proof (line_skip true s [] i H ltac:(discriminate)) as E. rewrite app_nil_r in E. rewrite E. cbn.
    exists (S (List.length s)). eexists. rewrite Nat.add_succ_r. repeat split; auto. now rewrite app_nil_r.
  - rewrite line_skip by (auto; discriminate). rewrite line_close. do 2 eexists; repeat split; auto.
  - rewrite line_skip by (auto; discriminate). destruct (doc_nl r (i + List.length s)) as [-> _]; auto.
    exists (S (List.length s)). eexists.
    rewrite Nat.add_succ_r. repeat split; [left; rewrite app_length; cbn; lia|now rewrite <- app_assoc].
  - rewrite line_skip by (auto; discriminate).
    destruct (doc_nl (w ++ str "///" ++ rest) (i + List.length s)) as [_ HM]. rewrite (HM w rest) by auto.
    destruct (IH (i + List.length s + 3 + List.length w)) as [n [nl [E [Hn Hs]]]]. rewrite E.
    exists (List.length s + 3 + List.length w + n). eexists. split; [f_equal; f_equal; lia|].
    rewrite app_length. cbn [List.length]. rewrite !app_length. cbn [List.length].
    split; [clear -Hn; change (List.length (str "//")) with 2; destruct Hn as [->|[-> ->]]; [left|right; split; auto]; lia|].
    change (w ++ str "///" ++ rest) with (w ++ str "//" ++ 47%N :: rest). rewrite Hs, <- !app_assoc. cbn [app]. rewrite <- !app_assoc. reflexivity.
Qed.

Lemma nextIsDoc_dec r : nextIsDoc cc r \/ ~ nextIsDoc cc r.
Proof.
  destruct (skipWhile_split (fun x => isSpace cc x && negb (x =? 10)%N) r 0) as [w [x [-> [Hw [Hx _]]]]].
  destruct (startsWith (str "///") x) eqn:E.
  - left. apply startsWith_spec in E. destruct E as [t ->]. exists w, t. split; auto.
    eapply Forall_impl; [|exact Hw]. cbn. intros a Ha. apply andb_true_iff in Ha. destruct Ha as [H1 H2].
    split; auto. apply negb_true_iff, N.eqb_neq in H2. exact H2.
  - right. intros [w' [y [E2 Hw']]].
    assert (Hw'' : Forall (fun c => (isSpace cc c && negb (c =? 10)%N) = true) w').
    { eapply Forall_impl; [|exact Hw']. cbn. intros a [H1 H2]. rewrite H1. apply N.eqb_neq in H2. rewrite H2. reflexivity. }
    assert (Hs1 := skipWhile_app (fun x => isSpace cc x && negb (x =? 10)%N) w x 0 Hw Hx).
    assert (Hs2 := skipWhile_app (fun x => isSpace cc x && negb (x =? 10)%N) w' (str "///" ++ y) 0 Hw'').
    rewrite E2, Hs2 in Hs1.
    + injection Hs1 as _ <-. discriminate E.
    + intros c s Ec. injection Ec as <- _. now rewrite isSpace_slash.
Qed.

Lemma docEnd_total n : forall s, List.length s <= n -> exists text tail, docEnd cc s text tail.
Proof.
  induction n as [|n IH]; intros s Hn.
  - destruct s; [|cbn in Hn; lia]. exists [], []. constructor. split; [auto|]. intros [a [b H]]. destruct a; discriminate.
  - destruct (lineEnd_total s) as [text [tail H]]. destruct H as [s H|s r H|s r H].
    + exists s, []. now constructor.
    + exists s, (str "?>" ++ r). now constructor.
    + destruct (nextIsDoc_dec r) as [[w [x [-> Hw]]]|Hno].
      * destruct (IH (47%N :: x)) as [text [tail HD]].
        { rewrite app_length in Hn. cbn in Hn. rewrite app_length in Hn. cbn in *. lia. }
        do 2 eexists. apply de_more; eauto.
      * do 2 eexists. apply de_nl; eauto.
Qed.

Lemma line_hash l r text tail :
  inPhp cc content l (35%N :: r) -> lineEnd (35%N :: r) text tail ->
  exists l', yields cc content l T_COMMENT text tail l' /\ lx_st l' = lx_st l.
Proof.
  intros Hp HL. destruct (inPhp_state _ OK _ _ _ Hp) as [s [q [Hs Hm]]].
  destruct (line_spec _ _ _ 0 HL) as [n [nl [E [Hn E1]]]].
  assert (Hne : text <> []).
  { intros ->. inversion HL; subst; try (destruct s0; discriminate); discriminate. }
  assert (E2 := E1). rewrite E1 in Hp. edestruct php_split as [l' [HY [Hst _]]]; [exact OK|exact Hp|exact Hne| | |].
  - rewrite <- E1, Hs, lexDefault_hash. unfold lexHash. rewrite E. reflexivity.
  - exact Hn.
  - exists l'. split; [exact HY|congruence].
Qed.

Lemma line_slashes l r text tail :
  inPhp cc content l (str "//" ++ r) -> (forall x, r <> 47%N :: x) -> lineEnd (str "//" ++ r) text tail ->
  exists l', yields cc content l T_COMMENT text tail l' /\ lx_st l' = lx_st l.
Proof.
  intros Hp Hr HL. destruct (inPhp_state _ OK _ _ _ Hp) as [s [q [Hs Hm]]].
  destruct (line_spec _ _ _ 0 HL) as [n [nl [E [Hn E1]]]].
  assert (Hne : text <> []).
  { intros ->. inversion HL; subst; try (destruct s0; discriminate); discriminate. }
  assert (E2 := E1). rewrite E1 in Hp. edestruct php_split as [l' [HY [Hst _]]]; [exact OK|exact Hp|exact Hne| | |].
  - rewrite <- E1, Hs. change (str "//" ++ r) with (47%N :: 47%N :: r) in *. rewrite lexDefault_slash. unfold lexSlash.
    change (isC (47%N :: 47%N :: r) 1 61%N) with (Some false).
    change (isC (47%N :: 47%N :: r) 1 47%N) with (Some true). cbv iota.
    assert (Hd : isC (47%N :: 47%N :: r) 2 47%N = Some false).
    { destruct r as [|c r]; [reflexivity|]. unfold isC, test. cbn. destruct (N.eqb_spec c 47) as [->|]; auto. now destruct (Hr r). }
    rewrite Hd, E. reflexivity.
  - exact Hn.
  - exists l'. split; [exact HY|congruence].
Qed.

Lemma doc_slashes l r text tail :
  inPhp cc content l (str "///" ++ r) -> docEnd cc (str "///" ++ r) text tail ->
  exists l', yields cc content l T_DOC_COMMENT text tail l' /\ lx_st l' = lx_st l.
Proof.
  intros Hp HL. destruct (inPhp_state _ OK _ _ _ Hp) as [s [q [Hs Hm]]].
  destruct (doc_spec _ _ _ HL 0) as [n [nl [E [Hn E1]]]].
  assert (Hne : text <> []).
  { intros ->. inversion HL; subst; try (destruct s0; discriminate); discriminate. }
  assert (E2 := E1). rewrite E1 in Hp. edestruct php_split as [l' [HY [Hst _]]]; [exact OK|exact Hp|exact Hne| | |].
  - rewrite <- E1, Hs. change (str "///" ++ r) with (47%N :: 47%N :: 47%N :: r) in *. rewrite lexDefault_slash. unfold lexSlash.
    change (isC (47%N :: 47%N :: 47%N :: r) 1 61%N) with (Some false).
    change (isC (47%N :: 47%N :: 47%N :: r) 1 47%N) with (Some true). cbv iota.
    change (isC (47%N :: 47%N :: 47%N :: r) 2 47%N) with (Some true). cbv iota.
    rewrite E. reflexivity.
  - exact Hn.
  - exists l'. split; [exact HY|congruence].
Qed.
End F.
