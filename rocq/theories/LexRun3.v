(** Line table, reachable states and the closed statements for C01-C06 (proof file). *)
From Verif Require Export LexRun2.
Open Scope nat_scope.

Lemma nlOffsets_newlines s : nlOffsets s = newlinesFrom s 0.
Proof.
  induction s as [|c s IH] using rev_ind; auto.
  unfold nlOffsets in *. rewrite app_length, seq_app, filter_app. cbn [List.length seq filter Nat.add].
  rewrite newlinesFrom_app. cbn [newlinesFrom Nat.add].
  replace (filter (isNL (s ++ [c])) (seq 0 (List.length s))) with (filter (isNL s) (seq 0 (List.length s))).
  - rewrite IH. f_equal. unfold isNL. rewrite nth_error_app2 by lia. rewrite Nat.sub_diag. reflexivity.
  - apply filter_ext_in. intros i Hi. apply in_seq in Hi. unfold isNL.
    rewrite nth_error_app1 by lia. reflexivity.
Qed.

Section R.
Variable cc : CharClass.
Hypothesis OK : ascii_ok cc.
Variable content : list N.
Notation size := (List.length content).

Lemma SS_app l1 l2 b : StronglySorted lt l1 -> StronglySorted lt l2 ->
  Forall (fun x => x < b) l1 -> Forall (fun x => b <= x) l2 -> StronglySorted lt (l1 ++ l2).
Proof.
  intros H1 H2 F1 F2. induction l1 as [|x l1 IH]; cbn; auto.
  inversion H1; subst. inversion F1; subst. constructor; auto.
  apply Forall_app. split; auto. eapply Forall_impl; [|exact F2]. cbn. intros; lia.
Qed.

Lemma SS_map p l : StronglySorted lt l -> StronglySorted lt (map (Nat.add p) l).
Proof.
  induction l as [|x l IH]; intros H; cbn; constructor; inversion H; subst; auto.
  apply Forall_map. eapply Forall_impl; [|eassumption]. cbn; intros; lia.
Qed.

Lemma lexAll_nl_sorted fuel : forall l toks nls last,
  LInv cc content l -> lexAll cc fuel content l = Some (Done toks nls last) ->
  StronglySorted lt nls /\ Forall (fun x => lx_pos l <= x) nls.
Proof.
  induction fuel as [|f IH]; intros l toks nls last HI; cbn [lexAll]; [discriminate|].
  destruct (nextToken cc content l) as [[[l' t] nl]|] eqn:E; [|discriminate].
  pose proof (step_ok cc OK content _ _ _ _ HI E) as [HI' HK].
  assert (Hnl : StronglySorted lt nl /\ Forall (fun x => lx_pos l <= x) nl /\
    (t_kind t <> T_EOF -> Forall (fun x => x < lx_pos l') nl)).
  { destruct HK as [[_ [_ [He ->]]]|[Hlt [o [_ [HG [-> [_ HK]]]]]]].
    - split; [repeat constructor|split; [repeat constructor|congruence]].
    - split; [apply SS_map; apply (g_nls _ _ _ _ _ _ HG)|split].
      + apply Forall_map. apply Forall_forall. intros; lia.
      + intros Hk. destruct HK as [[_ [_ [He _]]]|[_ [Hp _]]]; [congruence|].
        apply Forall_map. eapply Forall_impl; [|apply (g_nlr _ _ _ _ _ _ HG)]. cbn. intros; lia. }
  destruct Hnl as [Hs [Hge Hlt']].
  destruct (isEOF (t_kind t)) eqn:Et.
  - intros H; inversion H; subst; auto.
  - destruct (lexAll cc f content l') as [[ts nls' last'|]|] eqn:ER; try discriminate.
    intros H; inversion H; subst; clear H.
    destruct (IH l' _ _ _ HI' ER) as [Hs2 Hge2].
    assert (Hk : t_kind t <> T_EOF) by (intros He; rewrite He in Et; discriminate).
    specialize (Hlt' Hk).
    assert (Hpp : lx_pos l <= lx_pos l').
    { destruct HK as [[_ [-> _]]|[Hlt [o [_ [HG [_ [_ HK]]]]]]]; [auto|].
      destruct HK as [[_ [_ [He _]]]|[_ [Hp _]]]; [congruence|lia]. }
    split.
    + eapply SS_app; eauto.
    + apply Forall_app. split; auto. eapply Forall_impl; [|exact Hge2]. cbn; intros; lia.
Qed.

Lemma isCast_kind k : isCast k = true -> castKind k.
Proof. unfold castKind. destruct k; try discriminate; cbn; tauto. Qed.

Lemma lexAll_nl_exact fuel : forall l hist toks nls last,
  LInv cc content l -> haltRel hist (lx_halt l) -> lx_pos l <= S size ->
  lexAll cc fuel content l = Some (Done toks nls last) ->
  (forall t, In t toks -> ~ blindToken content t) ->
  exists rest, 
    skipn (lx_pos l) content = List.concat (map (symbol content) toks) ++ rest /\
    ((rest = [] /\ exists e, nls = newlinesFrom (skipn (lx_pos l) content) (lx_pos l) ++ [e] /\
                    size <= e <= S size) \/
     (openBlockComment rest /\ nls = newlinesFrom (skipn (lx_pos l) content) (lx_pos l)) \/
     endsWithHalt (hist ++ toks)).
Proof.
  induction fuel as [|f IH]; intros l hist toks nls last HI HR Hpos; cbn [lexAll]; [discriminate|].
  destruct (nextToken cc content l) as [[[l' t] nl]|] eqn:E; [|discriminate].
  pose proof (step_ok cc OK content _ _ _ _ HI E) as [HI' HK].
  destruct (isEOF (t_kind t)) eqn:Et.
  - intros H; inversion H; subst; clear H. intros _. cbn [map List.concat app].
    eexists; split; [reflexivity|].
    destruct HK as [[Hle [-> [_ ->]]]|[Hlt [o [_ [HG [-> [_ [[Hl [Hoc _]]|[Hle [Hp [_ [_ Hh]]]]]]]]]]]].
    + left. rewrite skipn_all2 by lia. split; auto. exists (lx_pos l). split; auto.
    + right. left. split; auto.
      destruct (g_nl _ _ _ _ _ _ HG) as [Hn|[Hn _]].
      * rewrite Hn, firstn_all2 by (rewrite skipn_length; lia). symmetry. apply newlinesFrom_shift.
      * exfalso. destruct (g_len _ _ _ _ _ _ HG) as [Hx|[_ [_ Hk]]]; [rewrite skipn_length in Hx; lia|].
        unfold nlException in Hn.
        destruct Hk as [Hk|Hk]; rewrite Hk in Hn; cbn in Hn; intuition congruence.
    + right. right. rewrite app_nil_r.
      assert (Hf : fst (haltStep (lx_halt l) (o_tok o)) = T_EOF).
      { rewrite <- Hh. cbn. destruct (t_kind t); auto; discriminate. }
      apply haltStep_eof in Hf; [|apply (g_noeof _ _ _ _ _ _ HG)].
      rewrite Hf in HR. exact HR.
  - destruct (lexAll cc f content l') as [[ts nls' last'|]|] eqn:ER; try discriminate.
    intros H; inversion H; subst; clear H. intros HBl.
    destruct HK as [[_ [_ [He _]]]|[Hlt [o [_ [HG [-> [_ HK]]]]]]]; [rewrite He in Et; discriminate|].
    destruct HK as [[_ [_ [He _]]]|[Hle [Hp [Hb [Hend Hh]]]]]; [rewrite He in Et; discriminate|].
    assert (Hk : t_kind t <> T_EOF) by (intros He; rewrite He in Et; discriminate).
    assert (Hh2 : snd (haltStep (lx_halt l) (o_tok o)) = lx_halt l') by (rewrite <- Hh; reflexivity).
    assert (HR' : haltRel (hist ++ [t]) (lx_halt l')).
    { rewrite <- Hh2. apply haltRel_step; auto. rewrite Hh2. exact Hh. }
    destruct (IH l' (hist ++ [t]) ts nls' last HI' HR' ltac:(lia) ER) as [rest [Hrest HS]].
    { intros x Hx. apply HBl. right; auto. }
    assert (Hsym : symbol content t = firstn (o_len o) (skipn (lx_pos l) content)).
    { rewrite (symbol_slice content t (lx_pos l) (lx_pos l')) by (auto; lia). f_equal. lia. }
    assert (Hspl : skipn (lx_pos l) content = firstn (o_len o) (skipn (lx_pos l) content) ++ skipn (lx_pos l') content).
    { rewrite Hp, <- skipn_add. symmetry. apply firstn_skipn. }
    assert (Hon : o_nl o = newlinesFrom (firstn (o_len o) (skipn (lx_pos l) content)) 0).
    { destruct (g_nl _ _ _ _ _ _ HG) as [Hn|[Hn Hn2]]; [exact Hn|].
      assert (Hkk : t_kind t = o_tok o) by (eapply haltStep_kind; eauto).
      assert (Hno : ~ In 10%N (firstn (o_len o) (skipn (lx_pos l) content))).
      { intros Hin. apply (HBl t (or_introl eq_refl)). split; [|rewrite Hsym; exact Hin].
        rewrite Hkk. unfold nlException in Hn. rewrite skipn_length in Hn.
        destruct Hn as [Hn|[Hn|[Hn1 Hn3]]]; auto using isCast_kind.
        right. right. split; auto. lia. }
      rewrite Hn2 by exact Hno. symmetry. apply newlinesFrom_none. intros c Hc ->. auto. }
    assert (Hpre : forall tl, newlinesFrom (skipn (lx_pos l') content) (lx_pos l') ++ tl = nls' ->
       newlinesFrom (skipn (lx_pos l) content) (lx_pos l) ++ tl = map (Nat.add (lx_pos l)) (o_nl o) ++ nls').
    { intros tl <-. rewrite Hspl at 1. rewrite newlinesFrom_app, <- app_assoc, Hon. f_equal.
      - apply newlinesFrom_shift.
      - destruct (le_lt_dec (o_len o) (List.length (skipn (lx_pos l) content))) as [Hll|Hll].
        + rewrite firstn_length_le' by auto. now rewrite <- Hp.
        + rewrite skipn_length in Hll. rewrite (skipn_all2 content) by lia. reflexivity. }
    exists rest. split.
    + cbn [map List.concat]. rewrite Hsym, <- app_assoc, <- Hrest. exact Hspl.
    + rewrite <- app_assoc in HS. cbn [app] in HS.
      destruct HS as [[Hr [e [He1 He2]]]|[[Hr He]|Hr]].
      * left. split; auto. exists e. split; auto. symmetry. apply Hpre. auto.
      * right. left. split; auto. rewrite <- (app_nil_r (newlinesFrom _ _)). symmetry. apply Hpre.
        rewrite app_nil_r. auto.
      * right. right. exact Hr.
Qed.
End R.

(** * The closed statements *)
Section Closed.
Variable cc : CharClass.
Hypothesis OK : ascii_ok cc.

Lemma initial_facts l : initial l -> lx_pos l = 0 /\ lx_halt l = 0.
Proof. intros [-> | ->]; auto. Qed.

Lemma lossless content l fuel toks nls last : initial l ->
  lexAll cc fuel content l = Some (Done toks nls last) ->
  contiguous 0 toks /\
  exists rest, content = List.concat (map (symbol content) toks) ++ rest /\
    (rest = [] \/ openBlockComment rest \/ endsWithHalt toks).
Proof.
  intros Hi HL. destruct (initial_facts _ Hi) as [Hp Hh].
  destruct (lexAll_tokens cc OK content fuel l [] toks nls last (LInv_init cc content l Hi)) as [HC [_ HR]];
    auto; [rewrite Hh; exact I|lia|].
  rewrite Hp in HC, HR. auto.
Qed.

Lemma in_bounds content l fuel toks nls last : initial l ->
  lexAll cc fuel content l = Some (Done toks nls last) ->
  forall pre t post, toks = pre ++ t :: post ->
    (0 <= t_begin t /\ t_begin t <= t_end t + 1 /\ t_begin t < Z.of_nat (List.length content) /\
     t_end t <= Z.of_nat (List.length content))%Z /\
    (t_end t = Z.of_nat (List.length content) ->
     post = [] /\ (t_kind t = T_INLINE_HTML \/ t_kind t = T_COMMENT \/ t_kind t = T_DOC_COMMENT)).
Proof.
  intros Hi HL pre t post E. destruct (initial_facts _ Hi) as [Hp Hh].
  destruct (lexAll_tokens cc OK content fuel l [] toks nls last (LInv_init cc content l Hi)) as [HC [HB _]];
    auto; [rewrite Hh; exact I|lia|].
  assert (Hin : In t toks) by (rewrite E; apply in_elt).
  destruct (HB t Hin) as [_ [H1 H2]]. split; [exact H1|]. intros He. split; [|auto].
  destruct post as [|t2 post]; auto. exfalso.
  assert (Hc2 : t_begin t2 = (t_end t + 1)%Z).
  { clear -HC E. subst toks. revert HC. generalize (Z.of_nat (lx_pos l)). induction pre as [|x pre IH]; intros z HC.
    - cbn in HC. tauto.
    - cbn in HC. destruct HC as [_ HC]. eapply IH; eauto. }
  assert (Hin2 : In t2 toks) by (rewrite E; apply in_or_app; right; right; left; auto).
  destruct (HB t2 Hin2) as [_ [H3 _]]. lia.
Qed.

Lemma terminates content l fuel : initial l -> ~ braceDollarDigit cc content ->
  2 * List.length content < fuel -> lexAll cc fuel content l <> Some OutOfFuel.
Proof.
  intros Hi HB Hf. apply lexAll_terminates; auto; [now apply LInv_init|].
  unfold measure. destruct (initial_facts _ Hi) as [-> _]. destruct Hi as [-> | ->]; cbn; lia.
Qed.

Lemma no_ub content l fuel : initial l -> ~ yieldAtEnd cc content ->
  lexAll cc fuel content l <> None.
Proof. intros Hi HY. apply lexAll_noUB; auto. now apply LInv_init. Qed.

Lemma finishes content l : initial l -> ~ braceDollarDigit cc content -> ~ yieldAtEnd cc content ->
  exists toks nls last, lexAll cc (2 * List.length content + 1) content l = Some (Done toks nls last).
Proof.
  intros Hi H1 H2. pose proof (terminates content l (2 * List.length content + 1) Hi H1 ltac:(lia)) as HT.
  pose proof (no_ub content l (2 * List.length content + 1) Hi H2) as HU.
  destruct (lexAll cc _ content l) as [[ts nls last|]|]; try congruence. eauto.
Qed.

Lemma modes content l0 l : initial l0 -> reachable cc content l0 l ->
  (exists s t, lx_st l = s :: t /\ s <> ErrorState) /\
  (nextToken cc content l = None -> yieldAtEnd cc (skipn (lx_pos l) content)) /\
  (forall l' t nl, nextToken cc content l = Some (l', t, nl) -> t_kind t = T_CLOSE_TAG ->
     symbol content t = str "?>" /\ exists r, lx_st l' = HtmlState :: r).
Proof.
  intros Hi HR. pose proof (reachable_inv cc OK content l0 l Hi HR) as HI. split; [|split].
  - pose proof (inv_wf _ _ _ _ _ HI) as Hw. destruct (lx_st l) as [|s t]; [destruct Hw|].
    exists s, t. split; auto. intros ->. cbn in Hw. destruct t; [auto|]. destruct Hw; discriminate.
  - intros HN. pose proof (nextToken_ok cc OK content l HI) as H. rewrite HN in H. cbn in H.
    destruct H as [_ [y [w [r [E H]]]]]. exists [], y, w, r. auto.
  - intros l' t nl HN Hk. pose proof (step_ok cc OK content _ _ _ _ HI HN) as [_ HK].
    destruct HK as [[_ [_ [He _]]]|[Hlt [o [Ho [HG [_ [Hst HK]]]]]]]; [congruence|].
    destruct HK as [[_ [_ [He _]]]|[Hle [Hp [Hb [Hend Hh]]]]]; [congruence|].
    assert (Hkk : t_kind t = o_tok o) by (eapply haltStep_kind; eauto; congruence).
    assert (Hne : skipn (lx_pos l) content <> []).
    { intros E. apply (f_equal (@List.length N)) in E. rewrite skipn_length in E. cbn in E. lia. }
    rewrite Hk in Hkk. symmetry in Hkk.
    destruct (handler_close cc _ _ _ _ _ (inv_wf _ _ _ _ _ HI) Hne Ho Hkk) as [Hst' [[r Hr] _]].
    split; [|rewrite Hst, Hst'; eauto].
    rewrite (symbol_slice content t (lx_pos l) (lx_pos l')) by (auto; lia).
    assert (Hl2 : o_len o = 2).
    { clear -Ho Hkk Hr HI. rewrite Hr in Ho.
      unfold handler in Ho. destruct (lx_st l) as [|s q] eqn:Es; [discriminate|]. cbn [stateAt nth_error] in Ho.
      assert (HN : forall x, x = Some o -> noClose x -> False) by (intros x Hx Hn; exact (Hn o Hx Hkk)).
      pose proof (inv_wf _ _ _ _ _ HI) as Hw. rewrite Es in Hw.
      assert (HD : lexDefault cc (s :: q) (lx_id l) (rev (firstn (lx_pos l) content)) (63 :: 62 :: r)%N = Some o -> o_len o = 2).
      { unfold lexDefault. cbn [peek stateAt nth_error]. intros H.
        destruct (isSpace cc 63).
        { exfalso. destruct (scanWhile _ _ _). injection H as <-. discriminate. }
        destruct (Some (isDigit cc 63) ||| _) as [[]|]; [exfalso; refine (HN _ H _); apply lexNumber_nc| |discriminate].
        destruct (processVariable cc _) as [[n|]|]; [injection H as <-; discriminate| |discriminate].
        change (lexQuestion (s :: q) (lx_id l) (63 :: 62 :: r)%N = Some o) in H. unfold lexQuestion in H.
        rewrite popToHtml_spec in H by exact Hw. cbn in H. injection H as <-. reflexivity. }
      destruct s; try (apply HD; exact Ho); exfalso.
      { injection Ho as <-. discriminate. }
      { refine (HN _ Ho _); apply lexHtml_nc. }
      all: match type of Ho with _ = Some ?oo => destruct (handler_close cc (lx_st l) (lx_id l) (rev (firstn (lx_pos l) content)) (63 :: 62 :: r)%N oo) as [_ [_ [x [X|X]]]]; rewrite ?Es in *; auto; try discriminate end. }
    rewrite Hp, Hl2, Hr. replace (lx_pos l + 2 - lx_pos l) with 2 by lia. reflexivity.
Qed.

Lemma lines_increasing content l fuel toks nls last : initial l ->
  lexAll cc fuel content l = Some (Done toks nls last) -> StronglySorted lt nls.
Proof. intros Hi HL. eapply lexAll_nl_sorted; eauto. now apply LInv_init. Qed.

Lemma lines_exact content l fuel toks nls last : initial l ->
  lexAll cc fuel content l = Some (Done toks nls last) ->
  (forall t, In t toks -> ~ blindToken content t) ->
  endsWithHalt toks \/
  exists rest, content = List.concat (map (symbol content) toks) ++ rest /\
    ((rest = [] /\ exists e, nls = nlOffsets content ++ [e] /\ List.length content <= e <= S (List.length content)) \/
     (openBlockComment rest /\ nls = nlOffsets content)).
Proof.
  intros Hi HL HB. destruct (initial_facts _ Hi) as [Hp Hh].
  destruct (lexAll_nl_exact cc OK content fuel l [] toks nls last (LInv_init cc content l Hi)) as [rest [HR HS]];
    auto; [rewrite Hh; exact I|lia|].
  rewrite Hp in HR, HS. cbn [skipn app] in *. rewrite nlOffsets_newlines.
  destruct HS as [HS|[HS|HS]]; auto; right; exists rest; split; auto.
Qed.
End Closed.
