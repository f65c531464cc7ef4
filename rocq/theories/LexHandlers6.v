(** String modes and the whole switch (proof file). *)
From Verif Require Export LexHandlers5.
From Coq Require Import Sorted.
Open Scope nat_scope.

Section H.
Variable cc : CharClass.
Hypothesis OK : ascii_ok cc.

Notation Inv := (Inv cc).
Notation Good := (Good cc).

Lemma wfS_len st s t : wfS st -> st = s :: t -> s <> HtmlState -> s <> DefaultState ->
  3 < List.length st.
Proof.
  revert s t; induction st as [|x st IH]; intros s t Hw E Hs Hd; [discriminate|].
  inversion E; subst x st; clear E.
  destruct (wfS_two _ _ Hw) as [s' [t' ->]].
  pose proof (wfS_allowed _ _ _ Hw Hs Hd) as Ha.
  pose proof (wfS_below _ _ _ Hw Hs) as Hb.
  destruct (LState_eq_dec s' DefaultState) as [->|Hd'].
  - cbn in Hb. subst. cbn. lia.
  - assert (s' <> HtmlState) by (destruct s; intros ->; discriminate).
    specialize (IH s' t' Hb eq_refl H Hd'). cbn in *. lia.
Qed.

Lemma Inv_stop st id before it s t : Inv st id before it -> st = s :: t ->
  s <> HtmlState -> s <> DefaultState -> hasStop before.
Proof.
  intros HI E H1 H2. destruct (inv_before _ _ _ _ _ HI) as [c Hc]; [|exists c; exact Hc].
  eapply wfS_len; eauto. apply HI.
Qed.

Lemma Inv_popString st id before it s t n :
  Inv st id before it -> st = s :: t -> (s = StringVariable \/ strMode s = true) ->
  exists st', popString st = Some st' /\ Inv st' id (rev (firstn n it) ++ before) (skipn n it).
Proof.
  intros HI -> Hs. unfold popString. cbn [stateAt nth_error].
  destruct (stIs s StringVariable) eqn:E.
  - apply internal_LState_dec_bl in E. subst s.
    pose proof (inv_wf _ _ _ _ _ HI) as Hw.
    destruct (wfS_two _ _ Hw) as [s' [t' ->]]. cbn [pop].
    pose proof (wfS_allowed _ _ _ Hw ltac:(discriminate) ltac:(discriminate)) as Ha.
    eexists. split; eauto.
    apply (Inv_pop cc _ _ _ _ s'); [|intros ->; discriminate].
    apply (Inv_pop cc _ _ _ _ StringVariable 0); auto. discriminate.
  - cbn [pop]. eexists. split; eauto. apply (Inv_pop cc _ _ _ _ s); auto.
    intros ->. destruct Hs; discriminate.
Qed.

Lemma lexString_good st id before it s t :
  Inv st id before it -> it <> [] -> st = s :: t -> (s = StringVariable \/ strMode s = true) ->
  wp (lexString cc st id before it) False (Good st id before it).
Proof.
  intros HI Hne Est Hs. destruct it as [|c r]; [congruence|].
  pose proof (inv_wf _ _ _ _ _ HI) as Hw.
  assert (Hnd : s <> HtmlState /\ s <> DefaultState) by (split; intros ->; destruct Hs; discriminate).
  destruct Hnd as [HnH HnD].
  assert (Hns : needsIdent s = false) by (destruct Hs as [->|Hs]; [reflexivity|destruct s; try reflexivity; discriminate]).
  assert (Hn : noNeed st) by (intros x q E; rewrite Est in E; inversion E; subst; auto).
  rewrite Est in Hw. destruct (wfS_two _ _ Hw) as [s1 [t1 ->]].
  pose proof (wfS_allowed _ _ _ Hw HnH HnD) as Ha.
  assert (Hin : forall x, inString st x = Some (stIs s x || stIs s1 x)).
  { intros x. rewrite Est. unfold inString. cbn. destruct (stIs s x); reflexivity. }
  unfold lexString. change (peek (c :: r) 0) with (Some c). cbv iota beta.
  replace (stateAt st 0) with (Some s) by (rewrite Est; reflexivity).
  rewrite !Hin.
  assert (HP : forall tk n, 0 < n <= List.length (c :: r) -> (forall x, In x (firstn n (c :: r)) -> x <> 10%N) ->
     tk <> T_EOF ->
     wp (st' <- popString st ;; simple st' id tk n) False (Good st id before (c :: r))).
  { intros tk n Hl Hnl Htk. destruct (Inv_popString st id before (c :: r) s (s1 :: t1) n HI Est Hs) as [st' [-> Hi]].
    unfold simple; cbn [wp]. apply Good_newst; auto. symmetry. now apply newlinesFrom_none. }
  destruct ((stIs s SString || stIs s1 SString) && (c =? 34)%N) eqn:E1.
  { apply andb_true_iff in E1 as [-> E1]. cbn [mAnd]. rewrite E1. apply N.eqb_eq in E1. subst c.
    apply HP; [clear; cbn; lia|clear; cbn; lia|discriminate]. }
  replace (Some (stIs s SString || stIs s1 SString) &&& Some (c =? 34)%N) with (Some false)
    by (destruct (stIs s SString || stIs s1 SString); cbn in *; congruence).
  destruct ((stIs s StringBacktick || stIs s1 StringBacktick) && (c =? 96)%N) eqn:E2.
  { apply andb_true_iff in E2 as [-> E2]. cbn [mAnd]. rewrite E2. apply N.eqb_eq in E2. subst c.
    apply HP; [clear; cbn; lia|clear; cbn; lia|discriminate]. }
  replace (Some (stIs s StringBacktick || stIs s1 StringBacktick) &&& Some (c =? 96)%N) with (Some false)
    by (destruct (stIs s StringBacktick || stIs s1 StringBacktick); cbn in *; congruence).
  destruct (isHereNowDocEnd_spec id (c :: r)) as [he [-> Hhe]].
  destruct ((stIs s StringHeredoc || stIs s1 StringHeredoc) && he) eqn:E3.
  { apply andb_true_iff in E3 as [E3 ->]. rewrite E3. cbn [mAnd].
    destruct Hhe as [q [Hq Hqn]]; auto.
    assert (Hid : id <> []).
    { apply (inv_id _ _ _ _ _ HI). rewrite Est. cbn. apply orb_true_iff in E3.
      destruct E3 as [E3|E3]; apply internal_LState_dec_bl in E3; subst; cbn; auto.
      now rewrite orb_true_r. }
    apply HP; try discriminate.
    - rewrite Hq, app_length. destruct id; [congruence|]. clear. cbn. lia.
    - rewrite Hq. rewrite firstn_app_exact by reflexivity. intros x Hx ->.
      now apply (inv_idnl _ _ _ _ _ HI). }
  replace (Some (stIs s StringHeredoc || stIs s1 StringHeredoc) &&& Some he) with (Some false)
    by (destruct (stIs s StringHeredoc || stIs s1 StringHeredoc); cbn in *; congruence).
  pose proof (processVariable_spec cc OK (c :: r) Hne) as HV.
  destruct (processVariable cc (c :: r)) as [[len|]|]; cbn [wp] in HV; [| |destruct HV].
  { destruct HV as [c1 [r1 [E [Hc1 [Hl [Hnl _]]]]]]. unfold simple; cbn [wp].
    destruct (stIs s StringVariable) eqn:Esv.
    - apply Good_simple; [auto|auto|clear -Hl; lia|auto|discriminate].
    - apply Good_newst; [|clear -Hl; lia|discriminate|].
      + apply (Inv_push cc st id); auto; try discriminate.
        * rewrite Est. split; auto. destruct Hs as [->|Hs]; [discriminate|]. destruct s; auto; discriminate.
        * exists 36%N. inversion E; subst. destruct len; [exfalso; clear -Hl; lia|]. cbn. split; auto; discriminate.
        * intros He. apply (inv_id _ _ _ _ _ HI). exact He.
        * apply (inv_idnl _ _ _ _ _ HI).
      + symmetry. now apply newlinesFrom_none. }
  assert (Hpush : forall ns tk n, strMode s = true -> allowedOn ns s = true -> isDoc ns = false ->
     0 < n <= List.length (c :: r) ->
     (forall x, In x (firstn n (c :: r)) -> x <> 10%N) -> tk <> T_EOF -> c <> 92%N ->
     ns <> HtmlState -> ns <> DefaultState ->
     (needsIdent ns = true -> exists d q, skipn n (c :: r) = d :: q /\ isIdent cc d = true) ->
     wp (simple (ns :: st) id tk n) False (Good st id before (c :: r))).
  { intros ns tk n Hsm Hal Hdoc Hl Hnl Htk Hc92 HnH' HnD' Hid. unfold simple; cbn [wp].
    apply Good_newst; auto.
    - apply (Inv_push cc st id); auto.
      + rewrite Est. destruct ns; try discriminate; try congruence; split; auto.
      + exists c. destruct n; [exfalso; clear -Hl; lia|]. cbn. auto.
      + intros He. apply (inv_id _ _ _ _ _ HI). cbn in He. rewrite Hdoc in He. exact He.
      + apply (inv_idnl _ _ _ _ _ HI).
    - symmetry. now apply newlinesFrom_none. }
  set (doc1 := Some (negb (stIs s StringVariable)) &&& Some (c =? 36)%N &&& isC (c :: r) 1 123).
  assert (Hd1 : (doc1 = Some true /\ strMode s = true /\ exists q, c :: r = (36 :: 123 :: q)%N) \/
                (doc1 = Some false /\ (strMode s = true -> forall q, c :: r <> (36 :: 123 :: q)%N))).
  { unfold doc1, isC, test. change (peek (c :: r) 1) with (peek r 0). rewrite peek0. cbn [option_map].
    destruct Hs as [->|Hs].
    - right; split; auto; discriminate.
    - replace (stIs s StringVariable) with false by (destruct s; auto; discriminate). cbn [negb mAnd].
      destruct (N.eqb_spec c 36); cbn [mAnd]; [|right; split; auto; congruence]. subst c.
      destruct r as [|c1 r]; cbn [hd]; [right; split; auto; congruence|].
      destruct (N.eqb_spec c1 123); subst; [left; eauto|right; split; auto; congruence]. }
  destruct Hd1 as [[-> [Hsm [q Hq]]]|[-> Hd1]].
  { inversion Hq; subst c r. clear HV.
    assert (Hid1 : test (36 :: 123 :: q)%N 2 (isIdentStart cc) = Some (isIdentStart cc (hd 0%N q))).
    { unfold test. change (peek (36 :: 123 :: q)%N 2) with (peek q 0). now rewrite peek0. }
    rewrite Hid1. destruct (isIdentStart cc (hd 0%N q)) eqn:Eis.
    - apply Hpush; auto; try discriminate.
      + clear; cbn; lia.
      + clear; cbn; lia.
      + intros _. destruct q as [|d q]; cbn in Eis.
        * rewrite (isIdentStart_nul cc OK) in Eis. discriminate.
        * exists d, q. split; auto. now apply isIdentStart_ident.
    - unfold simple; cbn [wp]. apply Good_simple; [auto|auto|clear; cbn; lia|clear; cbn; lia|discriminate]. }
  destruct (stIs s StringVariable && (c =? 91)%N) eqn:E4.
  { apply andb_true_iff in E4 as [E4 E5]. apply internal_LState_dec_bl in E4. apply N.eqb_eq in E5. subst s c.
    unfold simple; cbn [wp]. apply Good_newst; try discriminate; [|clear; cbn; lia|reflexivity].
    apply (Inv_push cc st id); auto; try discriminate.
    - rewrite Est. split; auto.
    - exists 91%N. cbn. split; auto; discriminate.
    - intros He. apply (inv_id _ _ _ _ _ HI). exact He.
    - apply (inv_idnl _ _ _ _ _ HI). }
  set (cur := Some (negb (stIs s StringVariable)) &&& _ &&& _ &&& _).
  assert (Hcur : (cur = Some true /\ strMode s = true /\ exists q, c :: r = (123 :: 36 :: q)%N) \/
                 (cur = Some false /\ (strMode s = true -> forall d q, c :: r = (123 :: 36 :: d :: q)%N ->
                                        isIdentStart cc d = false))).
  { unfold cur, isC, test. destruct Hs as [->|Hs].
    - right; split; auto; discriminate.
    - replace (stIs s StringVariable) with false by (destruct s; auto; discriminate). cbn [negb mAnd].
      destruct (N.eqb_spec c 123); cbn [mAnd]; [|right; split; auto; congruence]. subst c.
      destruct r as [|c1 r]; cbn [peek option_map]; [right; split; auto; congruence|].
      destruct (N.eqb_spec c1 36); cbn [mAnd]; [|right; split; auto; congruence]. subst c1.
      rewrite peek0. cbn [option_map].
      destruct (isIdentStart cc (hd 0%N r)) eqn:Eis; cbn [mOr]; [left; eauto|].
      destruct (hd 0 r =? 123)%N; [left; eauto|].
      right; split; auto. intros _ d q E. inversion E; subst. exact Eis. }
  destruct Hcur as [[-> [Hsm [q Hq]]]|[-> Hcur]].
  { inversion Hq; subst c r. apply Hpush; auto; try discriminate.
    - destruct s; auto; discriminate.
    - clear; cbn; lia.
    - clear; cbn; lia. }
  set (oo := Some (stIs s StringVariable) &&& _ &&& _ &&& _).
  assert (Hoo : (oo = Some true /\ s = StringVariable /\
                 exists d q, c :: r = (45 :: 62 :: d :: q)%N /\ isIdentStart cc d = true) \/ oo = Some false).
  { unfold oo, isC, test. destruct (stIs s StringVariable) eqn:Esv; cbn [mAnd]; auto.
    apply internal_LState_dec_bl in Esv.
    destruct (N.eqb_spec c 45); cbn [mAnd]; auto. subst c.
    destruct r as [|c1 r]; cbn [peek option_map]; auto.
    destruct (N.eqb_spec c1 62); cbn [mAnd]; auto. subst c1.
    rewrite peek0. cbn [option_map].
    destruct (isIdentStart cc (hd 0%N r)) eqn:Eis; auto.
    left. repeat split; auto. destruct r as [|d q]; cbn in Eis.
    - rewrite (isIdentStart_nul cc OK) in Eis. discriminate.
    - eauto. }
  destruct Hoo as [[-> [Hsv [d [q [Hq Hd]]]]]| ->].
  { inversion Hq; subst c r s. unfold simple; cbn [wp].
    apply Good_newst; try discriminate; [|clear; cbn; lia|reflexivity].
    apply (Inv_push cc st id); auto; try discriminate.
    - rewrite Est. split; auto.
    - exists 45%N. cbn. split; auto; discriminate.
    - intros He. apply (inv_id _ _ _ _ _ HI). exact He.
    - apply (inv_idnl _ _ _ _ _ HI).
    - intros _. exists d, q. split; auto. now apply isIdentStart_ident. }
  (* ENCAPSED_AND_WHITESPACE *)
  assert (Hst' : exists s' t' , (if stIs s StringVariable then pop st else Some st) = Some (s' :: t') /\
      strMode s' = true /\ (s = StringVariable /\ s' = s1 \/ s <> StringVariable /\ s' = s) /\
      Inv (s' :: t') id before (c :: r)).
  { destruct Hs as [->|Hs].
    - rewrite Est. cbn [stIs LState_beq pop]. exists s1, t1. split; [auto|split; [auto|split; [auto|]]].
      rewrite Est in HI. apply (Inv_pop cc _ _ _ (c :: r) StringVariable 0) in HI; [exact HI|discriminate].
    - replace (stIs s StringVariable) with false by (destruct s; auto; discriminate).
      exists s, (s1 :: t1). rewrite <- Est. split; [auto|split; [auto|split; [|auto]]]. right. split; auto.
      intros ->; discriminate. }
  destruct Hst' as [s' [t' [-> [Hsm' [Hss HI']]]]]. cbn [stateAt nth_error].
  assert (Hstop : hasStop before) by exact (Inv_stop _ _ _ _ _ _ HI Est HnH HnD).
  assert (Hor : forall x, stIs s' x = true -> stIs s x || stIs s1 x = true).
  { intros x Hx. destruct Hss as [[_ ->]|[_ ->]]; rewrite Hx; auto. now rewrite orb_true_r. }
  pose proof (encLoop_spec cc OK s' id (c :: r) before 0 Hstop) as HL.
  pose proof (encLoop_progress cc OK s' id before c r Hstop) as HP'.
  destruct (encLoop cc s' id before (c :: r) 0) as [[j nl]|] eqn:Eenc; cbn [wp] in HL, HP'; [|destruct HL].
  destruct HL as [n [-> [Hl ->]]]. cbn [Nat.add] in *.
  assert (Hnd' : noNeed (s' :: t')) by (intros x q E; inversion E; subst; destruct x; auto; discriminate).
  constructor; proj.
  - left. clear -Hl. lia.
  - intros Hlt. exfalso. clear -Hl Hlt. lia.
  - apply Inv_keep; auto.
  - destruct HP' as [HP'|HP'].
    + intros Hx ->. apply Hor in Hx. rewrite Hx in E1. discriminate.
    + intros Hx ->. apply Hor in Hx. rewrite Hx in E2. discriminate.
    + auto.
    + right. destruct Hs as [->|Hs].
      { left. split; [exists (s1 :: t1); auto|]. split; auto. intros [q E]. inversion E; subst s'. discriminate. }
      right. split; auto. destruct HP' as [[q E]|[[d [q [E Hd]]]|[d [q [E Hd]]]]].
      * exfalso. now apply (Hd1 Hs q).
      * exists d, q. split; auto. specialize (Hcur Hs d q E).
        unfold isIdentStart in Hcur. rewrite Hd in Hcur. cbn in Hcur. now apply negb_false_iff.
      * exfalso. apply HV. eauto.
  - left. reflexivity.
  - apply newlinesFrom_sorted.
  - apply Forall_forall. intros x Hx. apply newlinesFrom_range in Hx.
    rewrite firstn_length in Hx. clear -Hx. lia.
  - discriminate.
Qed.

Lemma nowLoop_spec id it : forall i,
  wp (nowLoop id it i) False (fun '(j, nl) =>
    exists n, j = i + n /\ n <= List.length it /\ nl = newlinesFrom (firstn n it) i /\
              (it <> [] -> 0 < n)).
Proof.
  induction it as [|c t IH]; intros i; cbn [nowLoop].
  - exists 0. cbn. repeat split; auto; try lia. congruence.
  - destruct (isHereNowDocEnd_spec id t) as [e' [-> _]].
    set (stop := Some (c =? 10)%N &&& _).
    assert (Hst : exists b, stop = Some b) by (unfold stop; destruct (c =? 10)%N; cbn; eauto).
    destruct Hst as [b ->]. destruct b.
    { exists 1. cbn [firstn newlinesFrom List.length]. repeat split; auto; lia. }
    specialize (IH (S i)).
    destruct (nowLoop id t (S i)) as [[j nl]|]; cbn [wp] in *; auto.
    destruct IH as [n [-> [Hn [-> _]]]]. exists (S n). cbn [List.length].
    repeat split; auto; try lia.
Qed.

Lemma lexNowdoc_good st id before it t :
  Inv st id before it -> it <> [] -> st = StringNowdoc :: t ->
  wp (lexNowdoc st id it) False (Good st id before it).
Proof.
  intros HI Hne Est. unfold lexNowdoc.
  destruct (isHereNowDocEnd_spec id it) as [e [-> He]]. destruct e.
  - destruct He as [q [Hq Hqn]]; auto. rewrite Est in HI |- *. cbn [pop]. unfold simple; cbn [wp].
    assert (Hid : id <> []) by (apply (inv_id _ _ _ _ _ HI); reflexivity).
    apply Good_newst; try discriminate.
    + apply (Inv_pop cc _ _ _ _ StringNowdoc); auto; discriminate.
    + rewrite Hq, app_length. destruct id; [congruence|]. cbn. lia.
    + rewrite Hq, firstn_app_exact by reflexivity. symmetry. apply newlinesFrom_none.
      intros x Hx ->. now apply (inv_idnl _ _ _ _ _ HI).
  - pose proof (nowLoop_spec id it 0) as HL.
    destruct (nowLoop id it 0) as [[j nl]|]; cbn [wp] in *; auto.
    destruct HL as [n [-> [Hl [-> Hp]]]]. apply Good_same; auto; try discriminate.
    subst st. intros s r E; inversion E; reflexivity.
Qed.

Lemma lexBracket_good st id before it t :
  Inv st id before it -> it <> [] -> st = StringVariableBracket :: t ->
  wp (lexBracket cc st id it) False (Good st id before it).
Proof.
  intros HI Hne Est. unfold lexBracket. destruct it as [|c r]; [congruence|].
  change (peek (c :: r) 0) with (Some c). cbv iota beta.
  assert (Hn : noNeed st) by (subst st; intros x q E; inversion E; reflexivity).
  destruct (N.eqb_spec c 93) as [->|Hc].
  - rewrite Est in HI |- *. pose proof (inv_wf _ _ _ _ _ HI) as Hw.
    destruct (wfS_two _ _ Hw) as [s1 [t1 ->]].
    pose proof (wfS_allowed _ _ _ Hw ltac:(discriminate) ltac:(discriminate)) as Ha.
    cbn [pop]. unfold simple; cbn [wp]. apply Good_newst; try discriminate; [|clear; cbn; lia|reflexivity].
    apply (Inv_pop cc _ _ _ _ s1); [|intros ->; discriminate].
    apply (Inv_pop cc _ _ _ _ StringVariableBracket 0); auto; discriminate.
  - destruct (isDigit cc c) eqn:Ed.
    + destruct (skipWhile_spec (isDigit cc) (c :: r) 0) as [n [-> Hs]]. cbn [fst Nat.add].
      unfold simple; cbn [wp]. apply Good_simple; auto; try discriminate.
      * split; [eapply scan_pos; eauto|apply Hs].
      * eapply scan_nonl; eauto. apply (isDigit_nl cc OK).
    + destruct (scanWhile_spec (fun x => negb (x =? 93)%N) (c :: r) 0) as [n [-> Hs]]. cbn [wp Nat.add].
      apply Good_same; auto; try discriminate. split; [|apply Hs].
      eapply scan_pos; eauto. cbn. now apply negb_true_iff, N.eqb_neq.
Qed.

Lemma ident_scan st id before it s t n r :
  Inv st id before it -> st = s :: t -> needsIdent s = true ->
  skipWhile (isIdent cc) it 0 = (n, r) -> 
  0 < n <= List.length it /\ (forall c, In c (firstn n it) -> c <> 10%N).
Proof.
  intros HI E Hs Hsk. destruct (inv_ident _ _ _ _ _ HI _ _ E Hs) as [c [q [-> Hc]]].
  destruct (skipWhile_spec (isIdent cc) (c :: q) 0) as [m [Hm Hsc]].
  rewrite Hm in Hsk. inversion Hsk; subst. cbn [Nat.add] in *. split.
  - split; [eapply scan_pos; eauto|apply Hsc].
  - eapply scan_nonl; eauto. apply (isIdent_nl cc OK).
Qed.

Lemma lexObjOp_good st id before it t :
  Inv st id before it -> st = StringVariableObjectOperator :: t ->
  wp (lexObjOp cc st id it) False (Good st id before it).
Proof.
  intros HI Est. unfold lexObjOp.
  destruct (skipWhile (isIdent cc) it 0) as [n q] eqn:Esk. cbn [fst].
  destruct (ident_scan _ _ _ _ _ _ _ _ HI Est eq_refl Esk) as [Hl Hnl].
  rewrite Est in HI |- *. pose proof (inv_wf _ _ _ _ _ HI) as Hw.
  destruct (wfS_two _ _ Hw) as [s1 [t1 ->]].
  pose proof (wfS_allowed _ _ _ Hw ltac:(discriminate) ltac:(discriminate)) as Ha.
  cbn [pop stateAt nth_error].
  destruct (stIs s1 StringVariable) eqn:Es.
  - cbn [pop]. unfold simple; cbn [wp]. apply Good_newst; auto; try discriminate.
    + apply (Inv_pop cc _ _ _ _ s1); [|intros ->; discriminate].
      apply (Inv_pop cc _ _ _ _ StringVariableObjectOperator 0); auto; discriminate.
    + symmetry. now apply newlinesFrom_none.
  - unfold simple; cbn [wp]. apply Good_newst; auto; try discriminate.
    + apply (Inv_pop cc _ _ _ _ StringVariableObjectOperator); auto; discriminate.
    + symmetry. now apply newlinesFrom_none.
Qed.

Lemma lexVarname_good st id before it t :
  Inv st id before it -> st = StringVarname :: t ->
  wp (lexVarname cc st id it) False (Good st id before it).
Proof.
  intros HI Est. unfold lexVarname.
  destruct (skipWhile (isIdent cc) it 0) as [n q] eqn:Esk. cbn [fst].
  destruct (ident_scan _ _ _ _ _ _ _ _ HI Est eq_refl Esk) as [Hl Hnl].
  rewrite Est in HI |- *. pose proof (inv_wf _ _ _ _ _ HI) as Hw.
  destruct (wfS_two _ _ Hw) as [s1 [t1 ->]].
  pose proof (wfS_allowed _ _ _ Hw ltac:(discriminate) ltac:(discriminate)) as Ha.
  pose proof (Inv_stop _ _ _ _ _ _ HI eq_refl ltac:(discriminate) ltac:(discriminate)) as [x [Hx Hx']].
  cbn [pop]. unfold simple; cbn [wp]. apply Good_newst; auto; try discriminate.
  - constructor.
    + split; [destruct s1; auto; discriminate|]. eapply wfS_below; eauto; discriminate.
    + intros _. exists x. split; auto. apply in_or_app; auto.
    + intros He. apply (inv_id _ _ _ _ _ HI). exact He.
    + apply (inv_idnl _ _ _ _ _ HI).
    + intros y r E Hy. inversion E; subst; discriminate.
  - symmetry. now apply newlinesFrom_none.
Qed.

Theorem handler_good st id before it :
  Inv st id before it -> it <> [] ->
  wp (handler cc st id before it) (yieldNearEnd cc it) (Good st id before it).
Proof.
  intros HI Hne. unfold handler. pose proof (inv_wf _ _ _ _ _ HI) as Hw.
  destruct st as [|s t]; [destruct Hw|]. cbn [stateAt nth_error].
  assert (HW : forall x, wp x False (Good (s :: t) id before it) ->
                         wp x (yieldNearEnd cc it) (Good (s :: t) id before it)).
  { intros x. apply wp_weaken. tauto. }
  destruct s.
  - cbn in Hw. destruct t; [tauto|]. destruct Hw; discriminate.
  - apply HW, lexHtml_good; auto. exists t; auto.
  - apply lexDefault_good; auto. left; exists t; auto.
  - apply HW. eapply lexString_good; eauto.
  - apply HW. eapply lexString_good; eauto.
  - apply HW. eapply lexBracket_good; eauto.
  - apply HW. eapply lexObjOp_good; eauto.
  - apply lexDefault_good; auto. right; exists t; auto.
  - apply HW. eapply lexVarname_good; eauto.
  - apply HW. eapply lexString_good; eauto.
  - apply HW. eapply lexString_good; eauto.
  - apply HW. eapply lexNowdoc_good; eauto.
Qed.
End H.
