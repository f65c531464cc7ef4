(** Proofs for C13, continued: the text behind "__halt_compiler();" does not matter. *)
From Verif Require Import LexModel LexInv LexSpec LexSpec2 LexHandlers LexHandlers2 LexRun LexRun2 LexRun3 LexFun LexFun5 LexCut LexCut2 LexCut3 LexCut4 LexCut5.
Open Scope nat_scope.

Section Cut.
Variable cc : CharClass.
Hypothesis OK : ascii_ok cc.

Lemma string_first s1 q id b a r o i : s1 = DefaultState \/ s1 = StringVariableCurly ->
  handler cc (SString :: s1 :: q) id (34%N :: b) (a :: r) = Some o -> dqLoop cc (34%N :: b) (a :: r) 1 = Some (i, true) ->
  i <= o_len o + 2 \/ (o_st o = SString :: s1 :: q /\ digitCurly cc (skipn (o_len o) (a :: r)) /\ o_tok o = T_ENCAPSED_AND_WHITESPACE).
Proof.
  intros Hs H HD. unfold handler in H. cbn [stateAt nth_error] in H. unfold lexString in H. cbn [peek stateAt nth_error] in H.
  assert (I1 : inString (SString :: s1 :: q) SString = Some true) by reflexivity.
  assert (I2 : inString (SString :: s1 :: q) StringBacktick = Some false) by (destruct Hs as [-> | ->]; reflexivity).
  assert (I3 : inString (SString :: s1 :: q) StringHeredoc = Some false) by (destruct Hs as [-> | ->]; reflexivity).
  rewrite I1, I2, I3 in H. cbn [mAnd] in H. change (stIs SString StringVariable) with false in H. cbn [negb mAnd andb] in H.
  pose proof HD as HD0. cbn [dqLoop] in HD. change (isEscaped (34%N :: b) (1 <? 1)) with (Some false) in HD. cbn [mNot option_map negb] in HD.
  assert (ENC : (' (i, nl) <- encLoop cc SString id (34%N :: b) (a :: r) 0;; Some {| o_tok := T_ENCAPSED_AND_WHITESPACE; o_len := i; o_nl := nl; o_st := SString :: s1 :: q; o_id := id |}) = Some o ->
    i <= o_len o + 2 \/ (o_st o = SString :: s1 :: q /\ digitCurly cc (skipn (o_len o) (a :: r)) /\ o_tok o = T_ENCAPSED_AND_WHITESPACE)).
  { intros HE. destruct (encLoop cc SString id (34%N :: b) (a :: r) 0) as [[n nl]|] eqn:EE; [|discriminate]. injection HE as <-. cbn [o_len o_st o_tok].
    destruct (enc_dq cc OK id _ _ _ _ _ _ HD0 EE) as [HE|[_ HE]]; [left; lia|right]. rewrite Nat.sub_0_r in HE. auto. }
  destruct (N.eqb_spec a 34) as [->|N34]; [discriminate HD|]. cbn [mAnd] in HD.
  destruct (N.eqb_spec a 36) as [->|N36].
  - unfold processVariable in H. unfold isC, test in H. cbn [peek option_map] in H. cbn [mAnd N.eqb Pos.eqb] in H, HD. unfold isC, test in HD. cbn [peek] in HD. destruct (peek r 0) as [c|] eqn:Ec; [|discriminate]. cbn [option_map] in H, HD.
    destruct (isIdentStart cc c) eqn:Ei.
    + left. destruct (c =? 123)%N; cbn [mOr] in HD; injection HD as <-; lia.
    + cbn [mAnd] in H. destruct (c =? 123)%N eqn:E1; cbn [mOr] in HD.
      * left. injection HD as <-. lia.
      * cbn [mAnd] in H. apply ENC. exact H.
  - replace (processVariable cc (a :: r)) with (Some (@None nat)) in H.
    2:{ unfold processVariable, isC, test. cbn [peek option_map]. destruct (N.eqb_spec a 36); [congruence|reflexivity]. }
    cbn [mAnd] in H, HD. destruct (N.eqb_spec a 123) as [->|N123].
    + cbn [mAnd N.eqb Pos.eqb] in H. destruct (isC (123%N :: r) 1 36 &&& _) as [[|]|] eqn:EC; [| |discriminate].
      * left. injection H as <-. cbn [o_len]. unfold isC, test in EC. destruct r as [|d r]; [discriminate|]. cbn [peek option_map] in EC.
        destruct (N.eqb_spec d 36) as [->|]; [|discriminate]. cbn [mAnd] in EC. destruct r as [|f r].
        { cbn [peek option_map] in EC. rewrite (isIdentStart_nul cc OK) in EC. discriminate. }
        cbn [peek option_map] in EC. cbn [dqLoop] in HD. change (isEscaped (123%N :: 34%N :: b) (1 <? 2)) with (Some false) in HD.
        cbn [mNot option_map negb mAnd N.eqb Pos.eqb] in HD. unfold isC, test in HD. cbn [peek option_map] in HD.
        assert (HV : (Some (f =? 123)%N ||| Some (isIdentStart cc f)) = Some true).
        { destruct (isIdentStart cc f), (f =? 123)%N; cbn in EC |- *; congruence. }
        rewrite HV in HD. injection HD as <-. lia.
      * apply ENC. exact H.
    + cbn [mAnd] in H. apply ENC. exact H.
Qed.

Lemma stuck_handler s1 q id b it : s1 = DefaultState \/ s1 = StringVariableCurly -> digitCurly cc it ->
  handler cc (SString :: s1 :: q) id b it = Some {| o_tok := T_ENCAPSED_AND_WHITESPACE; o_len := 0; o_nl := []; o_st := SString :: s1 :: q; o_id := id |}.
Proof.
  intros Hs (d & r & -> & Hd). cbn [app]. unfold handler. cbn [stateAt nth_error]. unfold lexString. cbn [peek stateAt nth_error].
  assert (I1 : inString (SString :: s1 :: q) SString = Some true) by reflexivity.
  assert (I2 : inString (SString :: s1 :: q) StringBacktick = Some false) by (destruct Hs as [-> | ->]; reflexivity).
  assert (I3 : inString (SString :: s1 :: q) StringHeredoc = Some false) by (destruct Hs as [-> | ->]; reflexivity).
  rewrite I1, I2, I3. change (stIs SString StringVariable) with false. cbn [negb mAnd andb N.eqb Pos.eqb].
  unfold processVariable, isC, test. cbn [peek option_map negb mAnd andb N.eqb Pos.eqb].
  assert (Ei : isIdentStart cc d = false) by (unfold isIdentStart; rewrite Hd; apply andb_false_r).
  assert (Ed : (d =? 123)%N = false).
  { destruct (N.eqb_spec d 123) as [->|]; [|reflexivity]. rewrite (ok_digit _ OK) in Hd by lia. discriminate. }
  rewrite Ei, Ed. cbn [mOr mAnd encLoop]. change (isEscaped b (0 <? 0)) with (Some false). unfold isC, test. cbn [peek option_map negb mNot mAnd mOr andb N.eqb Pos.eqb].
  assert (Hi : isIdent cc d = true) by (unfold isIdent; rewrite Hd; destruct (isLetter cc d); reflexivity). rewrite Hi. cbn [mOr]. reflexivity.
Qed.
Lemma stuck_runs content l s1 q : lx_st l = SString :: s1 :: q -> s1 = DefaultState \/ s1 = StringVariableCurly -> lx_halt l = 0 ->
  digitCurly cc (skipn (lx_pos l) content) -> forall ts l2, runs cc content l ts l2 -> Forall (fun t => t_kind t = T_ENCAPSED_AND_WHITESPACE) ts.
Proof.
  intros Hst Hs Hh HD ts. induction ts as [|t ts IH]; intros l2 R; [constructor|]. inversion R as [|? l1 ? nl ? ? E K R1]; subst.
  destruct (nextToken_inv cc _ _ _ _ _ E K) as (o & HS). pose proof (tokenStep_kind cc _ _ _ _ _ _ HS K) as Hk.
  destruct HS as (H1 & H2 & H3 & H4 & H5 & H6 & H7). rewrite Hst in H2. rewrite (stuck_handler s1 q _ _ _ Hs HD) in H2. injection H2 as <-.
  cbn [o_tok o_len o_st o_id] in *. constructor; [exact Hk|]. assert (l1 = l).
  { rewrite H5. rewrite Hh in H4. cbn in H4. injection H4 as _ H4. rewrite <- H4, <- Hst, Nat.add_0_r. clear -Hh. destruct l; cbn in *; subst; reflexivity. }
  subst l1. eapply IH; eauto.
Qed.

Lemma skipn_peek (content : list N) p a r : skipn p content = a :: r -> nth_error content p = Some a.
Proof. revert p; induction content as [|c content IH]; intros [|p] H; cbn in *; try discriminate; [injection H as <- _; reflexivity|auto]. Qed.
Lemma skipn_lt (content : list N) p : p < List.length content -> exists a r, skipn p content = a :: r.
Proof. revert p; induction content as [|c content IH]; intros [|p] H; cbn in *; try lia; [eauto|apply IH; lia]. Qed.

(** Where the halt token is. *)
Lemma halt_token content l l1 h nl : nextToken cc content l = Some (l1, h, nl) -> t_kind h = T_HALT_COMPILER ->
  lx_pos l1 = lx_pos l + 15 /\ exists c, nth_error content (lx_pos l) = Some c /\ isSpace cc c = false.
Proof.
  intros E K. destruct (nextToken_inv cc _ _ _ _ _ E ltac:(congruence)) as (o & HS).
  pose proof (tokenStep_kind cc _ _ _ _ _ _ HS ltac:(congruence)) as Hk. pose proof (tokenStep_pos cc _ _ _ _ _ _ HS) as Hp.
  destruct HS as (H1 & H2 & _). destruct (skipn_lt _ _ H1) as (a & r & Er). rewrite Er in H2.
  destruct (halt_source cc _ _ _ _ _ _ H2 ltac:(congruence)) as (_ & Ha & Hl). split; [lia|]. exists a. split; [eapply skipn_peek; eauto|exact Ha].
Qed.

(** The variable a double-quoted string was split for lies before the next token ends. *)
Lemma dq_before content l l1 t nl rest h tail m : LInv cc content l -> nextToken cc content l = Some (l1, t, nl) -> t_kind t = T_DOUBLE_QUOTE ->
  (topIs (lx_st l) DefaultState \/ topIs (lx_st l) StringVariableCurly) ->
  runs cc content l1 (rest ++ h :: tail) m -> t_kind h = T_HALT_COMPILER ->
  forall lh, runs cc content l1 rest lh -> forall i,
  dqLoop cc (34%N :: rev (firstn (lx_pos l) content)) (skipn 1 (skipn (lx_pos l) content)) 1 = Some (i, true) -> lx_pos l + i <= lx_pos lh + 1.
Proof.
  intros HI E K Htop R Hh lh Rh i HD. destruct (nextToken_inv cc _ _ _ _ _ E ltac:(congruence)) as (o & HS).
  pose proof (tokenStep_kind cc _ _ _ _ _ _ HS ltac:(congruence)) as Hk. pose proof (tokenStep_pos cc _ _ _ _ _ _ HS) as Hp.
  destruct HS as (H1 & H2 & H3 & H4 & H5 & H6 & H7). destruct (skipn_lt _ _ H1) as (a & r & Er). rewrite Er in H2, HD.
  destruct (handler_source cc _ _ _ _ _ _ H2) as [[_ HS]|[HN _]]; [|contradiction].
  assert (Ha : a = 34%N /\ lexDQ cc (lx_st l) (lx_id l) (rev (firstn (lx_pos l) content)) (a :: r) = Some o).
  { destruct HS as [A B C|A B C|A B C|A B|A B|A B|A B C|A]; try congruence; auto.
    - apply slash_kinds in B. rewrite <- Hk, K in B. destruct B as [?|[?|?]]; discriminate.
    - apply hash_kinds in B. congruence.
    - apply ident_kinds in C. rewrite <- Hk, K in C. tauto.
    - rewrite <- Hk, K in A. discriminate. }
  destruct Ha as [-> HQ]. cbn [skipn] in HD. unfold lexDQ in HQ. cbn [skipn] in HQ. rewrite HD in HQ. injection HQ as <-. cbn [o_len o_st o_tok o_id] in *.
  assert (Hs : exists s1 q, lx_st l = s1 :: q /\ (s1 = DefaultState \/ s1 = StringVariableCurly)).
  { destruct Htop as [[q Hq]|[q Hq]]; rewrite Hq; eauto. }
  destruct Hs as (s1 & q & Hst & Hs). rewrite Hst in *.
  assert (Hst1 : lx_st l1 = SString :: s1 :: q) by (rewrite H5; reflexivity).
  assert (Hid1 : lx_id l1 = lx_id l) by (rewrite H5; reflexivity).
  assert (Hh1 : lx_halt l1 = 0).
  { destruct (lx_halt l) as [|[|[|[|[|hh]]]]]; cbn in H4; injection H4 as A B; congruence. }
  assert (Ecut : 34%N :: skipn (lx_pos l1) content = 34%N :: r).
  { f_equal. rewrite Hp. replace (lx_pos l + 1) with (1 + lx_pos l) by lia. rewrite Nat.add_comm. rewrite <- skipn_add. rewrite Er. reflexivity. }
  assert (Efst : rev (firstn (lx_pos l1) content) = 34%N :: rev (firstn (lx_pos l) content)).
  { rewrite Hp, firstn_add, Er. cbn [firstn]. rewrite rev_app_distr. reflexivity. }
  destruct rest as [|t2 rest].
  - (* the halt token would come from inside the string *)
    exfalso. cbn [app] in R. inversion R as [|? l2 ? nl2 ? ? E2 K2 R2]; subst.
    destruct (nextToken_inv cc _ _ _ _ _ E2 K2) as (o2 & HS2). pose proof (tokenStep_kind cc _ _ _ _ _ _ HS2 K2) as Hk2.
    destruct HS2 as (G1 & G2 & _). destruct (skipn_lt _ _ G1) as (a2 & r2 & Er2). rewrite Er2 in G2.
    destruct (halt_source cc _ _ _ _ _ _ G2 ltac:(congruence)) as ([[z Hz]|[z Hz]] & _); rewrite Hst1 in Hz; discriminate.
  - cbn [app] in R. inversion R as [|? l2 ? nl2 ? ? E2 K2 R2]; subst. inversion Rh as [|? l2' ? nl2' ? ? E2' K2' Rh2]; subst.
    rewrite E2 in E2'. injection E2' as <- <-.
    destruct (nextToken_inv cc _ _ _ _ _ E2 K2) as (o2 & HS2). pose proof (tokenStep_pos cc _ _ _ _ _ _ HS2) as Hp2.
    destruct HS2 as (G1 & G2 & G3 & G4 & G5 & _). destruct (skipn_lt _ _ G1) as (a2 & r2 & Er2). rewrite Hst1, Er2, Efst in G2. injection Ecut as Ecut. rewrite Ecut in Er2. rewrite Er2 in HD.
    pose proof (runs_mono cc _ _ _ _ Rh2) as Hm.
    destruct (string_first s1 q _ _ _ _ _ _ Hs G2 HD) as [Hi|(Hst2 & Hd & Htok)]; [lia|exfalso].
    assert (Hall : Forall (fun t => t_kind t = T_ENCAPSED_AND_WHITESPACE) (rest ++ h :: tail)).
    { eapply (stuck_runs content l2 s1 q); eauto.
      - rewrite G5. cbn. exact Hst2.
      - rewrite Hh1, Htok in G4. cbn in G4. injection G4 as _ G4. auto.
      - rewrite Hp2, <- skipn_add, Ecut, Er2. exact Hd. }
    apply Forall_app in Hall as [_ Hall]. inversion Hall as [|? ? Hx _]. congruence.
Qed.
End Cut.
