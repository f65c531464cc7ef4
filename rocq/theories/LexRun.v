(** From handlers to whole runs of the lexer (proof file). *)
From Verif Require Export LexSpec LexHandlers6.
Open Scope nat_scope.

Section R.
Variable cc : CharClass.
Hypothesis OK : ascii_ok cc.
Variable content : list N.
Notation size := (List.length content).

Definition LInv (l : LexState) : Prop :=
  Inv cc (lx_st l) (lx_id l) (rev (firstn (lx_pos l) content)) (skipn (lx_pos l) content).

Lemma LInv_init l : initial l -> LInv l.
Proof.
  intros [-> | ->]; constructor; cbn; auto; try lia; try discriminate;
    intros s t E; inversion E; discriminate.
Qed.

Lemma rev_firstn_add n m : rev (firstn m (skipn n content)) ++ rev (firstn n content)
  = rev (firstn (n + m) content).
Proof. now rewrite <- rev_app_distr, <- firstn_add. Qed.

(** Everything one call of nextTokenKind guarantees. *)
Record StepOK (l : LexState) (l' : LexState) (t : Token) (nl : list nat) : Prop := {
  s_inv : LInv l';
  s_kind :
    (* end of file *)
    (size <= lx_pos l /\ l' = l /\ t_kind t = T_EOF /\ nl = [lx_pos l]) \/
    (lx_pos l < size /\
     exists o, handler cc (lx_st l) (lx_id l) (rev (firstn (lx_pos l) content)) (skipn (lx_pos l) content) = Some o /\
       Good cc (lx_st l) (lx_id l) (rev (firstn (lx_pos l) content)) (skipn (lx_pos l) content) o /\
       nl = map (Nat.add (lx_pos l)) (o_nl o) /\ lx_st l' = o_st o /\
       ((* dropped unterminated comment *)
        (o_len o = size - lx_pos l + 2 /\ openBlockComment (skipn (lx_pos l) content) /\
         t_kind t = T_EOF /\ lx_pos l' = S size /\ lx_halt l' = lx_halt l) \/
        (* token *)
        (lx_pos l + o_len o <= S size /\ lx_pos l' = lx_pos l + o_len o /\
         t_begin t = Z.of_nat (lx_pos l) /\ t_end t = (Z.of_nat (lx_pos l') - 1)%Z /\
         (t_kind t, lx_halt l') = haltStep (lx_halt l) (o_tok o))))
}.

Lemma nextToken_ok l : LInv l ->
  wp (nextToken cc content l) (lx_pos l < size /\ yieldNearEnd cc (skipn (lx_pos l) content))
     (fun '(l', t, nl) => StepOK l l' t nl).
Proof.
  intros HI. unfold nextToken. destruct (Nat.leb_spec size (lx_pos l)) as [Hle|Hlt].
  - cbn. constructor; auto.
  - assert (Hne : skipn (lx_pos l) content <> []).
    { intros E. apply (f_equal (@List.length N)) in E. rewrite skipn_length in E. cbn in E. lia. }
    pose proof (handler_good cc OK _ _ _ _ HI Hne) as HG.
    destruct (handler cc (lx_st l) (lx_id l) (rev (firstn (lx_pos l) content)) (skipn (lx_pos l) content))
      as [o|] eqn:EH; cbn [wp] in HG |- *; [|auto].
    pose proof (g_len _ _ _ _ _ _ HG) as Hlen. rewrite skipn_length in Hlen.
    pose proof (g_inv _ _ _ _ _ _ HG) as HI'.
    rewrite rev_firstn_add, skipn_add in HI'.
    destruct (Nat.ltb_spec (S size) (lx_pos l + o_len o)) as [Hov|Hok].
    + destruct Hlen as [Hlen|[Hlen [Hoc _]]]; [lia|].
      cbn [wp]. constructor.
      * unfold LInv; cbn [lx_st lx_id lx_pos].
        rewrite !firstn_all2, !skipn_all2 in * by lia. exact HI'.
      * right. split; auto. exists o. split; [auto|split; [auto|split; [auto|split; [reflexivity|]]]].
        left. cbn. repeat split; auto; lia.
    + destruct (haltStep (lx_halt l) (o_tok o)) as [tk h] eqn:Eh. cbn [wp].
      constructor; [exact HI'|]. right. split; auto. exists o.
      split; [auto|split; [auto|split; [auto|split; [reflexivity|]]]].
      right. cbn. rewrite Eh. repeat split; auto; lia.
Qed.

Lemma step_ok l l' t nl : LInv l -> nextToken cc content l = Some (l', t, nl) -> StepOK l l' t nl.
Proof. intros HI E. pose proof (nextToken_ok l HI) as H. rewrite E in H. exact H. Qed.

Lemma reachable_inv l0 l : initial l0 -> reachable cc content l0 l -> LInv l.
Proof.
  intros H0 HR. induction HR as [|l l' t nl HR IH E]; [now apply LInv_init|].
  apply (s_inv _ _ _ _ (step_ok _ _ _ _ IH E)).
Qed.

Lemma yieldNearEnd_suffix n : yieldNearEnd cc (skipn n content) -> yieldAtEnd cc content.
Proof.
  intros [y [w [r [E [H1 [H2 H3]]]]]]. exists (firstn n content), y, w, r.
  rewrite <- E, firstn_skipn. auto.
Qed.

Lemma digitCurly_suffix n : digitCurly cc (skipn n content) -> braceDollarDigit cc content.
Proof.
  intros [d [r [E H]]]. exists (firstn n content), d, r. split; auto.
  change (str "{$" ++ d :: r) with ([123; 36; d]%N ++ r). rewrite <- E. now rewrite firstn_skipn.
Qed.

(** * No undefined behaviour *)
Lemma lexAll_noUB fuel l : LInv l -> ~ yieldAtEnd cc content -> lexAll cc fuel content l <> None.
Proof.
  intros HI HY. revert l HI. induction fuel as [|f IH]; intros l HI; cbn [lexAll]; [discriminate|].
  pose proof (nextToken_ok l HI) as HS.
  destruct (nextToken cc content l) as [[[l' t] nl]|]; cbn [wp] in HS.
  - destruct (isEOF (t_kind t)); [discriminate|].
    specialize (IH l' (s_inv _ _ _ _ HS)).
    destruct (lexAll cc f content l') as [[ts nls last|]|]; congruence.
  - exfalso. apply HY. eapply yieldNearEnd_suffix. apply HS.
Qed.

(** * Termination *)
Definition topSV (st : list LState) : nat :=
  match st with StringVariable :: _ => 1 | _ => 0 end.
Definition measure (l : LexState) : nat := 2 * (size - lx_pos l) + topSV (lx_st l).

Lemma step_measure l l' t nl : LInv l -> ~ braceDollarDigit cc content ->
  nextToken cc content l = Some (l', t, nl) -> t_kind t <> T_EOF -> measure l' < measure l.
Proof.
  intros HI HB E Ht. destruct (step_ok _ _ _ _ HI E) as [_ [[_ [_ [He _]]]|[Hlt [o [_ [HG [_ [Hst Hk]]]]]]]];
    [congruence|].
  destruct Hk as [[_ [_ [He _]]]|[Hle [Hp _]]]; [congruence|].
  unfold measure. rewrite Hp, Hst.
  destruct (g_prog _ _ _ _ _ _ HG) as [Hpr|[[[q Hq] [Hnq _]]|[Hd _]]].
  - assert (topSV (o_st o) <= 1) by (destruct (o_st o) as [|[] ?]; cbn; lia). lia.
  - assert (topSV (o_st o) = 0).
    { destruct (o_st o) as [|[] q']; cbn; auto. exfalso. apply Hnq. exists q'; auto. }
    rewrite Hq. cbn [topSV]. lia.
  - exfalso. apply HB. eapply digitCurly_suffix. exact Hd.
Qed.

Lemma lexAll_terminates fuel l : LInv l -> ~ braceDollarDigit cc content ->
  measure l < fuel -> lexAll cc fuel content l <> Some OutOfFuel.
Proof.
  intros HI HB. revert l HI. induction fuel as [|f IH]; intros l HI Hm; [lia|]. cbn [lexAll].
  destruct (nextToken cc content l) as [[[l' t] nl]|] eqn:E; [|discriminate].
  destruct (isEOF (t_kind t)) eqn:Et; [discriminate|].
  assert (Hk : t_kind t <> T_EOF) by (intros H; rewrite H in Et; discriminate).
  pose proof (step_measure _ _ _ _ HI HB E Hk).
  specialize (IH l' (s_inv _ _ _ _ (step_ok _ _ _ _ HI E)) ltac:(lia)).
  destruct (lexAll cc f content l') as [[ts nls last|]|]; congruence.
Qed.

(** * Contents of a run *)
Lemma symbol_slice t p q : p <= q -> t_begin t = Z.of_nat p -> t_end t = (Z.of_nat q - 1)%Z ->
  symbol content t = firstn (q - p) (skipn p content).
Proof.
  intros Hpq Hb He. unfold symbol, mid. rewrite Hb, He.
  replace (Z.of_nat q - 1 - Z.of_nat p + 1)%Z with (Z.of_nat (q - p)) by lia.
  replace (Z.of_nat (q - p) <? 0)%Z with false by lia.
  now rewrite !Nat2Z.id.
Qed.

(** Where a finished run stops. *)
Inductive Stop (l : LexState) (toks : list Token) (rest : list N) : Prop :=
| stop_end : size <= lx_pos l -> lx_pos l <= S size -> rest = [] -> Stop l toks rest
| stop_comment : openBlockComment rest -> Stop l toks rest
| stop_halt : lx_halt l = 4 -> Stop l toks rest.

(** The halt counter reflects the tokens seen. *)
Definition haltRel (hist : list Token) (h : nat) : Prop :=
  match h with
  | 0 => True
  | 1 => exists pre k w1, hist = pre ++ k :: w1 /\ t_kind k = T_HALT_COMPILER /\ blanks w1
  | 2 => exists pre k w1 lp w2, hist = pre ++ k :: w1 ++ lp :: w2 /\ t_kind k = T_HALT_COMPILER /\
           t_kind lp = T_LPAREN /\ blanks w1 /\ blanks w2
  | 3 => exists pre k w1 lp w2 rp w3, hist = pre ++ k :: w1 ++ lp :: w2 ++ rp :: w3 /\
           t_kind k = T_HALT_COMPILER /\ t_kind lp = T_LPAREN /\ t_kind rp = T_RPAREN /\
           blanks w1 /\ blanks w2 /\ blanks w3
  | 4 => endsWithHalt hist
  | _ => False
  end.

Lemma blanks_snoc w t : blanks w -> isBlankOrComment (t_kind t) = true -> blanks (w ++ [t]).
Proof.
  intros Hw Ht. apply Forall_app. split; auto. constructor; auto.
  destruct (t_kind t); try discriminate; auto.
Qed.

Lemma haltRel_step hist h tok t :
  haltRel hist h -> (t_kind t, snd (haltStep h tok)) = haltStep h tok -> t_kind t <> T_EOF ->
  haltRel (hist ++ [t]) (snd (haltStep h tok)).
Proof.
  intros HR HE Hk. unfold haltStep in *.
  destruct (Nat.eqb_spec h 0) as [->|H0].
  { destruct tok; cbn in *; auto. inversion HE as [Hkk]. exists hist, t, [].
    repeat split; auto. constructor. }
  destruct (Nat.eqb_spec h 4) as [->|H4].
  { cbn in HE. inversion HE as [Hkk]. congruence. }
  destruct (isBlankOrComment tok) eqn:Eb.
  { assert (Ekk : t_kind t = tok) by (destruct tok; cbn in *; inversion HE; auto; discriminate).
    rewrite <- Ekk in Eb.
    replace (snd (match tok with T_HALT_COMPILER => (tok, if h =? 0 then 1 else h) | _ => (tok, h) end)) with h
      by (destruct tok; cbn; auto; rewrite Ekk in Eb; discriminate).
    destruct h as [|[|[|[|[|h]]]]]; cbn [haltRel] in *; try tauto; try congruence.
    - destruct HR as [pre [k [w1 [-> [H1 H2]]]]]. exists pre, k, (w1 ++ [t]).
      rewrite <- app_assoc. cbn. repeat split; auto. now apply blanks_snoc.
    - destruct HR as [pre [k [w1 [lp [w2 [-> [H1 [H2 [H3 H5]]]]]]]]]. exists pre, k, w1, lp, (w2 ++ [t]).
      rewrite <- app_assoc. cbn. rewrite <- app_assoc. cbn. repeat split; auto. now apply blanks_snoc.
    - destruct HR as [pre [k [w1 [lp [w2 [rp [w3 [-> [H1 [H2 [H3 [H5 [H6 H7]]]]]]]]]]]]].
      exists pre, k, w1, lp, w2, rp, (w3 ++ [t]).
      rewrite <- app_assoc. cbn. rewrite <- app_assoc. cbn. rewrite <- app_assoc. cbn.
      repeat split; auto. now apply blanks_snoc. }
  assert (HZ : haltRel (hist ++ [t]) 0) by exact I.
  assert (HO : t_kind t = T_HALT_COMPILER -> haltRel (hist ++ [t]) 1).
  { intros Hh. exists hist, t, []. repeat split; auto. constructor. }
  destruct h as [|[|[|[|[|h]]]]]; try congruence; try (destruct HR; fail).
  - destruct tok; try exact HZ; cbn in *; try (apply HO; inversion HE; auto; fail); try discriminate.
    destruct HR as [pre [k [w1 [-> [H1 H2]]]]]. exists pre, k, w1, t, [].
    rewrite <- app_assoc. cbn. inversion HE. repeat split; auto. constructor.
  - destruct tok; try exact HZ; cbn in *; try (apply HO; inversion HE; auto; fail); try discriminate.
    destruct HR as [pre [k [w1 [lp [w2 [-> [H1 [H2 [H3 H5]]]]]]]]].
    exists pre, k, w1, lp, w2, t, [].
    rewrite <- app_assoc. cbn. rewrite <- app_assoc. cbn. inversion HE. repeat split; auto. constructor.
  - destruct tok; try exact HZ; cbn in *; try (apply HO; inversion HE; auto; fail); try discriminate.
    destruct HR as [pre [k [w1 [lp [w2 [rp [w3 [-> [H1 [H2 [H3 [H5 [H6 H7]]]]]]]]]]]]].
    exists pre, k, w1, lp, w2, rp, w3, t.
    rewrite <- app_assoc. cbn. rewrite <- app_assoc. cbn. rewrite <- app_assoc. cbn.
    inversion HE. repeat split; auto.
Qed.

Lemma haltStep_eof h tok : tok <> T_EOF -> fst (haltStep h tok) = T_EOF -> h = 4.
Proof.
  unfold haltStep. intros Hk.
  destruct (Nat.eqb_spec h 0) as [->|]; [destruct tok; cbn; congruence|].
  destruct (Nat.eqb_spec h 4) as [->|]; auto.
  destruct (isBlankOrComment tok); [destruct tok; cbn; congruence|].
  destruct h as [|[|[|[|[|h]]]]]; destruct tok; cbn; congruence.
Qed.

Lemma haltRel_le h hist : haltRel hist h -> h <= 4.
Proof. destruct h as [|[|[|[|[|h]]]]]; cbn; intros; try tauto; lia. Qed.

Lemma haltStep_kind h tok k h' : (k, h') = haltStep h tok -> k <> T_EOF -> k = tok.
Proof.
  intros Hh Hk.
  assert (Hf : fst (haltStep h tok) = k) by (rewrite <- Hh; reflexivity).
  rewrite <- Hf in Hk |- *. revert Hk. clear. unfold haltStep.
  destruct (h =? 0); [destruct tok; cbn; congruence|].
  destruct (h =? 4); [cbn; congruence|].
  destruct (isBlankOrComment tok); [destruct tok; cbn; congruence|].
  destruct h as [|[|[|[|?]]]]; destruct tok; cbn; congruence.
Qed.

Lemma lexAll_tokens fuel : forall l hist toks nls last,
  LInv l -> haltRel hist (lx_halt l) -> lx_pos l <= S size ->
  lexAll cc fuel content l = Some (Done toks nls last) ->
  contiguous (Z.of_nat (lx_pos l)) toks /\
  (forall t, In t toks -> t_kind t <> T_EOF /\
     (0 <= t_begin t /\ t_begin t <= t_end t + 1 /\ t_begin t < Z.of_nat size /\ t_end t <= Z.of_nat size)%Z /\
     (t_end t = Z.of_nat size -> t_kind t = T_INLINE_HTML \/ t_kind t = T_COMMENT \/ t_kind t = T_DOC_COMMENT)) /\
  exists rest, skipn (lx_pos l) content = List.concat (map (symbol content) toks) ++ rest /\
    (rest = [] \/ openBlockComment rest \/ endsWithHalt (hist ++ toks)).
Proof.
  induction fuel as [|f IH]; intros l hist toks nls last HI HR Hpos; cbn [lexAll]; [discriminate|].
  destruct (nextToken cc content l) as [[[l' t] nl]|] eqn:E; [|discriminate].
  pose proof (step_ok _ _ _ _ HI E) as [HI' HK].
  destruct (isEOF (t_kind t)) eqn:Et.
  - intros H; inversion H; subst; clear H. cbn [contiguous map List.concat app].
    split; auto. split; [intros ? []|]. rewrite app_nil_r.
    eexists; split; [reflexivity|].
    destruct HK as [[Hle _]|[Hlt [o [_ [HG [_ [_ [[_ [Hoc _]]|[Hle [Hp [_ [_ Hh]]]]]]]]]]]].
    + left. apply skipn_all2. lia.
    + right. left. exact Hoc.
    + right. right. assert (Hf : fst (haltStep (lx_halt l) (o_tok o)) = T_EOF).
      { rewrite <- Hh. cbn. destruct (t_kind t); auto; discriminate. }
      apply haltStep_eof in Hf; [|apply (g_noeof _ _ _ _ _ _ HG)].
      rewrite Hf in HR. exact HR.
  - destruct (lexAll cc f content l') as [[ts nls' last'|]|] eqn:ER; try discriminate.
    intros H; inversion H; subst; clear H.
    destruct HK as [[_ [_ [He _]]]|[Hlt [o [_ [HG [_ [_ HK]]]]]]]; [rewrite He in Et; discriminate|].
    destruct HK as [[_ [_ [He _]]]|[Hle [Hp [Hb [Hend Hh]]]]]; [rewrite He in Et; discriminate|].
    assert (Hk : t_kind t <> T_EOF) by (intros He; rewrite He in Et; discriminate).
    assert (Hh2 : snd (haltStep (lx_halt l) (o_tok o)) = lx_halt l') by (rewrite <- Hh; reflexivity).
    assert (HR' : haltRel (hist ++ [t]) (lx_halt l')).
    { rewrite <- Hh2. apply haltRel_step; auto. rewrite Hh2. exact Hh. }
    destruct (IH l' (hist ++ [t]) ts nls' last HI' HR' ltac:(lia) ER) as [HC [HB [rest [Hrest HS]]]].
    cbn [contiguous map List.concat]. split; [|split].
    + split; auto. replace (t_end t + 1)%Z with (Z.of_nat (lx_pos l')) by lia. exact HC.
    + intros x [<-|Hx]; [|auto]. split; auto. split; [lia|].
      intros Hx. assert (Hkk : t_kind t = o_tok o) by (eapply haltStep_kind; eauto).
      rewrite Hkk. apply (g_over _ _ _ _ _ _ HG). rewrite skipn_length. lia.
    + exists rest. rewrite <- app_assoc in HS. split; [|exact HS].
      rewrite (symbol_slice t (lx_pos l) (lx_pos l')) by (auto; lia).
      rewrite <- app_assoc, <- Hrest.
      replace (skipn (lx_pos l') content) with (skipn (lx_pos l' - lx_pos l) (skipn (lx_pos l) content))
        by (rewrite skipn_add; f_equal; lia).
      symmetry. apply firstn_skipn.
Qed.
End R.
