(** The whole switch over the lexer modes keeps the invariants (proof file). *)
From Verif Require Export LexHandlers4.
From Coq Require Import Sorted.
Open Scope nat_scope.

Section H.
Variable cc : CharClass.
Hypothesis OK : ascii_ok cc.

Notation Inv := (Inv cc).
Notation Good := (Good cc).
Notation noNL s := (Forall (fun c => c <> 10%N) s).

Lemma wp_weaken {A} (x : option A) (u u' : Prop) Q : (u -> u') -> wp x u Q -> wp x u' Q.
Proof. destruct x; cbn; auto. Qed.

Lemma lexDefault_good st id before it :
  Inv st id before it -> it <> [] ->
  (topIs st DefaultState \/ topIs st StringVariableCurly) ->
  wp (lexDefault cc st id before it) (yieldNearEnd cc it) (Good st id before it).
Proof.
  intros HI Hne Ht. destruct it as [|c r]; [congruence|].
  assert (Hn : noNeed st) by (intros s t E; destruct Ht as [[t' ->]|[t' ->]]; inversion E; reflexivity).
  unfold lexDefault. change (peek (c :: r) 0) with (Some c). cbv iota beta.
  assert (Hs : exists s, stateAt st 0 = Some s /\
     ((s = DefaultState /\ topIs st DefaultState) \/ (s = StringVariableCurly /\ topIs st StringVariableCurly))).
  { destruct Ht as [[t' ->]|[t' ->]]; cbn; eexists; split; eauto; [left|right]; split; auto; eexists; eauto. }
  destruct Hs as [s [-> Hs]].
  destruct (isSpace cc c) eqn:Esp.
  { destruct (scanWhile_spec (isSpace cc) (c :: r) 0) as [n [-> Hsc]]. cbn [wp Nat.add].
    apply Good_same; auto; try discriminate. split; [eapply scan_pos; eauto|apply Hsc]. }
  assert (Hc10 : c <> 10%N) by (intros ->; rewrite (isSpace_nl cc OK) in Esp; discriminate).
  assert (HS1 : forall t ub, t <> T_EOF -> wp (simple st id t 1) ub (Good st id before (c :: r))).
  { intros t ub Htk. unfold simple; cbn [wp]. apply Good_simple; auto; cbn; try lia. }
  set (num := Some (isDigit cc c) ||| _).
  assert (Hnum : exists b, num = Some b /\ (b = true -> isDigit cc c = true \/ c = 46%N)).
  { unfold num, test. change (peek (c :: r) 1) with (peek r 0). rewrite peek0. cbn [option_map].
    destruct (isDigit cc c); cbn; eauto. destruct (N.eqb_spec c 46); cbn; eauto. }
  destruct Hnum as [b [-> Hb]]. destruct b.
  { eapply wp_weaken; [|apply lexNumber_good; auto]. tauto. }
  pose proof (processVariable_spec cc OK (c :: r) Hne) as HV.
  destruct (processVariable cc (c :: r)) as [[len|]|]; cbn [wp] in HV; [| |tauto].
  { destruct HV as [c1 [r1 [E [Hc1 [Hl [Hnl _]]]]]]. unfold simple; cbn [wp].
    apply Good_simple; auto; try lia; discriminate. }
  assert (HW : forall x, wp x False (Good st id before (c :: r)) ->
                         wp x (yieldNearEnd cc (c :: r)) (Good st id before (c :: r))).
  { intros x. apply wp_weaken. tauto. }
  destruct (N.eqb_spec c 36); [apply HS1; discriminate|].
  destruct (N.eqb_spec c 125).
  { destruct (stIs s StringVariableCurly) eqn:Es; [|apply HS1; discriminate].
    destruct Hs as [[-> _]|[-> [t' Ht']]]; [discriminate|].
    rewrite Ht' in HI |- *. cbn [pop]. unfold simple; cbn [wp].
    apply Good_newst; cbn [List.length]; try lia; try discriminate.
    - eapply Inv_pop; eauto. discriminate.
    - subst c. reflexivity. }
  destruct (N.eqb_spec c 123).
  { destruct (stIs s StringVariableCurly) eqn:Es; [|apply HS1; discriminate].
    destruct Hs as [[-> _]|[-> [t' Ht']]]; [discriminate|].
    unfold simple; cbn [wp].
    apply Good_newst; cbn [List.length]; try lia; try discriminate.
    - apply (Inv_push cc st id); auto.
      + pose proof (inv_wf _ _ _ _ _ HI) as Hw. subst st. split; auto.
      + exists c. cbn. split; auto. subst; discriminate.
      + intros He. apply (inv_id _ _ _ _ _ HI). exact He.
      + apply (inv_idnl _ _ _ _ _ HI).
      + discriminate.
    - subst c. reflexivity. }
  destruct (N.eqb_spec c 41); [apply HS1; discriminate|].
  destruct (N.eqb_spec c 40); [subst; apply HW, lexParen_good; auto|].
  destruct (N.eqb_spec c 93); [apply HS1; discriminate|].
  destruct (N.eqb_spec c 91); [apply HS1; discriminate|].
  destruct (N.eqb_spec c 44); [apply HS1; discriminate|].
  destruct (N.eqb_spec c 64); [apply HS1; discriminate|].
  destruct (N.eqb_spec c 33); [subst; apply HW, lexBang_good; auto|].
  destruct (N.eqb_spec c 60); [subst; apply HW, lexLess_good; auto|].
  destruct (N.eqb_spec c 62); [subst; apply HW, lexGreater_good; auto|].
  destruct (N.eqb_spec c 126); [apply HS1; discriminate|].
  destruct (N.eqb_spec c 58); [subst; apply HW, lexColon_good; auto|].
  destruct (N.eqb_spec c 63); [subst; apply HW, lexQuestion_good; auto|].
  set (arrow := Some (c =? 45)%N &&& _).
  assert (Ha : (exists r', c :: r = (45 :: 62 :: r')%N /\ arrow = Some true) \/ arrow = Some false).
  { unfold arrow, isC, test. change (peek (c :: r) 1) with (peek r 0). rewrite peek0. cbn [option_map].
    destruct (N.eqb_spec c 45); cbn; auto. subst c.
    destruct r as [|x r]; cbn [hd]; [right; reflexivity|].
    destruct (N.eqb_spec x 62); subst; eauto. }
  destruct Ha as [[r' [E ->]]| ->].
  { rewrite E in *. apply HW, lexArrow_good; auto. }
  destruct (N.eqb_spec c 37); [apply HW, lexOpAssign_good; auto; discriminate|].
  destruct (N.eqb_spec c 47); [subst; apply HW, lexSlash_good; auto|].
  destruct (N.eqb_spec c 35); [subst; apply HW, lexHash_good; auto|].
  destruct (N.eqb_spec c 94); [apply HW, lexOpAssign_good; auto; discriminate|].
  destruct (N.eqb_spec c 42); [subst; apply HW, lexStar_good; auto|].
  destruct (N.eqb_spec c 124); [subst; apply HW, lexDouble_good; auto; discriminate|].
  destruct (N.eqb_spec c 38); [subst; apply HW, lexDouble_good; auto; discriminate|].
  destruct (N.eqb_spec c 43); [subst; apply HW, lexDouble_good; auto; discriminate|].
  destruct (N.eqb_spec c 45); [subst; apply HW, lexDouble_good; auto; discriminate|].
  destruct (N.eqb_spec c 46); [subst; apply HW, lexDot_good; auto|].
  destruct (N.eqb_spec c 92); [apply HS1; discriminate|].
  destruct (N.eqb_spec c 59); [apply HS1; discriminate|].
  destruct (N.eqb_spec c 39); [subst; apply HW, lexSQ_good; auto|].
  destruct (N.eqb_spec c 34); [subst; apply HW, lexDQ_good; auto|].
  destruct (N.eqb_spec c 96).
  { unfold simple; cbn [wp].
    apply Good_newst; cbn [List.length]; try lia; try discriminate.
    - apply (Inv_push cc st id); auto.
      + pose proof (inv_wf _ _ _ _ _ HI) as Hw. destruct Ht as [[t' ->]|[t' ->]]; split; auto.
      + exists c. cbn. split; auto.
      + intros He. apply (inv_id _ _ _ _ _ HI). exact He.
      + apply (inv_idnl _ _ _ _ _ HI).
      + discriminate.
    - subst c. reflexivity. }
  destruct (N.eqb_spec c 61); [subst; apply HW, lexEqual_good; auto|].
  destruct (isIdentStart cc c) eqn:Ei; [apply lexIdent_good; auto|].
  apply HS1; discriminate.
Qed.

(** Heredoc ends *)
Lemma isHereNowDocEnd_spec id it :
  exists b, isHereNowDocEnd id it = Some b /\
    (b = true -> exists r, it = id ++ r /\ r <> []).
Proof.
  unfold isHereNowDocEnd. destruct (eqs (firstn (List.length id) it) id) eqn:E.
  - apply eqs_eq in E.
    assert (Hl : List.length id <= List.length it).
    { rewrite <- E at 1. rewrite firstn_length. lia. }
    cbn [mAnd]. unfold isC, test.
    replace (peek it (List.length id)) with (peek (skipn (List.length id) it) 0)
      by (rewrite peek_skipn by lia; f_equal; lia).
    replace (peek it (S (List.length id))) with (peek (skipn (List.length id) it) 1)
      by (rewrite peek_skipn by lia; f_equal; lia).
    assert (Hit : it = id ++ skipn (List.length id) it)
      by (rewrite <- E at 1; symmetry; apply firstn_skipn).
    destruct (skipn (List.length id) it) as [|x q] eqn:Eq.
    + cbn. exists false; split; auto; discriminate.
    + exists (let x1 := peek (x :: q) 1 in match x1 with Some x1 => (x =? 10)%N || ((x =? 59)%N && (x1 =? 10)%N) | None => false end).
      change (peek (x :: q) 1) with (peek q 0). rewrite !peek0. cbn [option_map hd].
      split.
      * destruct (x =? 10)%N, (x =? 59)%N; cbn; auto.
      * intros _. exists (x :: q). split; auto. discriminate.
  - cbn. exists false; split; auto; discriminate.
Qed.

Lemma encLoop_spec s id it : forall before i, hasStop before ->
  wp (encLoop cc s id before it i) False (fun '(j, nl) =>
    exists n, j = i + n /\ n <= List.length it /\ nl = newlinesFrom (firstn n it) i).
Proof.
  induction it as [|c t IH]; intros before i Hb; cbn [encLoop].
  - exists 0. cbn. repeat split; auto; lia.
  - destruct (isEscaped_some before (0 <? i) Hb) as [e ->].
    set (brk := (mNot (Some e) &&& _) ||| _ ||| _).
    assert (Hbrk : exists b, brk = Some b).
    { unfold brk, isC, test. destruct t as [|c1 t]; cbn;
        rewrite ?(isIdent_nul cc OK), ?(isIdentStart_nul cc OK);
        destruct e, (stIs s SString), (stIs s StringBacktick); cbn;
        destruct (N.eqb_spec c 36); cbn; eauto;
        destruct (c =? 123)%N, (c =? 34)%N, (c =? 96)%N; cbn; eauto;
        try (destruct (c1 =? 123)%N; cbn; eauto);
        try (destruct (N.eqb_spec c1 36); cbn; eauto);
        try (destruct t as [|c2 t]; cbn; rewrite ?(isIdent_nul cc OK); cbn; eauto);
        try (destruct (isIdent cc c2); cbn; eauto);
        try (destruct (isIdentStart cc c1); cbn; eauto). }
    destruct Hbrk as [b ->]. destruct b.
    { exists 0. cbn. repeat split; auto; lia. }
    destruct (isHereNowDocEnd_spec id t) as [e' [-> _]].
    set (stop := Some (stIs s StringHeredoc) &&& _ &&& _).
    assert (Hst : exists b, stop = Some b).
    { unfold stop. destruct (stIs s StringHeredoc), (c =? 10)%N; cbn; eauto. }
    destruct Hst as [b ->]. destruct b.
    { exists 1. cbn [firstn newlinesFrom List.length]. repeat split; auto; lia. }
    specialize (IH (c :: before) (S i) (hasStop_cons c _ Hb)).
    destruct (encLoop cc s id (c :: before) t (S i)) as [[j nl]|]; cbn [wp] in *; auto.
    destruct IH as [n [-> [Hn ->]]]. exists (S n). cbn [List.length].
    repeat split; auto; try lia.
Qed.

(** Does the loop stop at once? *)
Definition strMode (s : LState) : bool :=
  match s with SString | StringBacktick | StringHeredoc => true | _ => false end.

Lemma encLoop_progress s id before c t :
  hasStop before ->
  (stIs s SString = true -> c <> 34%N) -> (stIs s StringBacktick = true -> c <> 96%N) ->
  wp (encLoop cc s id before (c :: t) 0) False (fun '(j, nl) =>
    0 < j \/
    ((exists r, c :: t = 36 :: 123 :: r)%N \/
     (exists d r, c :: t = (123 :: 36 :: d :: r)%N /\ isIdent cc d = true) \/
     (exists d r, c :: t = (36 :: d :: r)%N /\ isIdentStart cc d = true))).
Proof.
  intros Hb H34 H96. pose proof (encLoop_spec s id t (c :: before) 1 (hasStop_cons c _ Hb)) as HL.
  cbn [encLoop]. change (isEscaped before (0 <? 0)) with (Some false). cbn [mNot option_map negb].
  set (brk := (Some true &&& _) ||| _ ||| _).
  assert (Hbrk : brk = Some false \/ (brk = Some true /\
    ((exists r, c :: t = 36 :: 123 :: r)%N \/
     (exists d r, c :: t = (123 :: 36 :: d :: r)%N /\ isIdent cc d = true) \/
     (exists d r, c :: t = (36 :: d :: r)%N /\ isIdentStart cc d = true)))).
  { assert (Hq : Some (stIs s SString) &&& Some (c =? 34)%N &&& Some true = Some false).
    { destruct (stIs s SString) eqn:E1; auto. destruct (N.eqb_spec c 34); auto. now specialize (H34 eq_refl). }
    assert (Hq' : Some (stIs s StringBacktick) &&& Some (c =? 96)%N &&& Some true = Some false).
    { destruct (stIs s StringBacktick) eqn:E1; auto. destruct (N.eqb_spec c 96); auto. now specialize (H96 eq_refl). }
    unfold brk. rewrite Hq, Hq'. clear brk Hq Hq' HL. unfold isC, test.
    destruct t as [|c1 t]; cbn [peek option_map mAnd mOr].
    - destruct (N.eqb_spec c 36); cbn; rewrite ?(isIdentStart_nul cc OK); cbn; auto;
      destruct (c =? 123)%N; cbn; auto.
    - destruct (N.eqb_spec c 36); cbn; subst.
      + destruct (N.eqb_spec c1 123); cbn; subst.
        * right. split; eauto.
        * destruct (isIdentStart cc c1) eqn:E; cbn; auto. right. split; eauto 6.
      + destruct (N.eqb_spec c 123); cbn; subst; auto.
        destruct (N.eqb_spec c1 36); cbn; subst; auto.
        destruct t as [|c2 t]; cbn; rewrite ?(isIdent_nul cc OK); cbn; auto.
        destruct (isIdent cc c2) eqn:E; cbn; auto. right. split; eauto 8. }
  destruct Hbrk as [-> | [-> Hd]]; [|cbn; auto].
  destruct (isHereNowDocEnd_spec id t) as [e' [-> _]].
  set (stop := Some (stIs s StringHeredoc) &&& _ &&& _).
  assert (Hst : exists b, stop = Some b).
  { unfold stop. destruct (stIs s StringHeredoc), (c =? 10)%N; cbn; eauto. }
  destruct Hst as [b ->]. destruct b; [cbn; left; lia|].
  destruct (encLoop cc s id (c :: before) t 1) as [[j nl]|]; cbn [wp] in *; auto.
  destruct HL as [n [-> _]]. left; lia.
Qed.
End H.
