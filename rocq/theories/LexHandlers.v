(** Every handler of the lexer model keeps the invariants (proof file). *)
From Verif Require Export LexInv.
From Coq Require Import Sorted.
Open Scope nat_scope.

Section H.
Variable cc : CharClass.
Hypothesis OK : ascii_ok cc.

Notation Inv := (Inv cc).
Notation Good := (Good cc).

Ltac proj := cbn [o_tok o_len o_nl o_st o_id].

Definition noNeed (st : list LState) : Prop := forall s r, st = s :: r -> needsIdent s = false.

Lemma wfS_below s s' t : wfS (s :: s' :: t) -> s <> HtmlState -> wfS (s' :: t).
Proof.
  intros H Hs. destruct s; simpl in H; try congruence; try tauto.
  inversion H; subst. simpl; auto.
Qed.

Lemma wfS_allowed s s' t : wfS (s :: s' :: t) -> s <> HtmlState -> s <> DefaultState ->
  allowedOn s s' = true.
Proof. intros H Hs Hd. destruct s; simpl in H; try congruence; tauto. Qed.

Lemma wfS_two s t : wfS (s :: t) -> exists s' t', t = s' :: t'.
Proof. intros H; destruct s, t; simpl in H; try congruence; try tauto; eauto. Qed.

Lemma allowed_need s s' : allowedOn s s' = true -> needsIdent s' = false.
Proof. destruct s, s'; simpl; congruence. Qed.

Lemma noNeed_below s t : wfS (s :: t) -> s <> HtmlState -> noNeed t.
Proof.
  intros H Hs x r E; subst.
  destruct (LState_eq_dec s DefaultState) as [->|].
  - simpl in H. inversion H; reflexivity.
  - eapply allowed_need. eapply wfS_allowed; eauto.
Qed.

Lemma Inv_pop st id before it s n :
  Inv (s :: st) id before it -> s <> HtmlState -> 
  Inv st id (rev (firstn n it) ++ before) (skipn n it).
Proof.
  intros HI Hs. pose proof (inv_wf _ _ _ _ _ HI) as Hw.
  destruct (wfS_two _ _ Hw) as [s' [t' ->]].
  destruct HI as [_ Hb Hi Hnl Hd]. constructor; auto.
  - eapply wfS_below; eauto.
  - intros Hl. destruct Hb as [c [? ?]]; [simpl in *; lia|]. exists c; split; auto.
    apply in_or_app; auto.
  - intros He. apply Hi. simpl in *. rewrite He. now rewrite orb_true_r.
  - intros x r E Hx. pose proof (noNeed_below _ _ Hw Hs x r E). congruence.
Qed.

Lemma Inv_push st id before it s n id' :
  Inv st id before it -> wfS (s :: st) -> 
  (exists c, In c (firstn n it) /\ c <> 92%N) ->
  (existsb isDoc (s :: st) = true -> id' <> []) -> ~ In 10%N id' ->
  (needsIdent s = true -> exists c r, skipn n it = c :: r /\ isIdent cc c = true) ->
  Inv (s :: st) id' (rev (firstn n it) ++ before) (skipn n it).
Proof.
  intros HI Hw [c [Hc Hc']] Hi Hidnl Hn. constructor; auto.
  - intros _. exists c; split; auto. apply in_or_app. left. now apply -> in_rev.
  - intros x r E Hx. inversion E; subst. auto.
Qed.

Lemma Good_same st id before it t n nl :
  Inv st id before it -> noNeed st -> 0 < n <= List.length it -> t <> T_EOF ->
  nl = newlinesFrom (firstn n it) 0 ->
  Good st id before it {| o_tok := t; o_len := n; o_nl := nl; o_st := st; o_id := id |}.
Proof.
  intros HI Hn Hl Ht ->. constructor; proj; auto; try lia.
  - apply Inv_keep; auto.
  - apply newlinesFrom_sorted.
  - apply Forall_forall. intros x Hx. apply newlinesFrom_range in Hx.
    rewrite firstn_length_le' in Hx by lia. lia.
Qed.

Lemma Good_newst st id before it t n nl st' id' :
  Inv st' id' (rev (firstn n it) ++ before) (skipn n it) ->
  0 < n <= List.length it -> t <> T_EOF ->
  nl = newlinesFrom (firstn n it) 0 ->
  Good st id before it {| o_tok := t; o_len := n; o_nl := nl; o_st := st'; o_id := id' |}.
Proof.
  intros HI Hl Ht ->. constructor; proj; auto; try lia.
  - apply newlinesFrom_sorted.
  - apply Forall_forall. intros x Hx. apply newlinesFrom_range in Hx.
    rewrite firstn_length_le' in Hx by lia. lia.
Qed.

(** Case analysis on fixed look-aheads. *)
Ltac chop :=
  cbn [isC test peek option_map mAnd mOr mNot negb] in *.
Ltac eqbs :=
  repeat match goal with
  | |- context [(?a =? ?b)%N] => destruct (N.eqb_spec a b); [subst; try discriminate|]; cbn
  end.

(** Fixed operators with unchanged state: all goals are Good_simple goals. *)
Ltac op_done :=
  apply Good_simple; auto; cbn [firstn List.length]; try lia; try discriminate;
  cbn [In]; intros ? ?; intuition (subst; try discriminate; try congruence).

Lemma lexBang_good st id before r :
  Inv st id before (cBANG :: r) -> noNeed st ->
  wp (lexBang st id (cBANG :: r)) False (Good st id before (cBANG :: r)).
Proof.
  intros HI Hn. unfold lexBang, isC, test, simple, wp.
  destruct r as [|c1 [|c2 r]]; cbn; eqbs; op_done.
Qed.

Lemma lexGreater_good st id before r :
  Inv st id before (cGT :: r) -> noNeed st ->
  wp (lexGreater st id (cGT :: r)) False (Good st id before (cGT :: r)).
Proof.
  intros HI Hn. unfold lexGreater, isC, test, simple, wp.
  destruct r as [|c1 [|c2 r]]; cbn; eqbs; op_done.
Qed.

Lemma lexColon_good st id before r :
  Inv st id before (cCOLON :: r) -> noNeed st ->
  wp (lexColon st id (cCOLON :: r)) False (Good st id before (cCOLON :: r)).
Proof.
  intros HI Hn. unfold lexColon, isC, test, simple, wp.
  destruct r as [|c1 r]; cbn; eqbs; op_done.
Qed.

Lemma lexStar_good st id before r :
  Inv st id before (cSTAR :: r) -> noNeed st ->
  wp (lexStar st id (cSTAR :: r)) False (Good st id before (cSTAR :: r)).
Proof.
  intros HI Hn. unfold lexStar, isC, test, simple, wp.
  destruct r as [|c1 [|c2 r]]; cbn; eqbs; op_done.
Qed.

Lemma lexEqual_good st id before r :
  Inv st id before (cEQ :: r) -> noNeed st ->
  wp (lexEqual st id (cEQ :: r)) False (Good st id before (cEQ :: r)).
Proof.
  intros HI Hn. unfold lexEqual, isC, test, simple, wp.
  destruct r as [|c1 [|c2 r]]; cbn; eqbs; op_done.
Qed.

Lemma lexDot_good st id before r :
  Inv st id before (cDOT :: r) -> noNeed st ->
  wp (lexDot st id (cDOT :: r)) False (Good st id before (cDOT :: r)).
Proof.
  intros HI Hn. unfold lexDot, isC, test, simple, wp.
  destruct r as [|c1 [|c2 r]]; cbn; eqbs; op_done.
Qed.

Lemma lexOpAssign_good st id before c r t ta :
  Inv st id before (c :: r) -> noNeed st -> c <> 10%N -> t <> T_EOF -> ta <> T_EOF ->
  wp (lexOpAssign st id (c :: r) t ta) False (Good st id before (c :: r)).
Proof.
  intros HI Hn ? ? ?. unfold lexOpAssign, isC, test, simple, wp.
  destruct r as [|c1 r]; cbn; eqbs; op_done.
Qed.

Lemma lexDouble_good st id before c r td ta t :
  Inv st id before (c :: r) -> noNeed st -> c <> 10%N -> c <> 0%N ->
  t <> T_EOF -> ta <> T_EOF -> td <> T_EOF ->
  wp (lexDouble st id (c :: r) c td ta t) False (Good st id before (c :: r)).
Proof.
  intros HI Hn ? ? ? ? ?. unfold lexDouble, isC, test, simple, wp.
  destruct r as [|c1 r].
  - cbn. destruct c; cbn; [congruence|]. op_done.
  - cbn. destruct (N.eqb_spec c1 c); subst; eqbs; op_done.
Qed.

(** Scans *)
Lemma scan_nonl p (it : list N) n :
  scanResult p it n -> p 10%N = false -> forall c, In c (firstn n it) -> c <> 10%N.
Proof.
  intros [_ [Hf _]] Hp c Hc ->. rewrite Forall_forall in Hf. apply Hf in Hc. congruence.
Qed.

Lemma scan_pos p c (r : list N) n : scanResult p (c :: r) n -> p c = true -> 0 < n.
Proof.
  intros [_ [_ Hx]] Hp. destruct n; [|lia]. specialize (Hx c eq_refl). congruence.
Qed.

Lemma processVariable_spec it :
  it <> [] ->
  wp (processVariable cc it) False
     (fun v => match v with
               | None => ~ (exists c r, it = cDOLLAR :: c :: r /\ isIdentStart cc c = true)
               | Some len => exists c r, it = cDOLLAR :: c :: r /\ isIdentStart cc c = true /\
                    2 <= len <= List.length it /\
                    (forall x, In x (firstn len it) -> x <> 10%N) /\
                    scanResult (isIdent cc) (c :: r) (len - 1)
               end).
Proof.
  intros Hne. destruct it as [|a it]; [congruence|].
  unfold processVariable, isC, test; cbn.
  destruct (N.eqb_spec a 36) as [->|Ha]; cbn.
  - destruct it as [|c r]; cbn.
    + rewrite (isIdentStart_nul cc OK). cbn. intros [c [r [E _]]]; congruence.
    + destruct (isIdentStart cc c) eqn:E; cbn.
      * exists c, r. split; auto. split; auto.
        rewrite (isIdentStart_ident cc _ E).
        destruct (skipWhile_spec (isIdent cc) r 2) as [n [Hn Hs]]. rewrite Hn. cbn [fst].
        pose proof Hs as [Hl [Hf Hx]]. split; [cbn; lia|]. split.
        -- intros x Hx'. change (2 + n) with (S (S n)) in Hx'. cbn [firstn In] in Hx'.
           destruct Hx' as [<-|[<-|Hx']]; try discriminate.
           ++ intros ->. apply isIdentStart_ident in E. rewrite (isIdent_nl cc OK) in E. discriminate.
           ++ eapply scan_nonl; eauto. apply (isIdent_nl cc OK).
        -- replace (2 + n - 1) with (S n) by lia. unfold scanResult; cbn.
           repeat split; auto; try lia. constructor; auto. now apply isIdentStart_ident.
      * intros [c' [r' [E1 E2]]]. inversion E1; subst. congruence.
  - intros [c' [r' [E1 E2]]]. inversion E1; subst. congruence.
Qed.

(** HTML *)
Lemma starts2 it a b : a <> 0%N -> b <> 0%N ->
  isC it 0 a &&& isC it 1 b = Some (startsWith [a; b] it).
Proof.
  intros Ha Hb. unfold isC, test. destruct it as [|x [|y it]]; cbn.
  - destruct a; [congruence|reflexivity].
  - rewrite (N.eqb_sym a x). destruct (x =? a)%N; auto. destruct b; [congruence|reflexivity].
  - rewrite (N.eqb_sym a x), (N.eqb_sym b y). destruct (x =? a)%N; auto. cbn. now rewrite andb_true_r.
Qed.

Lemma htmlLoop_spec it i :
  wp (htmlLoop it i) False (fun '(j, nl) =>
     exists n, j = i + n /\ n <= List.length it /\
       nl = newlinesFrom (firstn (S n) it) i /\
       (n = List.length it \/ exists r, skipn (S n) it = cLT :: cQUEST :: r)).
Proof.
  revert i; induction it as [|c it IH]; intros i; cbn [htmlLoop].
  - exists 0; repeat split; auto; lia.
  - change (isC (c :: it) 1 cLT &&& isC (c :: it) 2 cQUEST)
      with (isC it 0 cLT &&& isC it 1 cQUEST).
    rewrite starts2 by discriminate.
    destruct (startsWith [60%N; 63%N] it) eqn:E.
    + apply startsWith_spec in E as [r E]. exists 0. subst it. cbn.
      repeat split; try lia; eauto.
    + specialize (IH (S i)). destruct (htmlLoop it (S i)) as [[j nl]|]; cbn in *; auto.
      destruct IH as [n [-> [Hn [-> Hd]]]]. exists (S n).
      repeat split; auto; try lia.
      destruct Hd as [Hd|Hd]; [left; lia|right; exact Hd].
Qed.

Lemma lexHtml_good st id before it :
  Inv st id before it -> topIs st HtmlState -> it <> [] ->
  wp (lexHtml cc st id it) False (Good st id before it).
Proof.
  intros HI [t ->] Hne.
  assert (Hw : t = [ErrorState]) by (apply inv_wf in HI; exact HI).
  assert (Hn : noNeed (HtmlState :: t)) by (intros s r E; inversion E; reflexivity).
  assert (Hp : forall n, 0 < n -> firstn 1 it = [60%N] ->
     Inv (DefaultState :: HtmlState :: t) id (rev (firstn n it) ++ before) (skipn n it)).
  { intros n Hn0 H1. constructor.
    - subst; reflexivity.
    - subst; cbn; lia.
    - subst; cbn; discriminate.
    - apply (inv_idnl _ _ _ _ _ HI).
    - intros s r E; inversion E; subst; discriminate. }
  assert (HE : wp (' (j, nl) <- htmlLoop it 0 ;;
      Some {| o_tok := T_INLINE_HTML; o_len := S j; o_nl := nl; o_st := HtmlState :: t; o_id := id |})
      False (Good (HtmlState :: t) id before it)).
  { pose proof (htmlLoop_spec it 0) as HL.
    destruct (htmlLoop it 0) as [[j nl]|]; unfold wp in *; auto.
    destruct HL as [n [-> [Hln [-> Hd]]]]. constructor; proj; auto; try lia.
    - apply (Inv_keep cc _ _ _ _ (S n)); auto.
    - apply newlinesFrom_sorted.
    - apply Forall_forall. intros x Hx. apply newlinesFrom_range in Hx.
      rewrite firstn_length in Hx. lia.
    - discriminate. }
  unfold lexHtml. revert HE.
  generalize (' (j, nl) <- htmlLoop it 0 ;;
      Some {| o_tok := T_INLINE_HTML; o_len := S j; o_nl := nl; o_st := HtmlState :: t; o_id := id |}).
  intros els HE.
  rewrite starts2 by discriminate.
  destruct (startsWith [60%N; 63%N] it) eqn:E; [|exact HE].
  apply startsWith_spec in E as [r E]. subst it. unfold test, isC.
  assert (HL : forall c k, (toLower cc c =? k)%N = true -> k <> 10%N -> (c =? 10)%N = false).
  { intros c k Hc Hk. apply N.eqb_neq. intros ->. rewrite (ok_lower _ OK) in Hc by lia.
    apply N.eqb_eq in Hc. apply Hk. rewrite <- Hc. reflexivity. }
  destruct r as [|c2 [|c3 [|c4 [|c5 r]]]]; cbn; rewrite ?(lower_nul cc OK), ?(isSpace_nul cc OK); cbn;
  repeat match goal with
  | |- context [(toLower cc ?x =? ?y)%N] => destruct (toLower cc x =? y)%N eqn:?; cbn
  | |- context [isSpace cc ?x] => destruct (isSpace cc x); cbn
  | |- context [(c2 =? 61)%N] => destruct (N.eqb_spec c2 61); [subst c2|]; cbn
  end.
  all: try exact HE.
  all: try (apply Good_newst; [apply Hp; [lia|reflexivity] | cbn; lia | discriminate | reflexivity]).
  all: apply Good_newst; [apply Hp; [lia|reflexivity] | cbn; lia | discriminate |]; cbn.
  all: rewrite (HL c2 112%N), (HL c3 104%N), (HL c4 112%N) by (auto; discriminate); reflexivity.
Qed.
End H.
