(** Handlers, continued: numbers, casts, comments, strings (proof file). *)
From Verif Require Export LexHandlers.
From Coq Require Import Sorted.
Open Scope nat_scope.

Ltac proj := cbn [o_tok o_len o_nl o_st o_id].

Section H.
Variable cc : CharClass.
Hypothesis OK : ascii_ok cc.

Notation Inv := (Inv cc).
Notation Good := (Good cc).

(** Numbers *)
Lemma numLoop_spec hex bin hp it i num :
  exists n hp', numLoop cc hex bin hp it i num = (i + n, skipn n it, hp', num ++ firstn n it) /\
    n <= List.length it /\
    (forall c, In c (firstn n it) -> exists h, numChar cc hex bin h c = true).
Proof.
  revert hp i num; induction it as [|c it IH]; intros hp i num; cbn [numLoop].
  - exists 0, hp. cbn. rewrite Nat.add_0_r, app_nil_r. repeat split; auto; tauto.
  - destruct (numChar cc hex bin hp c) eqn:E.
    + destruct (IH (if (c =? 46)%N then true else hp) (S i) (num ++ [c])) as [n [hp' [Hn [Hl Hf]]]].
      exists (S n), hp'. rewrite Hn. cbn. rewrite <- app_assoc. cbn. repeat split; try lia.
      * repeat f_equal; lia.
      * intros x [<-|Hx]; eauto.
    + exists 0, hp. cbn. rewrite Nat.add_0_r, app_nil_r. repeat split; auto; try lia; tauto.
Qed.

Lemma numLoop_pos hex bin it c r i num : it = c :: r -> numChar cc hex bin false c = true ->
  exists n hp', numLoop cc hex bin false it i num = (i + n, skipn n it, hp', num ++ firstn n it) /\
    0 < n <= List.length it /\
    (forall c, In c (firstn n it) -> exists h, numChar cc hex bin h c = true).
Proof.
  intros -> Hc. cbn [numLoop]. rewrite Hc.
  destruct (numLoop_spec hex bin (if (c =? 46)%N then true else false) r (S i) (num ++ [c]))
    as [n [hp' [Hn [Hl Hf]]]].
  exists (S n), hp'. rewrite Hn. cbn. rewrite <- app_assoc. cbn. repeat split; try lia.
  - repeat f_equal; lia.
  - intros x [<-|Hx]; eauto.
Qed.

Lemma numChar_nonl hex bin h : numChar cc hex bin h 10%N = false.
Proof.
  unfold numChar. rewrite (isDigit_nl cc OK), (ok_lower _ OK) by lia. cbn.
  destruct hex, bin, h; reflexivity.
Qed.

Lemma lower_code c k : (toLower cc c =? k)%N = true -> (k <> 10 -> c <> 10)%N.
Proof.
  intros Hc Hk ->. rewrite (ok_lower _ OK) in Hc by lia. apply N.eqb_eq in Hc. auto.
Qed.
Lemma lower_code0 c k : (toLower cc c =? k)%N = true -> (k <> 0 -> c <> 0)%N.
Proof.
  intros Hc Hk ->. rewrite (ok_lower _ OK) in Hc by lia. apply N.eqb_eq in Hc. auto.
Qed.

(** What a lookahead for two characters says. *)
Lemma test2 (it : list N) (p q : N -> bool) : p 0%N = false -> q 0%N = false ->
  (test it 0 p &&& test it 1 q = Some true /\
     exists a b r, it = a :: b :: r /\ p a = true /\ q b = true) \/
  (test it 0 p &&& test it 1 q = Some false).
Proof.
  intros Hp Hq. unfold test. destruct it as [|a [|b r]]; cbn.
  - rewrite Hp; auto.
  - destruct (p a); cbn; rewrite ?Hq; auto.
  - destruct (p a) eqn:E1; cbn; auto. destruct (q b) eqn:E2; cbn; auto.
    left; split; auto. exists a, b, r; auto.
Qed.

Lemma firstn_add {A} (l : list A) n m : firstn (n + m) l = firstn n l ++ firstn m (skipn n l).
Proof.
  revert l; induction n as [|n IH]; intros l; cbn; auto.
  destruct l as [|x l]; cbn; [now rewrite firstn_nil|]. now rewrite IH.
Qed.

Lemma skipn_add {A} (l : list A) n m : skipn n (skipn m l) = skipn (m + n) l.
Proof.
  revert l; induction m as [|m IH]; intros l; cbn; auto.
  destruct l as [|x l]; cbn; [now rewrite skipn_nil|]. now rewrite IH.
Qed.

(** The prefix description of a number scan: [n] characters, no newline among them. *)
Definition plain (it : list N) (n : nat) : Prop :=
  n <= List.length it /\ forall c, In c (firstn n it) -> c <> 10%N.

Lemma plain_add it n m : plain it n -> plain (skipn n it) m -> plain it (n + m).
Proof.
  intros [H1 H2] [H3 H4]. rewrite skipn_length in H3. split; [lia|].
  intros c. rewrite firstn_add. rewrite in_app_iff. intros [H|H]; auto.
Qed.

Lemma plain_scan p it n : scanResult p it n -> p 10%N = false -> plain it n.
Proof. intros H Hp. split; [apply H|]. eapply scan_nonl; eauto. Qed.

Lemma plain_1 c r : c <> 10%N -> plain (c :: r) 1.
Proof. split; cbn; [lia|]. intros x [<-|[]]; auto. Qed.
Lemma plain_2 c d r : c <> 10%N -> d <> 10%N -> plain (c :: d :: r) 2.
Proof. split; cbn; [lia|]. intros x [<-|[<-|[]]]; auto. Qed.

Lemma lexNumber_good st id before c r :
  Inv st id before (c :: r) -> noNeed st ->
  (isDigit cc c = true \/ c = 46%N) ->
  wp (lexNumber cc st id (c :: r)) False (Good st id before (c :: r)).
Proof.
  intros HI Hn Hc. set (it := c :: r) in *.
  assert (HX : forall t n, 0 < n -> plain it n -> t <> T_EOF ->
     wp (simple st id t n) False (Good st id before it)).
  { intros t n Hn0 [H1 H2] Ht. unfold simple, wp. apply Good_simple; auto. }
  unfold lexNumber, isC.
  destruct (test2 it (fun x => (x =? 48)%N) (fun c => (toLower cc c =? 120)%N)) as [[-> Hh]|Hh];
    [reflexivity|now rewrite (lower_nul cc OK)| |].
  - (* hex *)
    destruct Hh as [a [b [r' [Ei [Ha Hb]]]]]. rewrite Ei. cbn [skipn].
    assert (P2 : plain it 2).
    { rewrite Ei. apply plain_2; [apply N.eqb_eq in Ha; subst; discriminate|].
      eapply lower_code; eauto; discriminate. }
    destruct (test2 r' (fun x => (x =? 48)%N) (fun c => (toLower cc c =? 98)%N)) as [[Hb1 Hb2]|Hb1];
    [reflexivity|now rewrite (lower_nul cc OK)| |]; rewrite Hb1.
    + destruct Hb2 as [a' [b' [r2 [Ei' [Ha' Hb']]]]]. subst r'. cbn [skipn].
      destruct (numLoop_spec true true false r2 (2 + 2) []) as [n [hp' [Hnl [Hl Hf]]]].
      rewrite Hnl. cbn [negb andb mAnd].
      assert (P3 : plain it (2 + 2 + n)).
      { change it with it. rewrite Ei. 
        apply (plain_add (a :: b :: a' :: b' :: r2) 4 n).
        - split; cbn; [lia|]. intros x Hx.
          destruct Hx as [<-|[<-|[<-|[<-|[]]]]].
          + apply N.eqb_eq in Ha; subst; discriminate.
          + eapply lower_code; eauto; discriminate.
          + apply N.eqb_eq in Ha'; subst; discriminate.
          + eapply lower_code; eauto; discriminate.
        - split; [exact Hl|]. cbn [skipn]. intros x Hx ->. apply Hf in Hx as [h Hx].
          rewrite numChar_nonl in Hx; discriminate. }
      rewrite <- Ei.
      destruct hp'; apply HX; auto; try lia; try discriminate.
      destruct (toLongOk _ _); discriminate.
    + destruct (numLoop_spec true false false r' 2 []) as [n [hp' [Hnl [Hl Hf]]]].
      rewrite Hnl. cbn [negb andb mAnd].
      assert (P3 : plain it (2 + n)).
      { apply plain_add; auto. rewrite Ei. cbn [skipn]. split; auto.
        intros x Hx ->. apply Hf in Hx as [h Hx]. rewrite numChar_nonl in Hx; discriminate. }
      rewrite <- Ei.
      destruct hp'; apply HX; auto; try lia; try discriminate.
      destruct (toLongOk _ _); discriminate.
  - rewrite Hh.
    destruct (test2 it (fun x => (x =? 48)%N) (fun c => (toLower cc c =? 98)%N)) as [[Hb1 Hb2]|Hb1];
    [reflexivity|now rewrite (lower_nul cc OK)| |]; rewrite Hb1.
    + destruct Hb2 as [a [b [r' [Ei [Ha Hb]]]]]. rewrite Ei. cbn [skipn].
      destruct (numLoop_spec false true false r' (0 + 2) []) as [n [hp' [Hnl [Hl Hf]]]].
      rewrite Hnl. cbn [negb andb mAnd].
      assert (P3 : plain it (0 + 2 + n)).
      { cbn [Nat.add]. rewrite Ei. apply (plain_add (a :: b :: r') 2 n).
        - apply plain_2; [apply N.eqb_eq in Ha; subst; discriminate|].
          eapply lower_code; eauto; discriminate.
        - cbn [skipn]. split; auto.
          intros x Hx ->. apply Hf in Hx as [h Hx]. rewrite numChar_nonl in Hx; discriminate. }
      rewrite <- Ei.
      destruct hp'; apply HX; auto; try lia; try discriminate.
      destruct (toLongOk _ _); discriminate.
    + destruct (numLoop_pos false false it c r 0 []) as [n [hp' [Hnl [Hl Hf]]]]; auto.
      { unfold numChar. destruct Hc as [->| ->]; auto. cbn. now rewrite !orb_true_r. }
      rewrite Hnl. cbn [negb andb].
      assert (P3 : plain it n).
      { split; [lia|]. intros x Hx ->. apply Hf in Hx as [h Hx]. rewrite numChar_nonl in Hx; discriminate. }
      cbn [Nat.add].
      assert (HZ : wp (if hp' then simple st id T_DNUMBER n
         else simple st id (if toLongOk ([] ++ firstn n it) 10 then T_LNUMBER else T_DNUMBER) n)
         False (Good st id before it)).
      { destruct hp'; apply HX; auto; try lia; try discriminate.
        destruct (toLongOk _ _); discriminate. }
      assert (HE : forall m k, plain (skipn n it) m -> 0 < m -> skipn (n + m) it = k ->
         wp (let '(i6, _) := skipWhile (isDigit cc) k (n + m) in simple st id T_DNUMBER i6)
         False (Good st id before it)).
      { intros m k Hm Hm0 <-. destruct (skipWhile_spec (isDigit cc) (skipn (n + m) it) (n + m)) as [q [-> Hq]].
        apply HX; [lia| |discriminate]. apply plain_add; [apply plain_add; auto|].
        eapply plain_scan; eauto. apply (isDigit_nl cc OK). }
      revert HZ HE P3. cbn [mAnd].
      assert (Hsk : forall m, skipn (n + m) it = skipn m (skipn n it)) by (intros; now rewrite skipn_add).
      setoid_rewrite Hsk. 
      generalize (skipn n it). intros it3 HZ HE P3. unfold test.
      destruct it3 as [|e [|d1 [|d2 it3]]]; cbn [peek option_map mAnd mOr].
      * rewrite (lower_nul cc OK). cbn. exact HZ.
      * destruct (toLower cc e =? 101)%N; cbn [mAnd mOr]; auto.
        rewrite (isDigit_nul cc OK). cbn. exact HZ.
      * destruct (toLower cc e =? 101)%N eqn:Ee; cbn [mAnd mOr]; auto.
        pose proof (lower_code e 101 Ee ltac:(discriminate)) as Ee'.
        destruct (isDigit cc d1) eqn:Ed; cbn [mAnd mOr skipn peek option_map].
        -- assert (H1 : (d1 =? 45)%N = false)
             by (apply N.eqb_neq; intros ->; rewrite (ok_digit _ OK) in Ed by lia; discriminate).
           assert (H2 : (d1 =? 43)%N = false)
             by (apply N.eqb_neq; intros ->; rewrite (ok_digit _ OK) in Ed by lia; discriminate).
           rewrite H1, H2. apply (HE 1 [d1]); auto; now apply plain_1.
        -- rewrite (isDigit_nul cc OK). destruct (d1 =? 45)%N, (d1 =? 43)%N; cbn; exact HZ.
      * destruct (toLower cc e =? 101)%N eqn:Ee; cbn [mAnd mOr]; auto.
        pose proof (lower_code e 101 Ee ltac:(discriminate)) as Ee'.
        destruct (isDigit cc d1) eqn:Ed; cbn [mAnd mOr skipn peek option_map].
        -- assert (H1 : (d1 =? 45)%N = false)
             by (apply N.eqb_neq; intros ->; rewrite (ok_digit _ OK) in Ed by lia; discriminate).
           assert (H2 : (d1 =? 43)%N = false)
             by (apply N.eqb_neq; intros ->; rewrite (ok_digit _ OK) in Ed by lia; discriminate).
           rewrite H1, H2. apply (HE 1 (d1 :: d2 :: it3)); auto; now apply plain_1.
        -- destruct (N.eqb_spec d1 45) as [->|H1]; cbn [mAnd mOr skipn peek option_map].
           ++ destruct (isDigit cc d2); auto. apply (HE 2 (d2 :: it3)); auto.
              apply plain_2; auto; discriminate.
           ++ destruct (N.eqb_spec d1 43) as [->|H2]; cbn [mAnd mOr skipn peek option_map]; auto.
              destruct (isDigit cc d2); auto. apply (HE 2 (d2 :: it3)); auto.
              apply plain_2; auto; discriminate.
Qed.

(** Casts *)
Lemma castTok_cases name : castTok cc name = T_LPAREN \/ isCast (castTok cc name) = true.
Proof.
  unfold castTok.
  repeat match goal with |- context [if ?b then _ else _] => destruct b; [right; reflexivity|] end.
  left; reflexivity.
Qed.

Lemma Good_exc st id before it t n :
  Inv st id before it -> noNeed st -> 0 < n <= List.length it -> t <> T_EOF ->
  (isCast t = true \/ t = T_YIELD_FROM) ->
  Good st id before it {| o_tok := t; o_len := n; o_nl := []; o_st := st; o_id := id |}.
Proof.
  intros HI Hn Hl Ht He. constructor; proj; auto; try lia.
  - apply Inv_keep; auto.
  - right. split; auto. unfold nlException; proj. tauto.
  - constructor.
Qed.

Lemma lexParen_good st id before r :
  Inv st id before (cLPAREN :: r) -> noNeed st ->
  wp (lexParen cc st id (cLPAREN :: r)) False (Good st id before (cLPAREN :: r)).
Proof.
  intros HI Hn. unfold lexParen. cbn [skipn].
  destruct (skipWhile_spec (isSpace cc) r 1) as [n1 [-> [H1 _]]].
  destruct (skipWhile_spec (isLetter cc) (skipn n1 r) (1 + n1)) as [n2 [-> [H2 _]]].
  destruct (skipWhile_spec (isSpace cc) (skipn n2 (skipn n1 r)) (1 + n1 + n2)) as [n3 [-> [H3 _]]].
  assert (HL : Good st id before (cLPAREN :: r)
     {| o_tok := T_LPAREN; o_len := 1; o_nl := []; o_st := st; o_id := id |}).
  { apply Good_simple; auto; cbn; try lia; try discriminate. }
  unfold isC, test. destruct (skipn n3 (skipn n2 (skipn n1 r))) as [|x q] eqn:E; cbn [peek option_map].
  - exact HL.
  - destruct (x =? 41)%N; [|exact HL].
    destruct (castTok_cases (firstn (1 + n1 + n2 - (1 + n1)) (skipn n1 r))) as [Hc|Hc].
    + rewrite Hc. exact HL.
    + assert (HG : Good st id before (cLPAREN :: r)
         {| o_tok := castTok cc (firstn (1 + n1 + n2 - (1 + n1)) (skipn n1 r));
            o_len := S (1 + n1 + n2 + n3); o_nl := []; o_st := st; o_id := id |}).
      { apply Good_exc; auto.
        - assert (HL' : List.length (x :: q) = List.length r - n1 - n2 - n3)
            by (rewrite <- E, !skipn_length; lia). cbn [List.length] in *.
          rewrite !skipn_length in *. lia.
        - intros He; rewrite He in Hc; discriminate. }
      destruct (castTok cc _) eqn:Et; try exact HG; exact HL.
Qed.

(** Modes *)
Lemma popToHtml_spec st : wfS st -> popToHtml st = Some [HtmlState; ErrorState].
Proof.
  induction st as [|s st IH]; [intros []|]. intros H. cbn [popToHtml].
  destruct s; cbn in *; try (destruct st; [tauto|]; apply IH; tauto); subst; auto.
Qed.

Lemma lexQuestion_good st id before r :
  Inv st id before (cQUEST :: r) -> noNeed st ->
  wp (lexQuestion st id (cQUEST :: r)) False (Good st id before (cQUEST :: r)).
Proof.
  intros HI Hn. unfold lexQuestion. rewrite popToHtml_spec by apply HI.
  unfold isC, test, simple, wp.
  assert (HP : forall n, Inv [HtmlState; ErrorState] id (rev (firstn n (cQUEST :: r)) ++ before) (skipn n (cQUEST :: r))).
  { intros n. constructor; cbn; auto; try lia; try discriminate; [apply (inv_idnl _ _ _ _ _ HI)|].
    intros s t E; inversion E; discriminate. }
  assert (HS : forall t n, 0 < n -> plain (cQUEST :: r) n -> t <> T_EOF ->
     Good st id before (cQUEST :: r) {| o_tok := t; o_len := n; o_nl := []; o_st := st; o_id := id |}).
  { intros t n H0 [H1 H2] Ht. apply Good_simple; auto. }
  destruct r as [|c1 r]; cbn [peek option_map].
  - apply HS; try lia; try discriminate. apply plain_1; discriminate.
  - destruct (N.eqb_spec c1 62) as [->|].
    + apply Good_newst; auto; cbn; try lia; discriminate.
    + destruct (N.eqb_spec c1 63) as [->|]; apply HS; try lia; try discriminate.
      * apply plain_2; discriminate.
      * apply plain_1; discriminate.
Qed.

Lemma lexArrow_good st id before r :
  Inv st id before (cMINUS :: cGT :: r) -> 
  (topIs st DefaultState \/ topIs st StringVariableCurly) ->
  wp (lexArrow cc st id (cMINUS :: cGT :: r)) False (Good st id before (cMINUS :: cGT :: r)).
Proof.
  intros HI Ht. unfold lexArrow, test, simple, wp.
  assert (Hn : noNeed st) by (intros s t E; destruct Ht as [[t' ->]|[t' ->]]; inversion E; reflexivity).
  destruct r as [|c r]; cbn [peek option_map].
  - rewrite (isIdent_nul cc OK). apply Good_simple; auto; cbn; try lia; try discriminate.
  - destruct (isIdent cc c) eqn:E.
    + apply Good_newst; cbn [List.length]; try lia; try discriminate; auto.
      apply (Inv_push cc st id); auto.
      * pose proof (inv_wf _ _ _ _ _ HI) as Hw. destruct Ht as [[t' ->]|[t' ->]]; split; auto.
      * exists 45%N. cbn; split; auto; discriminate.
      * intros He. apply (inv_id _ _ _ _ _ HI). exact He.
      * apply (inv_idnl _ _ _ _ _ HI).
      * intros _. exists c, r. auto.
    + apply Good_simple; auto; cbn [List.length]; try lia; try discriminate.
      intros x [<-|[<-|[]]]; discriminate.
Qed.
End H.
