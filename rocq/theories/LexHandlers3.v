(** Handlers, continued: heredoc starts, comments, constant strings, names (proof file). *)
From Verif Require Export LexHandlers2.
From Coq Require Import Sorted.
Open Scope nat_scope.

Section H.
Variable cc : CharClass.
Hypothesis OK : ascii_ok cc.

Notation Inv := (Inv cc).
Notation Good := (Good cc).
Notation noNL s := (Forall (fun c => c <> 10%N) s).

Lemma hereSkip_spec r : exists p, r = p ++ hereSkip r /\ noNL p.
Proof.
  induction r as [|c r IH]; [exists []; split; auto|].
  destruct r as [|d r]; [exists []; split; auto|].
  change (hereSkip (c :: d :: r)) with
    (if (c =? 32)%N || (c =? 9)%N then hereSkip (d :: r) else c :: d :: r).
  destruct ((c =? 32)%N || (c =? 9)%N) eqn:E.
  - destruct IH as [p [Hp Hf]]. exists (c :: p). split; [cbn [app]; f_equal; exact Hp|].
    constructor; auto. intros ->. discriminate.
  - exists []; split; auto.
Qed.

Definition hereChar (c : N) : bool := isDigit cc c || isLetter cc c || (c =? 95)%N.

Lemma hereIdent_spec r acc : exists p r',
  hereIdent cc r acc = (acc ++ p, r') /\ r = p ++ r' /\ Forall (fun c => hereChar c = true) p /\
  (forall c t, moreThanOne r' = true -> r' = c :: t -> hereChar c = false).
Proof.
  revert acc; induction r as [|c r IH]; intros acc.
  - exists [], []. cbn. rewrite app_nil_r. repeat split; auto. discriminate.
  - destruct r as [|d r].
    + exists [], [c]. cbn. rewrite app_nil_r. repeat split; auto. discriminate.
    + change (hereIdent cc (c :: d :: r) acc) with
        (if hereChar c then hereIdent cc (d :: r) (acc ++ [c]) else (acc, c :: d :: r)).
      destruct (hereChar c) eqn:E.
      * destruct (IH (acc ++ [c])) as [p [r' [-> [Hr [Hf Hs]]]]].
        exists (c :: p), r'. rewrite <- app_assoc. cbn. repeat split; auto. now rewrite Hr.
      * exists [], (c :: d :: r). rewrite app_nil_r. repeat split; auto.
        intros c' t _ Hc. inversion Hc; subst; auto.
Qed.

Lemma hereChar_nl : hereChar 10%N = false.
Proof. unfold hereChar. now rewrite (isDigit_nl cc OK), (isLetter_nl cc OK). Qed.

Lemma peek0 (r : list N) : peek r 0 = Some (hd 0%N r).
Proof. destruct r; reflexivity. Qed.


(** The shape of a heredoc / nowdoc start. *)
Record HereStart (st : list LState) (it : list N) (id' : qstring) (o : Out) : Prop := {
  hs_pre : exists pre post c, it = pre ++ 10%N :: c :: post /\ noNL pre /\ pre <> [] /\
           o_len o = S (List.length pre) /\ o_nl o = [List.length pre];
  hs_id : id' <> [] /\ o_id o = id';
  hs_tok : (o_tok o = T_START_NOWDOC /\ o_st o = StringNowdoc :: st) \/
           (o_tok o = T_START_HEREDOC /\ o_st o = StringHeredoc :: st)
}.

Lemma lexHereStart_spec st id r0 :
  wp (lexHereStart cc st id (60 :: 60 :: 60 :: r0)%N) False
     (fun '(id', o) => (~ In 10%N id -> ~ In 10%N id') /\ match o with None => True | Some o => HereStart st (60 :: 60 :: 60 :: r0)%N id' o end).
Proof.
  unfold lexHereStart, isC, test. cbv zeta.
  change (skipn 3 (60 :: 60 :: 60 :: r0)%N) with r0.
  set (it := (60 :: 60 :: 60 :: r0)%N).
  destruct (hereSkip_spec r0) as [p1 [E1 F1]].
  revert E1. generalize (hereSkip r0). intros r1 E1.
  rewrite peek0. cbn [option_map].
  remember (hd 0%N r1 =? 39)%N as nowdoc eqn:En.
  set (qt := nowdoc || (hd 0%N r1 =? 34)%N).
  replace (Some nowdoc ||| Some (hd 0%N r1 =? 34)%N) with (Some qt)
    by (unfold qt; destruct nowdoc; reflexivity).
  assert (H2 : exists p2, r1 = p2 ++ (if qt then skipn 1 r1 else r1) /\ noNL p2).
  { destruct qt eqn:Q; [|exists []; auto].
    destruct r1 as [|q r1]; [exists []; auto|]. exists [q]. split; auto.
    constructor; auto. intros ->. subst nowdoc. discriminate. }
  destruct H2 as [p2 [E2 F2]]. revert E2. generalize (if qt then skipn 1 r1 else r1). intros r2 E2.
  rewrite peek0. cbn [option_map].
  destruct (isLetter cc (hd 0%N r2) || (hd 0%N r2 =? 95)%N) eqn:EL; [|cbn; auto].
  destruct (hereIdent_spec r2 []) as [p3 [r3 [-> [E3 [F3 S3]]]]].
  cbn [app].
  assert (F3' : noNL p3).
  { eapply Forall_impl; [|exact F3]. intros c Hc ->. rewrite hereChar_nl in Hc. discriminate. }
  assert (F3i : ~ In 10%N p3).
  { intros Hin. rewrite Forall_forall in F3'. apply F3' in Hin. congruence. }
  set (X := if qt && moreThanOne r3 then _ else _).
  assert (H4 : exists p4 r4, X = Some r4 /\ r3 = p4 ++ r4 /\ noNL p4).
  { unfold X. rewrite peek0. cbn [option_map].
    assert (Hd : r3 <> [] -> forall q, (hd 0%N r3 =? q)%N = true -> q <> 10%N -> 
       exists p4 r4, Some (skipn 1 r3) = Some r4 /\ r3 = p4 ++ r4 /\ noNL p4).
    { intros Hne q Hq Hq'. destruct r3 as [|x r3]; [congruence|]. exists [x], r3. repeat split; auto.
      constructor; auto. apply N.eqb_eq in Hq. cbn in Hq. congruence. }
    destruct (qt && moreThanOne r3) eqn:Q.
    - apply andb_true_iff in Q as [_ Q].
      assert (Hne : r3 <> []) by (intros ->; discriminate). specialize (Hd Hne).
      destruct nowdoc; cbn [mAnd].
      + destruct (hd 0%N r3 =? 39)%N eqn:Q2; [eapply Hd; eauto; discriminate|].
        destruct (hd 0%N r3 =? 34)%N eqn:Q3; [eapply Hd; eauto; discriminate|].
        exists [], r3; auto.
      + destruct (hd 0%N r3 =? 34)%N eqn:Q3; [eapply Hd; eauto; discriminate|].
        exists [], r3; auto.
    - exists [], r3; auto. }
  destruct H4 as [p4 [r4 [-> [E4 F4]]]]. rewrite peek0. cbn [option_map].
  destruct (moreThanOne r4) eqn:M; cbn [mAnd]; [|cbn; auto].
  destruct (N.eqb_spec (hd 0%N r4) 10) as [Eh|]; [|cbn; auto].
  destruct r4 as [|x [|y r4]]; try discriminate. cbn in Eh. subst x.
  assert (Hp3 : p3 <> []).
  { intros ->. cbn in E3. subst r3. destruct r2 as [|c r2].
    - destruct p4; discriminate.
    - cbn in EL. assert (Hm : moreThanOne (c :: r2) = true).
      { rewrite E4. destruct p4 as [|? [|? ?]]; reflexivity. }
      specialize (S3 c r2 Hm eq_refl). unfold hereChar in S3.
      destruct (isDigit cc c), (isLetter cc c), (c =? 95)%N; discriminate. }
  set (pre := ([60; 60; 60]%N ++ p1 ++ p2 ++ p3 ++ p4)).
  assert (Eit : it = pre ++ 10%N :: y :: r4).
  { unfold it, pre. rewrite E1, E2, E3, E4. now rewrite <- !app_assoc. }
  assert (Elen : List.length it - List.length (10%N :: y :: r4) = List.length pre).
  { rewrite Eit, app_length. lia. }
  rewrite Elen. cbn [wp]. split; [auto|]. constructor; cbn [o_tok o_len o_nl o_st o_id].
  - exists pre, r4, y. repeat split; auto.
    + unfold pre. rewrite !Forall_app. repeat split; auto.
      repeat constructor; discriminate.
    + unfold pre. discriminate.
  - split; auto.
  - destruct nowdoc; auto.
Qed.

Lemma noNL_nl s b : noNL s -> newlinesFrom s b = [].
Proof. intros H. apply newlinesFrom_none. intros c Hc. rewrite Forall_forall in H. auto. Qed.

Lemma firstn_app_exact {A} (p q : list A) n : n = List.length p -> firstn n (p ++ q) = p.
Proof. intros ->. rewrite firstn_app, Nat.sub_diag, firstn_all, firstn_O. apply app_nil_r. Qed.

(** Changing the identifier is harmless where no heredoc is open. *)
Lemma Good_id st id id' before it t n :
  Inv st id before it -> noNeed st -> 0 < n <= List.length it ->
  (forall c, In c (firstn n it) -> c <> 10%N) -> t <> T_EOF -> existsb isDoc st = false -> ~ In 10%N id' ->
  Good st id before it {| o_tok := t; o_len := n; o_nl := []; o_st := st; o_id := id' |}.
Proof.
  intros HI Hn Hl Hc Ht Hd Hnl'. apply Good_newst; auto.
  - apply Inv_keep; auto. destruct HI as [Hw Hb Hi Hnl Hx]. constructor; auto.
    intros He. congruence.
  - symmetry. now apply newlinesFrom_none.
Qed.

Lemma lexLess_good st id before r :
  Inv st id before (cLT :: r) ->
  (topIs st DefaultState \/ topIs st StringVariableCurly) ->
  wp (lexLess cc st id (cLT :: r)) False (Good st id before (cLT :: r)).
Proof.
  intros HI Ht.
  assert (Hn : noNeed st) by (intros s t E; destruct Ht as [[t' ->]|[t' ->]]; inversion E; reflexivity).
  assert (HS : forall t n, 0 < n -> plain (cLT :: r) n -> t <> T_EOF ->
     wp (simple st id t n) False (Good st id before (cLT :: r))).
  { intros t n H0 [H1 H2] Ht'. unfold simple; cbn [wp]. apply Good_simple; auto. }
  assert (Hs : exists s, stateAt st 0 = Some s /\ (s = DefaultState /\ existsb isDoc st = false \/ s = StringVariableCurly)).
  { destruct Ht as [[t' ->]|[t' ->]]; cbn; eexists; split; eauto. left. split; auto.
    pose proof (inv_wf _ _ _ _ _ HI) as Hw. cbn in Hw. subst. reflexivity. }
  destruct Hs as [s [Es Hs]].
  unfold lexLess. rewrite Es. unfold isC, test.
  destruct r as [|c1 r]; cbn [peek option_map].
  { cbn. apply (HS T_IS_SMALLER 1); try lia; try discriminate. apply plain_1; discriminate. }
  destruct (N.eqb_spec c1 60) as [->|].
  - (* << *)
    assert (HE : forall id', (id' = id \/ existsb isDoc st = false /\ ~ In 10%N id') ->
       wp (IF option_map (fun x => (x =? 61)%N) (peek (60 :: 60 :: r)%N 2)
           THEN simple st id' T_SL_ASSIGN 3 ELSE simple st id' T_SL 2) False
          (Good st id before (60 :: 60 :: r)%N)).
    { intros id' Hid.
      assert (HS' : forall t n, 0 < n -> plain (60 :: 60 :: r)%N n -> t <> T_EOF ->
         wp (simple st id' t n) False (Good st id before (60 :: 60 :: r)%N)).
      { intros t n H0 [H1 H2] Ht'. unfold simple; cbn [wp].
        destruct Hid as [->|[Hid Hid']]; [apply Good_simple|apply Good_id]; auto. }
      destruct r as [|c2 r]; cbn [peek option_map].
      - apply HS'; try lia; try discriminate. apply plain_2; discriminate.
      - destruct (N.eqb_spec c2 61) as [->|]; apply HS'; try lia; try discriminate.
        + split; cbn; lia.
        + apply plain_2; discriminate. }
    destruct r as [|c2 r]; cbn [peek option_map].
    { cbn [mAnd]. apply (HE id). auto. }
    destruct (N.eqb_spec c2 60) as [->|].
    + cbn [mAnd]. destruct (stIs s StringVariableCurly) eqn:Ec; cbn [negb].
      { apply (HE id). auto. }
      destruct Hs as [[-> Hd]|Hs].
      2: { subst s. discriminate. }
      pose proof (lexHereStart_spec st id r) as HX.
      destruct (lexHereStart cc st id (60 :: 60 :: 60 :: r)%N) as [[id' [o|]]|]; cbn [wp] in HX |- *.
      * destruct HX as [Hidnl HX]. specialize (Hidnl (inv_idnl _ _ _ _ _ HI)).
        destruct HX as [[pre [post [c [Ei [Hp [Hne [Hl Hnl]]]]]]] [Hid Hoid] Htok].
        destruct o as [otok olen onl ost oid]; cbn in *. subst olen onl oid.
        apply Good_newst.
        -- assert (HP : forall d, isDoc d = true -> d = StringNowdoc \/ d = StringHeredoc ->
              Inv (d :: st) id' (rev (firstn (S (List.length pre)) (60 :: 60 :: 60 :: r)%N) ++ before)
                  (skipn (S (List.length pre)) (60 :: 60 :: 60 :: r)%N)).
           { intros d Hd1 Hd2. apply (Inv_push cc st id); auto.
             - pose proof (inv_wf _ _ _ _ _ HI) as Hw.
               destruct Ht as [[t' ->]|[t' ->]]; [|discriminate]. 
               destruct Hd2 as [-> | ->]; cbn in *; auto.
             - exists 60%N. cbn; split; auto; discriminate.
             - destruct Hd2; subst d; discriminate. }
           destruct Htok as [[-> ->]|[-> ->]]; apply HP; auto.
        -- split; [lia|]. rewrite Ei, app_length. cbn. lia.
        -- destruct Htok as [[-> _]|[-> _]]; discriminate.
        -- rewrite Ei. change (pre ++ 10%N :: c :: post) with (pre ++ [10%N] ++ c :: post).
           rewrite app_assoc, firstn_app_exact by (rewrite app_length; cbn; lia).
           rewrite newlinesFrom_app, noNL_nl by auto. reflexivity.
      * apply (HE id'). right. split; auto. apply HX, (inv_idnl _ _ _ _ _ HI).
      * exact HX.
    + cbn [mAnd]. apply (HE id). auto.
  - destruct (N.eqb_spec c1 61) as [->|].
    + destruct r as [|c2 r]; cbn [peek option_map].
      * apply (HS T_IS_SMALLER_OR_EQUAL 2); try lia; try discriminate. apply plain_2; discriminate.
      * destruct (N.eqb_spec c2 62) as [->|]; apply HS; try lia; try discriminate.
        -- split; cbn; lia.
        -- apply plain_2; discriminate.
    + destruct (N.eqb_spec c1 62) as [->|]; apply HS; try lia; try discriminate.
      * apply plain_2; discriminate.
      * apply plain_1; discriminate.
Qed.
End H.
