(** Proofs about single tokens, part 5: HTML, __halt_compiler, nowdoc (proof file). *)
From Verif Require Export LexFun4.
Open Scope nat_scope.

Section F.
Variable cc : CharClass.
Hypothesis OK : ascii_ok cc.
Variable content : qstring.

Lemma mode_split l text tail k n nl st' id' :
  remaining content l = text ++ tail -> lx_halt l <> 4 -> text <> [] ->
  handler cc (lx_st l) (lx_id l) (rev (firstn (lx_pos l) content)) (text ++ tail)
    = Some {| o_tok := k; o_len := n; o_nl := nl; o_st := st'; o_id := id' |} ->
  n = List.length text \/ (n = S (List.length text) /\ tail = []) ->
  exists l', yields cc content l k text tail l' /\ lx_st l' = st' /\ lx_id l' = id' /\
    lx_halt l' = snd (haltStep (lx_halt l) k) /\ lx_pos l' = lx_pos l + n.
Proof.
  intros Hr Hh Hne Ho Hn.
  destruct (yields_intro cc content l _ _ Hr ltac:(destruct text; [congruence|discriminate]) Hh Ho) as [l' [HY [H1 [H2 [H3 H4]]]]].
  { cbn [o_len]. rewrite app_length. lia. }
  cbn [o_len o_tok o_st o_id] in *. exists l'. split; [|auto].
  destruct Hn as [-> | [-> ->]].
  - rewrite firstn_app, Nat.sub_diag, firstn_all, firstn_O, app_nil_r in HY.
    rewrite skipn_app, Nat.sub_diag, skipn_all in HY. exact HY.
  - rewrite app_nil_r in *. rewrite firstn_all2, skipn_all2 in HY by lia. exact HY.
Qed.

(** ** HTML *)
Lemma xml_test r : exists b, test (60%N :: 63%N :: r) 2 (fun c => toLower cc c =? 120)%N
               &&& test (60%N :: 63%N :: r) 3 (fun c => toLower cc c =? 109)%N
               &&& test (60%N :: 63%N :: r) 4 (fun c => toLower cc c =? 108)%N = Some b /\ (b = true <-> xmlTag cc r).
Proof.
  assert (H0 : (toLower cc 0 =? 120)%N = false /\ (toLower cc 0 =? 109)%N = false /\ (toLower cc 0 =? 108)%N = false)
    by (rewrite (lower_nul cc OK); auto).
  destruct H0 as [H1 [H2 H3]]. unfold test, xmlTag.
  destruct r as [|a r]; [|destruct (N.eqb_spec (toLower cc a) 120) as [Ha|Ha]; [destruct r as [|b r]; [|destruct (N.eqb_spec (toLower cc b) 109) as [Hb|Hb]; [destruct r as [|c r]|]]|]];
    cbn [peek option_map]; rewrite ?H1; cbn [mAnd peek option_map].
  - exists false. split; auto. split; [discriminate|intros (a&b&c&s&E&_); discriminate].
  - rewrite Ha. cbn. rewrite H2. exists false. split; auto. split; [discriminate|intros (?&?&?&?&E&_); discriminate].
  - rewrite Ha, Hb. cbn. rewrite H3. exists false. split; auto. split; [discriminate|intros (?&?&?&?&E&_); discriminate].
  - rewrite Ha, Hb. cbn. exists (toLower cc c =? 108)%N. split; auto. rewrite N.eqb_eq. split.
    + intros Hc. exists a, b, c, r. cbn. rewrite Ha, Hb, Hc. auto.
    + intros (?&?&?&?&E&E2). injection E as <- <- <- <-. cbn in E2. now injection E2.
  - rewrite Ha. cbn. apply N.eqb_neq in Hb. rewrite Hb. exists false. split; auto. split; [discriminate|].
    intros (?&?&?&?&E&E2). injection E as <- <- _. cbn in E2. apply N.eqb_neq in Hb. injection E2. congruence.
  - apply N.eqb_neq in Ha. rewrite Ha. exists false. split; auto. split; [discriminate|].
    intros (?&?&?&?&E&E2). injection E as <- _. cbn in E2. apply N.eqb_neq in Ha. injection E2. congruence.
Qed.

Lemma php_test r : exists b, test (60%N :: 63%N :: r) 2 (fun c => toLower cc c =? 112)%N
               &&& test (60%N :: 63%N :: r) 3 (fun c => toLower cc c =? 104)%N
               &&& test (60%N :: 63%N :: r) 4 (fun c => toLower cc c =? 112)%N
               &&& test (60%N :: 63%N :: r) 5 (isSpace cc) = Some b /\
   (b = true -> exists t x, 60%N :: 63%N :: r = t ++ x /\ phpTag cc t) /\
   (b = false -> forall t x, 60%N :: 63%N :: r = t ++ x -> ~ phpTag cc t).
Proof.
  assert (H0 : (toLower cc 0 =? 112)%N = false /\ (toLower cc 0 =? 104)%N = false /\ isSpace cc 0%N = false)
    by (rewrite (lower_nul cc OK), (isSpace_nul cc OK); auto).
  destruct H0 as [H1 [H2 H3]].
  assert (HX : forall t x, 60%N :: 63%N :: r = t ++ x -> phpTag cc t -> exists a b c w y, r = a :: b :: c :: w :: y /\
     toLower cc a = 112%N /\ toLower cc b = 104%N /\ toLower cc c = 112%N /\ isSpace cc w = true).
  { intros t x E (a&b&c&w&->&E2&Hw). injection E as ->. cbn in E2. injection E2 as E2 E3 E4. exists a, b, c, w, x. auto. }
  unfold test.
  assert (HF : forall v, v = Some false -> (forall a b c w y, r = a :: b :: c :: w :: y ->
      toLower cc a = 112%N -> toLower cc b = 104%N -> toLower cc c = 112%N -> isSpace cc w = true -> False) ->
      exists b, v = Some b /\ (b = true -> exists t x, 60%N :: 63%N :: r = t ++ x /\ phpTag cc t) /\
       (b = false -> forall t x, 60%N :: 63%N :: r = t ++ x -> ~ phpTag cc t)).
  { intros v -> HH. exists false. split; auto. split; [discriminate|]. intros _ t x E HT.
    destruct (HX t x E HT) as (a&b&c&w&y&E1&E2&E3&E4&E5). eauto. }
  destruct r as [|a r]; [apply HF; [cbn; rewrite H1; reflexivity|discriminate]|].
  destruct (N.eqb_spec (toLower cc a) 112) as [Ha|Ha].
  2:{ apply HF; [cbn; apply N.eqb_neq in Ha; rewrite Ha; reflexivity|intros; congruence]. }
  destruct r as [|b r]; [apply HF; [cbn; rewrite Ha; cbn; rewrite H2; reflexivity|discriminate]|].
  destruct (N.eqb_spec (toLower cc b) 104) as [Hb|Hb].
  2:{ apply HF; [cbn; rewrite Ha; cbn; apply N.eqb_neq in Hb; rewrite Hb; reflexivity|intros; congruence]. }
  destruct r as [|c r]; [apply HF; [cbn; rewrite Ha, Hb; cbn; rewrite H1; reflexivity|discriminate]|].
  destruct (N.eqb_spec (toLower cc c) 112) as [Hc|Hc].
  2:{ apply HF; [cbn; rewrite Ha, Hb; cbn; apply N.eqb_neq in Hc; rewrite Hc; reflexivity|intros; congruence]. }
  destruct r as [|w r]; [apply HF; [cbn; rewrite Ha, Hb, Hc; cbn; rewrite H3; reflexivity|discriminate]|].
  destruct (isSpace cc w) eqn:Hw.
  2:{ apply HF; [cbn; rewrite Ha, Hb, Hc; cbn; rewrite Hw; reflexivity|intros; congruence]. }
  exists true. split; [cbn; rewrite Ha, Hb, Hc; cbn; rewrite Hw; reflexivity|].
  split; [|discriminate]. intros _. exists [60; 63; a; b; c; w]%N, r. split; auto.
  exists a, b, c, w. cbn. rewrite Ha, Hb, Hc. auto.
Qed.

Lemma html_open l r :
  at_ cc content HtmlState l (str "<?" ++ r) -> ~ xmlTag cc r ->
  exists l' k tag tail, yields cc content l k tag tail l' /\ str "<?" ++ r = tag ++ tail /\
    lx_st l' = DefaultState :: lx_st l /\
    ((k = T_OPEN_TAG_WITH_ECHO /\ tag = str "<?=") \/
     (k = T_OPEN_TAG /\ phpTag cc tag) \/
     (k = T_OPEN_TAG /\ tag = str "<?" /\ (forall x, r <> 61%N :: x) /\
      forall t x, str "<?" ++ r = t ++ x -> ~ phpTag cc t)).
Proof.
  intros Hat Hx. destruct (at_facts cc OK content _ _ _ Hat) as [_ [Hh [[q Hs] Hr]]].
  change (str "<?" ++ r) with (60%N :: 63%N :: r) in *.
  destruct (xml_test r) as [b [Eb Hb]]. assert (b = false) by (destruct b; auto; exfalso; apply Hx, Hb; auto). subst b.
  destruct (php_test r) as [p [Ep [Hp1 Hp2]]].
  assert (EH : forall id bf, handler cc (HtmlState :: q) id bf (60%N :: 63%N :: r) =
     IF isC (60%N :: 63%N :: r) 2 61%N
     THEN Some {| o_tok := T_OPEN_TAG_WITH_ECHO; o_len := 3; o_nl := []; o_st := DefaultState :: HtmlState :: q; o_id := id |}
     ELSE if p then nl <- isC (60%N :: 63%N :: r) 5 10%N ;;
        Some {| o_tok := T_OPEN_TAG; o_len := 6; o_nl := if nl : bool then [5] else []; o_st := DefaultState :: HtmlState :: q; o_id := id |}
        else Some {| o_tok := T_OPEN_TAG; o_len := 2; o_nl := []; o_st := DefaultState :: HtmlState :: q; o_id := id |}).
  { intros id bf. unfold handler. cbn [stateAt nth_error]. unfold lexHtml. rewrite Eb.
    change (isC (60%N :: 63%N :: r) 0 60%N &&& isC (60%N :: 63%N :: r) 1 63%N &&& mNot (Some false)) with (Some true). cbv iota.
    rewrite Ep. destruct p; reflexivity. }
  assert (Heq : (exists x, r = 61%N :: x) \/ (forall x, r <> 61%N :: x)).
  { destruct r as [|a r]; [right; discriminate|]. destruct (N.eqb_spec a 61) as [->|Ha]; [left; eauto|right; congruence]. }
  destruct Heq as [[x ->]|Hneq].
  - edestruct (mode_split l (str "<?=") x) as [l' [HY [Hst _]]]; [exact Hr|exact Hh|discriminate| |left; reflexivity|].
    + rewrite Hs. cbn [str app]. change (N_of_ascii "<") with 60%N. change (N_of_ascii "?") with 63%N. change (N_of_ascii "=") with 61%N.
      rewrite EH. reflexivity.
    + exists l', T_OPEN_TAG_WITH_ECHO, (str "<?="), x. split; [exact HY|]. split; auto. split; [congruence|auto].
  - assert (Ee : isC (60%N :: 63%N :: r) 2 61%N = Some false).
    { unfold isC, test. destruct r as [|a r]; [reflexivity|]. cbn. f_equal. apply N.eqb_neq. intros ->. now apply (Hneq r). }
    destruct p.
    + destruct (Hp1 eq_refl) as (t & x & Ex & HT). pose proof HT as (a & b & c & w & -> & _).
      rewrite Ex in *.
      edestruct (mode_split l (str "<?" ++ [a; b; c; w]) x) as [l' [HY [Hst _]]]; [exact Hr|exact Hh|discriminate| |left; reflexivity|].
      * rewrite Hs. rewrite EH, Ee. reflexivity.
      * exists l', T_OPEN_TAG, (str "<?" ++ [a; b; c; w]), x. split; [exact HY|]. split; auto. split; [congruence|auto].
    + edestruct (mode_split l (str "<?") r) as [l' [HY [Hst _]]]; [exact Hr|exact Hh|discriminate| |left; reflexivity|].
      * rewrite Hs. change (str "<?" ++ r) with (60%N :: 63%N :: r). rewrite EH, Ee. reflexivity.
      * exists l', T_OPEN_TAG, (str "<?"), r. split; [exact HY|]. split; auto. split; [congruence|].
        right. right. split; [reflexivity|]. split; [reflexivity|]. split; [exact Hneq|exact (Hp2 eq_refl)].
Qed.

Lemma html_found body : forall c t tail i, firstOcc (str "<?") t body tail ->
  exists nl, htmlLoop (c :: t) i = Some (i + List.length body, nl).
Proof.
  induction body as [|d body IH]; intros c t tail i H.
  - destruct H as [-> _]. cbn. rewrite Nat.add_0_r. eauto.
  - destruct t as [|d' t]; [destruct H as [H _]; discriminate|].
    assert (d' = d) by (destruct H as [H _]; now injection H). subst d'.
    pose proof (firstOcc_tail _ _ _ _ _ H) as H'.
    destruct (IH d t tail (S i) H') as [nl E]. cbn [htmlLoop] in E |- *.
    assert (Hs : isC (c :: d :: t) 1 60%N &&& isC (c :: d :: t) 2 63%N = Some false).
    { unfold isC, test. cbn. destruct (N.eqb_spec d 60) as [->|]; [|reflexivity]. cbn.
      destruct t as [|e t]; [reflexivity|]. cbn. destruct (N.eqb_spec e 63) as [->|]; [|reflexivity].
      exfalso. destruct H as [_ H]. specialize (H [] t eq_refl). cbn in H. lia. }
    rewrite Hs, E. eexists. cbn [List.length]. rewrite <- Nat.add_succ_comm. reflexivity.
Qed.
Lemma html_none t : forall c i, (forall a b, t <> a ++ str "<?" ++ b) ->
  exists nl, htmlLoop (c :: t) i = Some (i + S (List.length t), nl).
Proof.
  induction t as [|d t IH]; intros c i H.
  - cbn. rewrite Nat.add_1_r. eauto.
  - cbn [htmlLoop].
    assert (Hs : isC (c :: d :: t) 1 60%N &&& isC (c :: d :: t) 2 63%N = Some false).
    { unfold isC, test. cbn. destruct (N.eqb_spec d 60) as [->|]; [|reflexivity]. cbn.
      destruct t as [|e t]; [reflexivity|]. cbn. destruct (N.eqb_spec e 63) as [->|]; [|reflexivity].
      exfalso. apply (H [] t). reflexivity. }
    destruct (IH d (S i)) as [nl E]. { intros a b ->. apply (H (d :: a) b). reflexivity. }
    cbn [htmlLoop] in E. rewrite Hs, E. eexists. cbn [List.length]. rewrite (Nat.add_succ_r i (S _)). reflexivity.
Qed.

Lemma html_loop_case q id bf c t : (forall r, c :: t = str "<?" ++ r -> xmlTag cc r) ->
  handler cc (HtmlState :: q) id bf (c :: t) =
  (' (j, nl) <- htmlLoop (c :: t) 0 ;;
    Some {| o_tok := T_INLINE_HTML; o_len := S j; o_nl := nl; o_st := HtmlState :: q; o_id := id |}).
Proof.
  intros H. unfold handler. cbn [stateAt nth_error]. unfold lexHtml.
  assert (E : isC (c :: t) 0 60%N &&& isC (c :: t) 1 63%N &&& mNot (test (c :: t) 2 (fun c => toLower cc c =? 120)%N
               &&& test (c :: t) 3 (fun c => toLower cc c =? 109)%N
               &&& test (c :: t) 4 (fun c => toLower cc c =? 108)%N) = Some false).
  { rewrite starts2 by discriminate. destruct (startsWith [60; 63]%N (c :: t)) eqn:E; [|reflexivity].
    apply startsWith_spec in E. destruct E as [r E]. rewrite E in *. 
    destruct (xml_test r) as [b [Eb Hb]]. change ([60; 63]%N ++ r) with (60 :: 63 :: r)%N. rewrite Eb.
    replace b with true by (symmetry; apply Hb, H; reflexivity). reflexivity. }
  rewrite E. reflexivity.
Qed.

Lemma html_text l c t body tail :
  at_ cc content HtmlState l (c :: t) -> (forall r, c :: t = str "<?" ++ r -> xmlTag cc r) ->
  firstOcc (str "<?") t body tail ->
  exists l', yields cc content l T_INLINE_HTML (c :: body) (str "<?" ++ tail) l' /\ lx_st l' = lx_st l.
Proof.
  intros Hat Hx HF. destruct (at_facts cc OK content _ _ _ Hat) as [_ [Hh [[q Hs] Hr]]].
  destruct (html_found body c t tail 0 HF) as [nl E].
  assert (E1 : c :: t = (c :: body) ++ str "<?" ++ tail) by (destruct HF as [-> _]; reflexivity).
  assert (E2 := Hr). rewrite E1 in E2.
  edestruct (mode_split l (c :: body)) as [l' [HY [Hst _]]]; [exact E2|exact Hh|discriminate| |left; reflexivity|].
  - rewrite <- E1, Hs, html_loop_case, E by auto. reflexivity.
  - exists l'. split; [exact HY|congruence].
Qed.
Lemma html_rest l c t :
  at_ cc content HtmlState l (c :: t) -> (forall r, c :: t = str "<?" ++ r -> xmlTag cc r) ->
  (forall a b, t <> a ++ str "<?" ++ b) ->
  exists l', yields cc content l T_INLINE_HTML (c :: t) [] l' /\ lx_st l' = lx_st l /\ List.length content <= lx_pos l'.
Proof.
  intros Hat Hx HF. destruct (at_facts cc OK content _ _ _ Hat) as [_ [Hh [[q Hs] Hr]]].
  destruct (html_none t c 0 HF) as [nl E].
  assert (E2 := Hr). rewrite <- (app_nil_r (c :: t)) in E2.
  edestruct (mode_split l (c :: t)) as [l' [HY [Hst [_ [_ Hpos]]]]]; [exact E2|exact Hh|discriminate| | |].
  - rewrite app_nil_r, Hs, html_loop_case, E by auto. reflexivity.
  - right. split; reflexivity.
  - exists l'. split; [exact HY|]. split; [congruence|]. rewrite Hpos.
    apply (f_equal (@List.length N)) in Hr. unfold remaining in Hr. rewrite skipn_length in Hr. cbn in Hr |- *. lia.
Qed.

Lemma html_document c t : content = c :: t -> (forall a b, content <> a ++ str "<?" ++ b) ->
  exists tok nls last, lexAll cc 2 content initHtml = Some (Done [tok] nls last) /\
    t_kind tok = T_INLINE_HTML /\ symbol content tok = content.
Proof.
  intros Hc Hn.
  assert (Hat : at_ cc content HtmlState initHtml (c :: t)).
  { split; [exists initHtml; split; [left; auto|constructor]|]. split; [discriminate|]. split; [eexists; reflexivity|]. rewrite <- Hc. reflexivity. }
  destruct (html_rest _ _ _ Hat) as [l' [[tok [nl [E1 [E2 [E3 _]]]]] [_ Hpos]]].
  - intros r E. exfalso. apply (Hn [] r). rewrite Hc. exact E.
  - intros a b ->. apply (Hn (c :: a) b). rewrite Hc. reflexivity.
  - exists tok. do 2 eexists. cbn [lexAll]. rewrite E1, E2. cbn [isEOF].
    unfold nextToken at 1. replace (List.length content <=? lx_pos l') with true by (symmetry; now apply Nat.leb_le).
    cbn [isEOF t_kind]. split; [reflexivity|]. split; [first [exact E2|reflexivity]|]. rewrite E3. auto.
Qed.

(** ** __halt_compiler *)
Lemma handsOut_step l t nl l' : LInv cc content l -> nextToken cc content l = Some (l', t, nl) -> t_kind t <> T_EOF ->
  lx_halt l <> 4 /\ lx_halt l' = snd (haltStep (lx_halt l) (t_kind t)).
Proof.
  intros HI HN Hk. pose proof (step_ok cc OK content _ _ _ _ HI HN) as [_ HK].
  destruct HK as [[_ [_ [He _]]]|[Hlt [o [Ho [HG [_ [Hst HK]]]]]]]; [congruence|].
  destruct HK as [[_ [_ [He _]]]|[Hle [Hp [Hb [Hend Hh]]]]]; [congruence|].
  assert (Hkk : t_kind t = o_tok o) by (eapply haltStep_kind; eauto).
  split.
  - intros E. rewrite E in Hh. unfold haltStep in Hh. cbn in Hh. injection Hh as Hh _. congruence.
  - rewrite Hkk, <- Hh. reflexivity.
Qed.

Lemma handsOut_reach l0 toks l : handsOut cc content l0 toks l -> reachable cc content l0 l.
Proof. induction 1; [constructor|eapply reach_step; eauto]. Qed.

Fixpoint haltFold (h : nat) (ts : list Token) : nat :=
  match ts with [] => h | t :: r => haltFold (snd (haltStep h (t_kind t))) r end.
Lemma haltFold_app h a b : haltFold h (a ++ b) = haltFold (haltFold h a) b.
Proof. revert h; induction a; intros h; cbn; auto. Qed.

Lemma handsOut_halt l0 toks l : initial l0 -> handsOut cc content l0 toks l -> lx_halt l = haltFold 0 toks /\
  (forall a b, toks = a ++ b -> b <> [] -> haltFold 0 a <> 4).
Proof.
  intros Hi H. induction H as [|toks l t nl l' H IH HN Hk].
  - split; [destruct Hi as [-> | ->]; reflexivity|]. intros a b E. destruct a; [|discriminate]. cbn in E. subst b. congruence.
  - destruct IH as [IH1 IH2].
    destruct (handsOut_step _ _ _ _ (reachable_inv cc OK content l0 l Hi (handsOut_reach _ _ _ H)) HN Hk) as [H4 Hh].
    split; [rewrite haltFold_app; cbn; rewrite <- IH1; exact Hh|].
    intros a b E Hb. destruct (exists_last Hb) as [b' [x ->]]. rewrite app_assoc in E. apply app_inj_tail in E.
    destruct E as [E _]. destruct b' as [|y b']; [rewrite app_nil_r in E; subst; congruence|].
    apply (IH2 a (y :: b')); [auto|discriminate].
Qed.

Lemma haltFold_blanks w : blanks w -> forall h, h <> 0 -> h <> 4 -> haltFold h w = h.
Proof.
  induction 1 as [|t w Ht _ IH]; intros h H0 H4; auto. cbn [haltFold].
  replace (snd (haltStep h (t_kind t))) with h; [auto|].
  unfold haltStep. apply Nat.eqb_neq in H0, H4. rewrite H0, H4.
  destruct Ht as [-> | [-> | ->]]; reflexivity.
Qed.

Lemma haltStep_halt h : h < 4 -> snd (haltStep h T_HALT_COMPILER) = 1.
Proof. intros H. destruct h as [|[|[|[|?]]]]; try reflexivity. lia. Qed.
Lemma haltFold_le h ts : h <= 4 -> haltFold h ts <= 4.
Proof.
  revert h; induction ts as [|t ts IH]; intros h H; auto. apply IH. unfold haltStep.
  destruct h as [|[|[|[|[|?]]]]]; try lia; destruct (t_kind t); cbn; lia.
Qed.

Lemma halt_stops l0 toks l : initial l0 -> handsOut cc content l0 toks l -> endsWithHalt toks ->
  forall l' t nl, nextToken cc content l = Some (l', t, nl) -> t_kind t = T_EOF.
Proof.
  intros Hi H HE l' t nl HN. destruct (handsOut_halt _ _ _ Hi H) as [Hh Hpre].
  destruct HE as (pre & k & w1 & lp & w2 & rp & w3 & semi & E & Hk & Hlp & Hrp & Hs & Hw1 & Hw2 & Hw3).
  assert (H4 : haltFold 0 pre < 4).
  { specialize (Hpre pre _ E ltac:(discriminate)). pose proof (haltFold_le 0 pre ltac:(lia)). lia. }
  assert (HF : lx_halt l = 4).
  { rewrite Hh, E. rewrite haltFold_app. cbn [haltFold]. rewrite Hk, haltStep_halt by auto.
    rewrite haltFold_app, (haltFold_blanks w1) by (auto; lia). cbn [haltFold]. rewrite Hlp. cbn -[haltFold].
    rewrite haltFold_app, (haltFold_blanks w2) by (auto; lia). cbn [haltFold]. rewrite Hrp. cbn -[haltFold].
    rewrite haltFold_app, (haltFold_blanks w3) by (auto; lia). cbn [haltFold]. rewrite Hs. reflexivity. }
  unfold nextToken in HN. destruct (List.length content <=? lx_pos l); [injection HN as <- <- <-; reflexivity|].
  destruct (handler _ _ _ _ _) as [o|]; [|discriminate].
  destruct (S (List.length content) <? lx_pos l + o_len o); [injection HN as <- <- <-; reflexivity|].
  rewrite HF in HN. cbn in HN. injection HN as <- <- <-. reflexivity.
Qed.

(** ** Nowdoc *)

Lemma hereSkip_app w c d r : hereBlanks w -> c <> 32%N -> c <> 9%N -> hereSkip (w ++ c :: d :: r) = c :: d :: r.
Proof.
  intros Hw H1 H2. induction Hw as [|x w Hx Hw IH]; cbn [app hereSkip].
  - apply N.eqb_neq in H1, H2. rewrite H1, H2. reflexivity.
  - replace ((x =? 32) || (x =? 9))%N with true by (symmetry; apply orb_true_iff; rewrite !N.eqb_eq; exact Hx).
    destruct (w ++ c :: d :: r) eqn:E; [destruct w; discriminate|]. exact IH.
Qed.
Lemma hereIdent_app id : forall c d r acc, Forall (fun c => isLetter cc c = true \/ isDigit cc c = true \/ c = 95%N) id ->
  isDigit cc c = false -> isLetter cc c = false -> c <> 95%N ->
  hereIdent cc (id ++ c :: d :: r) acc = (acc ++ id, c :: d :: r).
Proof.
  induction id as [|x id IH]; intros c d r acc Hid H1 H2 H3.
  - cbn. apply N.eqb_neq in H3. rewrite H1, H2, H3, app_nil_r. reflexivity.
  - inversion Hid as [|? ? Hx Hid']; subst. cbn [app hereIdent].
    destruct (id ++ c :: d :: r) eqn:E; [destruct id; discriminate|]. rewrite <- E.
    replace (isDigit cc x || isLetter cc x || (x =? 95)%N) with true.
    + rewrite IH by auto. rewrite <- app_assoc. reflexivity.
    + symmetry. rewrite !orb_true_iff, N.eqb_eq. tauto.
Qed.

Lemma docEnd_test id s : exists v, isHereNowDocEnd id s = Some v /\ (v = true <-> endsDoc id s).
Proof.
  assert (PK : forall (a b : qstring) k, peek (a ++ b) (List.length a + k) = peek b k).
  { induction a; intros; cbn; auto. }
  unfold isHereNowDocEnd. destruct (eqs (firstn (List.length id) s) id) eqn:E.
  - apply eqs_eq in E. rewrite <- (firstn_skipn (List.length id) s), E. set (r := skipn (List.length id) s). clearbody r. clear E s.
    cbn [mAnd]. unfold isC, test. pose proof (PK id r 0) as P0. pose proof (PK id r 1) as P1. rewrite Nat.add_0_r in P0. rewrite Nat.add_1_r in P1.
    rewrite P0, P1. clear P0 P1.
    assert (HE : endsDoc id (id ++ r) <-> exists x, r = 10%N :: x \/ r = 59%N :: 10%N :: x).
    { unfold endsDoc. split; intros [x [H|H]]; exists x; [left|right|left|right]; try (apply app_inv_head in H; exact H); rewrite H; reflexivity. }
    destruct r as [|c r]; [exists false; split; [reflexivity|]; rewrite HE; split; [discriminate|intros [x [H|H]]; discriminate]|].
    cbn [peek option_map]. destruct (N.eqb_spec c 10) as [->|Hc].
    + exists true. split; [reflexivity|]. rewrite HE. split; eauto.
    + cbn [mOr]. destruct (N.eqb_spec c 59) as [->|Hc2].
      * cbn [mAnd]. destruct r as [|d r]; [exists false; split; [reflexivity|]; rewrite HE; split; [discriminate|intros [x [H|H]]; discriminate]|].
        cbn [peek option_map]. destruct (N.eqb_spec d 10) as [->|Hd].
        -- exists true. split; [reflexivity|]. rewrite HE. split; eauto.
        -- exists false. split; [reflexivity|]. rewrite HE. split; [discriminate|]. intros [x [H|H]]; injection H; congruence.
      * exists false. split; [reflexivity|]. rewrite HE. split; [discriminate|]. intros [x [H|H]]; injection H; congruence.
  - exists false. split; [reflexivity|]. split; [discriminate|]. intros HE. exfalso.
    assert (E2 : firstn (List.length id) s = id) by (destruct HE as [x [-> | ->]]; rewrite firstn_app, Nat.sub_diag, firstn_all, firstn_O, app_nil_r; reflexivity).
    rewrite E2 in E. assert (eqs id id = true) by now apply eqs_eq. congruence.
Qed.

Lemma now_loop id s b : endsDoc id s -> forall i,
  (forall b0 s', (b ++ [10%N]) ++ s = b0 ++ 10%N :: s' -> endsDoc id s' -> List.length (b ++ [10%N]) <= S (List.length b0)) ->
  exists nl, nowLoop id ((b ++ [10%N]) ++ s) i = Some (i + List.length (b ++ [10%N]), nl).
Proof.
  intros HE. induction b as [|c b IH]; intros i H.
  - cbn [app nowLoop]. change (10 =? 10)%N with true. cbn [mAnd].
    destruct (docEnd_test id s) as [v [-> Hv]]. rewrite (proj2 Hv HE). eexists. cbn [List.length]. rewrite Nat.add_1_r. reflexivity.
  - cbn [app nowLoop]. destruct (docEnd_test id ((b ++ [10%N]) ++ s)) as [v [E Hv]].
    assert (Hstop : Some (c =? 10)%N &&& isHereNowDocEnd id ((b ++ [10%N]) ++ s) = Some false).
    { rewrite E. destruct (N.eqb_spec c 10) as [->|]; [|reflexivity]. cbn [mAnd]. f_equal. destruct v; auto. exfalso.
      specialize (H [] _ eq_refl (proj1 Hv eq_refl)). cbn [app List.length] in H. rewrite app_length in H. cbn in H. lia. }
    rewrite Hstop. destruct (IH (S i)) as [nl En].
    { intros b0 s' Eb Hs. specialize (H (c :: b0) s'). cbn [app] in H. rewrite Eb in H. specialize (H eq_refl Hs). cbn [List.length] in H. lia. }
    rewrite En. eexists. cbn [List.length]. rewrite <- Nat.add_succ_comm. reflexivity.
Qed.

Lemma now_loop_none id r : (forall b s', r = b ++ 10%N :: s' -> ~ endsDoc id s') -> forall i,
  exists nl, nowLoop id r i = Some (i + List.length r, nl).
Proof.
  induction r as [|c r IH]; intros H i.
  - cbn. rewrite Nat.add_0_r. eauto.
  - cbn [nowLoop]. destruct (docEnd_test id r) as [v [E Hv]].
    assert (Hstop : Some (c =? 10)%N &&& isHereNowDocEnd id r = Some false).
    { rewrite E. destruct (N.eqb_spec c 10) as [->|]; [|reflexivity]. cbn [mAnd]. f_equal. destruct v; auto. exfalso.
      apply (H [] r eq_refl). now apply Hv. }
    rewrite Hstop. destruct (IH ltac:(intros b s' -> ; apply (H (c :: b) s'); reflexivity) (S i)) as [nl En].
    rewrite En. eexists. cbn [List.length]. rewrite <- Nat.add_succ_comm. reflexivity.
Qed.

(** Inside a nowdoc. *)
Lemma nowdoc_end l q id s : at_ cc content StringNowdoc l s -> lx_st l = StringNowdoc :: q -> lx_id l = id -> id <> [] ->
  endsDoc id s -> exists l', yields cc content l T_END_NOWDOC id (skipn (List.length id) s) l' /\ lx_st l' = q.
Proof.
  intros Hat Hs Hid Hne HE. destruct (at_facts cc OK content _ _ _ Hat) as [_ [Hh [_ Hr]]].
  assert (Es : s = id ++ skipn (List.length id) s).
  { destruct HE as [x [-> | ->]]; rewrite skipn_app, Nat.sub_diag, skipn_all; reflexivity. }
  rewrite Es in Hr. edestruct (mode_split l id) as [l' [HY [Hst _]]]; [exact Hr|exact Hh|exact Hne| |left; reflexivity|].
  - rewrite <- Es, Hs, Hid. unfold handler. cbn [stateAt nth_error]. unfold lexNowdoc.
    destruct (docEnd_test id s) as [v [-> Hv]]. rewrite (proj2 Hv HE). reflexivity.
  - exists l'. auto.
Qed.

Lemma nowdoc_body l id r body s : at_ cc content StringNowdoc l r -> lx_id l = id ->
  ~ endsDoc id r -> nowdocBody id r body s ->
  exists l', yields cc content l T_STRING body s l' /\ lx_st l' = lx_st l /\ lx_id l' = id.
Proof.
  intros Hat Hid HnE [E [HE [[b Eb] Hmin]]]. destruct (at_facts cc OK content _ _ _ Hat) as [_ [Hh [[q Hs] Hr]]].
  subst r body. destruct (now_loop id s b HE 0 Hmin) as [nl EN].
  edestruct (mode_split l (b ++ [10%N])) as [l' [HY [Hst [Hi _]]]]; [exact Hr|exact Hh|destruct b; discriminate| |left; reflexivity|].
  - rewrite Hs, Hid. unfold handler. cbn [stateAt nth_error]. unfold lexNowdoc.
    destruct (docEnd_test id ((b ++ [10%N]) ++ s)) as [v [-> Hv]].
    replace v with false by (destruct v; auto; exfalso; apply HnE, Hv; auto).
    rewrite EN. reflexivity.
  - exists l'. split; [exact HY|]. split; [congruence|auto].
Qed.

Lemma nowdoc_unclosed l id r : at_ cc content StringNowdoc l r -> lx_id l = id -> r <> [] ->
  ~ endsDoc id r -> (forall b s', r = b ++ 10%N :: s' -> ~ endsDoc id s') ->
  exists l', yields cc content l T_STRING r [] l' /\ lx_st l' = lx_st l.
Proof.
  intros Hat Hid Hne HnE Hn. destruct (at_facts cc OK content _ _ _ Hat) as [_ [Hh [[q Hs] Hr]]].
  rewrite <- (app_nil_r r) in Hr. destruct (now_loop_none id r Hn 0) as [nl EN].
  edestruct (mode_split l r) as [l' [HY [Hst [Hi _]]]]; [exact Hr|exact Hh|auto| |left; reflexivity|].
  - rewrite Hs, Hid, app_nil_r. unfold handler. cbn [stateAt nth_error]. unfold lexNowdoc.
    destruct (docEnd_test id r) as [v [-> Hv]].
    replace v with false by (destruct v; auto; exfalso; apply HnE, Hv; auto).
    rewrite EN. reflexivity.
  - exists l'. split; [exact HY|congruence].
Qed.

(** <<<'ID' and a line break. *)
Lemma nowdoc_start l w id r : at_ cc content DefaultState l (str "<<<" ++ w ++ [39%N] ++ id ++ [39%N] ++ 10%N :: r) ->
  hereBlanks w -> docIdent cc id -> r <> [] ->
  exists l', yields cc content l T_START_NOWDOC (str "<<<" ++ w ++ [39%N] ++ id ++ [39%N; 10%N]) r l' /\
    lx_st l' = StringNowdoc :: lx_st l /\ lx_id l' = id.
Proof.
  intros Hat Hw Hid Hr. pose proof Hat as Hat'. apply (at_facts cc OK) in Hat' as [_ [Hh [[q Hs] _]]].
  assert (Hp : inPhp cc content l ((str "<<<" ++ w ++ [39%N] ++ id ++ [39%N; 10%N]) ++ r)).
  { left. rewrite <- !app_assoc. exact Hat. }
  destruct r as [|d r]; [congruence|].
  assert (Hq : isDigit cc 39%N = false /\ isLetter cc 39%N = false) by (rewrite (ok_digit _ OK), (ok_letter _ OK) by lia; auto).
  destruct Hq as [Hq1 Hq2].
  assert (EH : lexHereStart cc (lx_st l) (lx_id l) (60%N :: 60%N :: 60%N :: w ++ 39%N :: id ++ 39%N :: 10%N :: d :: r) =
    Some (id, Some {| o_tok := T_START_NOWDOC; o_len := List.length (str "<<<" ++ w ++ [39%N] ++ id ++ [39%N; 10%N]);
       o_nl := [3 + List.length w + 1 + List.length id + 1]; o_st := StringNowdoc :: lx_st l; o_id := id |})).
  { destruct Hid as [[c [s [-> Hc]]] Hall].
    unfold lexHereStart. cbn [skipn]. cbn [app]. rewrite hereSkip_app by (auto; discriminate).
    unfold isC at 1, test at 1. cbn [peek option_map mOr skipn]. change (39 =? 39)%N with true. cbn [mOr].
    unfold test at 1. cbn [peek option_map]. change (c :: s ++ 39%N :: 10%N :: d :: r) with ((c :: s) ++ 39%N :: 10%N :: d :: r).
    replace (isLetter cc c || (c =? 95)%N) with true by (symmetry; rewrite orb_true_iff, N.eqb_eq; exact Hc).
    rewrite (hereIdent_app (c :: s)) by (auto; discriminate).
    cbn [moreThanOne andb]. unfold isC, test. cbn [peek option_map mAnd skipn moreThanOne app].
    change (39 =? 39)%N with true. change (10 =? 10)%N with true. cbn [mAnd].
    replace (List.length (60%N :: 60%N :: 60%N :: w ++ 39%N :: c :: s ++ 39%N :: 10%N :: d :: r) - List.length (10%N :: d :: r))
      with (3 + List.length w + 1 + List.length (c :: s) + 1).
    2:{ cbn [List.length]. rewrite app_length. cbn [List.length]. rewrite app_length. cbn [List.length]. lia. }
    change (if moreThanOne (10%N :: d :: r) then option_map (fun x : N => (x =? 10)%N) (peek (10%N :: d :: r) 0) else Some (moreThanOne (10%N :: d :: r))) with (Some true). cbv iota.
    do 3 f_equal. cbn [str app List.length]. repeat (rewrite app_length; cbn [List.length app]). f_equal. clear; lia. }
  edestruct (php_split cc OK content l (str "<<<" ++ w ++ [39%N] ++ id ++ [39%N; 10%N]) (d :: r)) as [l' [HY [Hst [Hi _]]]]; [exact Hp|discriminate| |left; reflexivity|].
  - rewrite Hs in *. rewrite <- !app_assoc. cbn [str app]. change (N_of_ascii "<") with 60%N.
    destruct (punct_tests cc OK 60%N (60%N :: 60%N :: w ++ 39%N :: id ++ 39%N :: 10%N :: d :: r) eq_refl) as [E1 [E2 [E3 [E4 E5]]]].
    unfold lexDefault. cbn [stateAt nth_error peek]. rewrite E1, E2, E4. cbn -[lexHereStart]. 
    unfold lexLess. cbn [stateAt nth_error].
    cbn [mAnd stIs LState_beq negb]. rewrite EH. reflexivity.
  - exists l'. split; [exact HY|]. split; [congruence|auto].
Qed.
End F.
