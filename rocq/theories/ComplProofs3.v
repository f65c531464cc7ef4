(** Proofs about the completion context: tokens of a document (C32), comments (C33),
    arguments (C34). *)
From Verif Require Export ComplProofs2.
Open Scope nat_scope.

Section Doc.
Variable cc : CharClass.
Hypothesis OK : ascii_ok cc.
Variable content : qstring.

Definition isHtml (t : Token) : Prop := t_kind t = T_INLINE_HTML.

Lemma html_kinds l l' t nl : lx_halt l = 0 -> (exists q, lx_st l = HtmlState :: q) ->
  nextToken cc content l = Some (l', t, nl) ->
  t_kind t = T_EOF \/ isTag (t_kind t) \/ (t_kind t = T_INLINE_HTML /\ lx_halt l' = 0 /\ lx_st l' = lx_st l).
Proof.
  intros Hh [q Hq]. unfold nextToken. destruct (Nat.leb _ _); [intros H; injection H as <- <- <-; auto|].
  rewrite Hq, Hh. unfold handler. cbn [stateAt nth_error]. unfold lexHtml.
  set (it := skipn (lx_pos l) content). clearbody it.
  set (P := fun o : Out => isTag (o_tok o) \/ (o_tok o = T_INLINE_HTML /\ o_st o = HtmlState :: q)).
  assert (HP : forall o, lexHtml cc (HtmlState :: q) (lx_id l) it = Some o -> P o).
  { intros o. unfold lexHtml. destruct (_ &&& _ &&& _) as [b|]; [|discriminate]. destruct b.
    - destruct (isC it 2 _) as [b|]; [|discriminate]. destruct b.
      + intros H. injection H as <-. left. right. reflexivity.
      + destruct (_ &&& _ &&& _ &&& _) as [b|]; [|discriminate]. destruct b.
        * destruct (isC it 5 _) as [b|]; [|discriminate]. intros H. injection H as <-. left. left. reflexivity.
        * intros H. injection H as <-. left. left. reflexivity.
    - destruct (htmlLoop it 0) as [[jj nn]|]; [|discriminate]. intros H. injection H as <-. right. auto. }
  change (stateAt (HtmlState :: q) 0) with (Some HtmlState).
  intros H. fold (lexHtml cc (HtmlState :: q) (lx_id l) it) in H.
  destruct (lexHtml cc (HtmlState :: q) (lx_id l) it) as [o|] eqn:EO; [|discriminate].
  specialize (HP o eq_refl). destruct (Nat.ltb _ _).
  - injection H as <- <- <-. auto.
  - destruct HP as [HP|[HP HS]].
    + right; left. destruct (haltStep 0 (o_tok o)) as [tk h] eqn:EH. injection H as <- <- <-. cbn.
      destruct HP as [HP|HP]; rewrite HP in EH; injection EH as <- <-; [left|right]; reflexivity.
    + right; right. rewrite HP in H. cbn in H. injection H as <- <- <-. cbn. auto.
Qed.

Lemma docKinds fuel : forall l toks nls last, lx_halt l = 0 -> (exists q, lx_st l = HtmlState :: q) ->
  lexAll cc fuel content l = Some (Done toks nls last) ->
  Forall isHtml toks \/ exists pre t post, toks = pre ++ t :: post /\ Forall isHtml pre /\ isTag (t_kind t).
Proof.
  induction fuel as [|f IH]; intros l toks nls last Hh Hq; cbn [lexAll]; [discriminate|].
  destruct (nextToken cc content l) as [[[l' t] nl]|] eqn:EN; [|discriminate].
  destruct (isEOF (t_kind t)) eqn:Ee; [intros H; injection H as <- <- <-; left; constructor|].
  destruct (lexAll cc f content l') as [[ts nn la|]|] eqn:EL; try discriminate.
  intros H. injection H as <- <- <-.
  destruct (html_kinds l l' t nl Hh Hq EN) as [H|[H|[H [H1 H2]]]].
  - rewrite H in Ee. discriminate.
  - right. exists [], t, ts. auto.
  - destruct (IH l' _ _ _ H1 (eq_ind_r (fun s => exists q, s = HtmlState :: q) Hq H2) EL) as [A|(pre & u & post & -> & A & B)].
    + left. constructor; auto.
    + right. exists (t :: pre), u, post. auto.
Qed.

Lemma lexAll_length fuel : forall l toks nls last, lexAll cc fuel content l = Some (Done toks nls last) ->
  List.length toks < fuel.
Proof.
  induction fuel as [|f IH]; intros l toks nls last; cbn [lexAll]; [discriminate|].
  destruct (nextToken cc content l) as [[[l' t] nl]|]; [|discriminate].
  destruct (isEOF (t_kind t)); [intros H; injection H as <- <- <-; cbn; lia|].
  destruct (lexAll cc f content l') as [[ts nn la|]|] eqn:EL; try discriminate.
  intros H. injection H as <- <- <-. apply IH in EL. cbn. lia.
Qed.

Lemma htmlLoop_len it : forall i jj nl, htmlLoop it i = Some (jj, nl) -> jj <= i + List.length it.
Proof.
  induction it as [|c it IH]; intros i jj nl; cbn [htmlLoop].
  - intros H. injection H as <- <-. lia.
  - destruct (_ &&& _) as [b|]; [|discriminate]. destruct b.
    + intros H. injection H as <- <-. cbn. lia.
    + destruct (htmlLoop it (S i)) as [[a n]|] eqn:E; [|discriminate]. intros H. injection H as <- _.
      apply IH in E. cbn. lia.
Qed.

Lemma doc_nonempty fuel toks nls last : content <> [] ->
  lexAll cc fuel content initHtml = Some (Done toks nls last) -> toks <> [].
Proof.
  intros Hne HL ->. destruct (lossless cc OK content initHtml fuel [] nls last (or_introl eq_refl) HL) as [_ (rest & E & H)].
  cbn in E. subst rest. destruct H as [H|[H|H]]; [congruence| |].
  - destruct H as (r & E & _). destruct fuel as [|f]; [discriminate|]. cbn [lexAll] in HL.
    destruct (nextToken cc content initHtml) as [[[l' t] nl]|] eqn:EN; [|discriminate].
    destruct (isEOF (t_kind t)) eqn:Ee.
    + clear HL. unfold nextToken in EN. cbn [initHtml lx_pos lx_st lx_id lx_halt firstn rev skipn] in EN.
      destruct (Nat.leb_spec (List.length content) 0) as [Hl|Hl].
      { destruct content; [congruence|cbn in Hl; lia]. }
      destruct (handler cc [HtmlState; ErrorState] [] [] content) as [o|] eqn:EO; [|discriminate].
      assert (o_tok o = T_INLINE_HTML /\ o_len o <= S (List.length content)) as [Ho1 Ho2].
      { rewrite E in EO at 1. unfold handler in EO. cbn [stateAt nth_error] in EO. unfold lexHtml in EO.
        assert (HF : isC (str "/*" ++ r) 0 60%N &&& isC (str "/*" ++ r) 1 63%N &&&
             mNot (test (str "/*" ++ r) 2 (fun c => toLower cc c =? 120)%N &&& test (str "/*" ++ r) 3 (fun c => toLower cc c =? 109)%N
               &&& test (str "/*" ++ r) 4 (fun c => toLower cc c =? 108)%N) = Some false) by reflexivity.
        rewrite HF in EO. rewrite <- E in EO.
        destruct (htmlLoop content 0) as [[a n]|] eqn:EH; [|discriminate]. injection EO as <-. cbn.
        apply htmlLoop_len in EH. split; auto. lia. }
      cbn [Nat.add] in EN. destruct (Nat.ltb_spec (S (List.length content)) (o_len o)); [lia|].
      rewrite Ho1 in EN. cbn in EN. injection EN as _ <- _. discriminate.
    + destruct (lexAll cc f content l') as [[ts nn la|]|]; discriminate.
  - destruct H as (pre & h & w1 & lp & w2 & rp & w3 & semi & E & _). destruct pre; discriminate.
Qed.

(** ** C32 *)
Lemma completeTokens_ok env fuel inClass following toks nls last : content <> [] ->
  lexAll cc fuel content initHtml = Some (Done toks nls last) ->
  exists c, completeTokens cc env fuel inClass content following toks = Ok c.
Proof.
  intros Hne HL. pose proof (doc_nonempty _ _ _ _ Hne HL) as Hts.
  destruct (docKinds fuel initHtml toks nls last eq_refl (ex_intro _ [ErrorState] eq_refl) HL) as [H|(pre & t & post & -> & Hpre & Ht)].
  - destruct (completeTokens_html cc env fuel inClass content following toks Hts) as [c [H1 _]]; [|eauto].
    intros u Hu. rewrite Forall_forall in H. exact (H u Hu).
  - set (S := pre ++ t :: post).
    assert (HS : forall ta, on S ta -> streamAt ta (Z.of_nat (List.length pre)) = Ok t).
    { intros ta E. unfold streamAt. rewrite E, Nat2Z.id. unfold S. rewrite nth_error_app2, Nat.sub_diag by lia. cbn.
      destruct (Z.ltb_spec (Z.of_nat (List.length pre)) 0); [lia|reflexivity]. }
    apply (completeTokens_tag S (Z.of_nat (List.length pre))).
    + unfold S. rewrite app_length. cbn. lia.
    + intros ta E. exists t. auto.
    + intros ta i u E Hi Hu. unfold streamAt in Hu. rewrite E in Hu. destruct (Z.ltb_spec i 0); [discriminate|].
      unfold S in Hu. rewrite nth_error_app1 in Hu by lia.
      destruct (nth_error pre (Z.to_nat i)) eqn:En; [|discriminate]. injection Hu as ->. apply nth_error_In in En.
      rewrite Forall_forall in Hpre. exact (Hpre u En).
    + exact (lexAll_length _ _ _ _ _ HL).
    + intros u Hu. apply in_split in Hu. destruct Hu as (a & b & Hab).
      destruct (in_bounds cc OK content initHtml fuel S nls last (or_introl eq_refl) HL a u b Hab) as [H _]. lia.
Qed.

(** ** Histories and runs *)
Lemma lexAll_suffix toks l0 l : handsOut cc content l0 toks l -> forall fuel ts nls last,
  lexAll cc fuel content l0 = Some (Done ts nls last) ->
  exists f ts2 nls2, ts = toks ++ ts2 /\ lexAll cc f content l = Some (Done ts2 nls2 last).
Proof.
  intros H. induction H as [|toks l t nl l' H IH EN Hk]; intros fuel ts nls last HL.
  - exists fuel, ts, nls. auto.
  - destruct (IH _ _ _ _ HL) as (f & ts2 & nls2 & -> & HL2). destruct f as [|f]; [discriminate|]. cbn [lexAll] in HL2.
    rewrite EN in HL2. destruct (isEOF (t_kind t)) eqn:Ee; [destruct (t_kind t); discriminate||congruence|].
    destruct (lexAll cc f content l') as [[ts3 nn la|]|] eqn:EL; try discriminate.
    injection HL2 as <- _ <-. exists f, ts3, nn. rewrite <- app_assoc. auto.
Qed.
Lemma handsOut_reach l0 toks l : handsOut cc content l0 toks l -> reachable cc content l0 l.
Proof. intros H. induction H; econstructor; eauto. Qed.
Lemma handsOut_end l0 toks l : initial l0 -> handsOut cc content l0 toks l -> forall pre t, toks = pre ++ [t] ->
  t_end t = (Z.of_nat (lx_pos l) - 1)%Z.
Proof.
  intros Hi H pre t E. destruct H as [|toks l t' nl l' H EN Hk]; [destruct pre; discriminate|].
  apply app_inj_tail in E. destruct E as [-> ->].
  pose proof (step_ok cc OK content l l' t nl (reachable_inv cc OK content l0 l Hi (handsOut_reach _ _ _ H)) EN) as HS.
  destruct (s_kind _ _ _ _ _ _ HS) as [(_ & _ & K & _)|(_ & o & _ & _ & _ & _ & [(_ & _ & K & _)|(_ & _ & _ & K & _)])]; congruence.
Qed.

Lemma mid_rest l : mid content (Z.of_nat (lx_pos l)) 2 = firstn 2 (remaining content l).
Proof. unfold mid, remaining. cbn [Z.ltb]. now rewrite Nat2Z.id. Qed.


(** ** C33 *)
Lemma eof_stop f l ts nls last : (forall l' t nl, nextToken cc content l = Some (l', t, nl) -> t_kind t = T_EOF) ->
  lexAll cc f content l = Some (Done ts nls last) -> ts = [].
Proof.
  intros H. destruct f as [|f]; [discriminate|]. cbn [lexAll].
  destruct (nextToken cc content l) as [[[l' t] nl]|] eqn:EN; [|discriminate]. rewrite (H _ _ _ eq_refl). cbn.
  intros E. now injection E as <- _ _.
Qed.

Lemma newTA_last pre t : streamAt (newTA content (pre ++ [t])) (ta_pos (newTA content (pre ++ [t]))) = Ok t /\
  (0 <= ta_pos (newTA content (pre ++ [t])))%Z.
Proof.
  unfold streamAt, newTA. cbn [ta_pos ta_stream]. rewrite app_length. cbn [List.length].
  replace (Z.of_nat (List.length pre + 1) - 1)%Z with (Z.of_nat (List.length pre)) by lia.
  rewrite Nat2Z.id, nth_error_app2, Nat.sub_diag by lia. cbn.
  destruct (Z.ltb_spec (Z.of_nat (List.length pre)) 0); [lia|]. split; [reflexivity|lia].
Qed.

Lemma tokens_block env fuel inClass following pre t c :
  mid content (t_end t + 1) 2 = str "/*" ->
  completeTokens cc env fuel inClass content following (pre ++ [t]) = Ok c -> c_valid c = false.
Proof.
  intros Hm. unfold completeTokens. destruct (newTA_last pre t) as [H1 H2].
  set (ta := newTA content (pre ++ [t])) in *. unfold tokAt at 1. rewrite Z.add_0_r, H1. cbn [cbind].
  unfold type at 1. destruct (Z.eqb_spec (ta_pos ta) (-1)); [lia|]. rewrite H1. cbn [cbind]. rewrite Hm.
  change (eqs (str "/*") (str "/*")) with true. cbn iota. intros H. injection H as <-. reflexivity.
Qed.

Lemma tokens_line env fuel inClass following pre t c : t_kind t = T_COMMENT ->
  endsWith (symbol content t) cNL = false -> eqs (firstn 2 (symbol content t)) (str "/*") = false ->
  completeTokens cc env fuel inClass content following (pre ++ [t]) = Ok c -> c_valid c = false.
Proof.
  intros Hk He Hs. unfold completeTokens. destruct (newTA_last pre t) as [H1 H2].
  set (ta := newTA content (pre ++ [t])) in *. unfold tokAt at 1. rewrite Z.add_0_r, H1. cbn [cbind].
  assert (Ty : type ta = Ok T_COMMENT).
  { unfold type. destruct (Z.eqb_spec (ta_pos ta) (-1)); [lia|]. rewrite H1. cbn. now rewrite Hk. }
  rewrite Ty. cbn [cbind]. change (is T_COMMENT T_WHITESPACE) with false. cbn iota.
  destruct (eqs (mid _ _ _) _); [intros H; injection H as <-; reflexivity|]. rewrite Ty. cbn [cbind negb andb].
  change (isIn T_COMMENT _) with false. cbn iota. unfold bigSwitch. rewrite Ty. cbn [cbind].
  unfold stringAt, tokAt. rewrite Z.add_0_r, H1. cbn [cbind]. cbn [ta newTA ta_code]. fold (symbol content t).
  rewrite He, Hs. cbn [negb andb cbind]. unfold afterSwitch. cbn. intros H. injection H as <-. reflexivity.
Qed.

Lemma nonempty_last {A} (l : list A) : l <> [] -> exists pre x, l = pre ++ [x].
Proof. intros H. destruct (exists_last H) as (p & x & E). eauto. Qed.

Lemma block_ends toks l r fuel ts nls last : handsOut cc content initHtml toks l ->
  inPhp cc content l (str "/*" ++ r) -> ~ contains (str "*/") r -> content <> [] ->
  lexAll cc fuel content initHtml = Some (Done ts nls last) ->
  exists pre t, ts = pre ++ [t] /\ mid content (t_end t + 1) 2 = str "/*".
Proof.
  intros HO HP HC Hne HL. destruct (lexAll_suffix _ _ _ HO _ _ _ _ HL) as (f & ts2 & nls2 & -> & HL2).
  destruct (block_unclosed cc OK content l r HP (fun a b E => HC (ex_intro _ a (ex_intro _ b E)))) as (l' & t & nl & EN & EK).
  assert (ts2 = []) as ->. { eapply eof_stop; [|exact HL2]. intros x y z E. rewrite EN in E. now injection E as _ <- _. }
  rewrite app_nil_r in *. destruct (nonempty_last toks (doc_nonempty _ _ _ _ Hne HL)) as (pre & u & ->).
  exists pre, u. split; auto. rewrite (handsOut_end _ _ _ (or_introl eq_refl) HO pre u eq_refl).
  replace (Z.of_nat (lx_pos l) - 1 + 1)%Z with (Z.of_nat (lx_pos l)) by lia. rewrite mid_rest.
  destruct HP as [(_ & _ & _ & ->)|(_ & _ & _ & ->)]; reflexivity.
Qed.

Lemma remaining_end l : remaining content l = [] -> forall l' t nl, nextToken cc content l = Some (l', t, nl) -> t_kind t = T_EOF.
Proof.
  intros H l' t nl. unfold nextToken.
  destruct (Nat.leb_spec (List.length content) (lx_pos l)) as [Hl|Hl]; [intros E; now injection E as _ <- _|].
  exfalso. unfold remaining in H. apply (f_equal (@List.length N)) in H. rewrite skipn_length in H. cbn in H. lia.
Qed.

Lemma yields_ends toks l k text l' fuel ts nls last : handsOut cc content initHtml toks l ->
  yields cc content l k text [] l' -> k <> T_EOF ->
  lexAll cc fuel content initHtml = Some (Done ts nls last) ->
  exists t, ts = toks ++ [t] /\ t_kind t = k /\ symbol content t = text.
Proof.
  intros HO (t & nl & EN & EK & ES & ER) Hk HL.
  assert (HO2 : handsOut cc content initHtml (toks ++ [t]) l') by (eapply ho_snoc; eauto; congruence).
  destruct (lexAll_suffix _ _ _ HO2 _ _ _ _ HL) as (f & ts2 & nls2 & -> & HL2).
  rewrite (eof_stop _ _ _ _ _ (remaining_end _ ER) HL2), app_nil_r. eauto.
Qed.

Lemma oneLine_end s : oneLine s -> endsWith s cNL = false.
Proof.
  intros [H _]. unfold endsWith. destruct (rev s) as [|x q] eqn:E; auto. apply N.eqb_neq. intros ->. apply H.
  apply in_rev. rewrite E. left. reflexivity.
Qed.
End Doc.

Lemma fullText_case cc (OK : ascii_ok cc) env fuel addTag inClass text following c :
  complete cc env fuel addTag inClass text following = Ok c ->
  c_valid c = false \/ exists toks nls last, fullText addTag text <> [] /\
     lexAll cc fuel (fullText addTag text) initHtml = Some (Done toks nls last) /\
     completeTokens cc env fuel inClass (fullText addTag text) following toks = Ok c.
Proof.
  unfold complete. destruct (fullText addTag text) as [|x s] eqn:E.
  - intros H. injection H as <-. left. reflexivity.
  - destruct (lexAll cc fuel (x :: s) initHtml) as [[toks nls last|]|]; try discriminate. intros H. right.
    exists toks, nls, last. split; [discriminate|auto].
Qed.

Lemma complete_block cc (OK : ascii_ok cc) env fuel addTag inClass text following c :
  endsInBlockComment cc (fullText addTag text) ->
  complete cc env fuel addTag inClass text following = Ok c -> c_valid c = false.
Proof.
  intros (toks & l & r & HO & HP & HC) H.
  destruct (fullText_case cc OK _ _ _ _ _ _ _ H) as [?|(ts & nls & last & Hne & HL & HT)]; auto.
  destruct (block_ends cc OK _ _ _ _ _ _ _ _ HO HP HC Hne HL) as (pre & t & -> & Hm).
  eapply tokens_block; eauto.
Qed.

Lemma complete_line cc (OK : ascii_ok cc) env fuel addTag inClass text following c :
  endsInLineComment cc (fullText addTag text) ->
  complete cc env fuel addTag inClass text following = Ok c -> c_valid c = false.
Proof.
  intros (toks & l & st & r & HO & HP & HOne & HK) H.
  destruct (fullText_case cc OK _ _ _ _ _ _ _ H) as [?|(ts & nls & last & Hne & HL & HT)]; auto.
  set (doc := fullText addTag text) in *.
  assert (exists l', yields cc doc l T_COMMENT (st ++ r) [] l') as [l' HY].
  { destruct HK as [->|[-> Hr]].
    - destruct (line_hash cc OK doc l r _ _ HP (le_eof _ HOne)) as [l' [HY _]]. eauto.
    - destruct (line_slashes cc OK doc l r _ _ HP Hr (le_eof _ HOne)) as [l' [HY _]]. eauto. }
  destruct (yields_ends cc doc _ _ _ _ _ _ _ _ _ HO HY ltac:(discriminate) HL) as (t & -> & K & Sy).
  eapply tokens_line; eauto.
  - rewrite Sy. now apply oneLine_end.
  - rewrite Sy. destruct HK as [->|[-> _]]; [destruct r|]; reflexivity.
Qed.

(** ** C34 *)
Fixpoint run (w : list Tok) (o : nat) : option nat :=
  match w with
  | [] => Some o
  | T_RPAREN :: r => run r (S o)
  | T_LPAREN :: r => match o with O => None | S o => run r o end
  | _ :: r => run r o
  end.
Lemma run_other k r o : k <> T_LPAREN -> k <> T_RPAREN -> run (k :: r) o = run r o.
Proof. intros H1 H2. destruct k; congruence || reflexivity. Qed.
Lemma run_app a b o : run (a ++ b) o = match run a o with Some o2 => run b o2 | None => None end.
Proof.
  revert o. induction a as [|k a IH]; intros o; cbn [app]; [reflexivity|].
  destruct (isP k T_LPAREN) as [->|H1]; [destruct o; cbn [run]; auto|].
  destruct (isP k T_RPAREN) as [->|H2]; [cbn [run]; auto|]. rewrite !run_other by auto. apply IH.
Qed.
Lemma balanced_run w : balanced w -> forall o, run (rev w) o = Some o.
Proof.
  intros H. induction H as [|k w H1 H2 H IH|u w Hu IHu Hw IHw]; intros o; [reflexivity| |].
  - cbn [rev]. rewrite run_app, IH. now rewrite run_other.
  - cbn [rev]. rewrite rev_app_distr. cbn [rev]. rewrite <- !app_assoc, run_app, IHw. cbn [app run].
    rewrite run_app, IHu. reflexivity.
Qed.
Lemma balanced_app a b : balanced a -> balanced b -> balanced (a ++ b).
Proof.
  intros H Hb. induction H as [|k w H1 H2 H IH|u w Hu IHu Hw IHw]; cbn [app]; auto.
  - now constructor.
  - rewrite <- app_assoc. cbn [app]. now constructor.
Qed.
Lemma app_split {A} (a b c d : list A) : a ++ b = c ++ d ->
  (exists e, a = c ++ e /\ d = e ++ b) \/ (exists e, c = a ++ e /\ b = e ++ d).
Proof.
  revert c. induction a as [|x a IH]; intros [|y c] H; cbn in H.
  - left. exists []. auto.
  - right. exists (y :: c). auto.
  - left. exists (x :: a). auto.
  - injection H as -> H. destruct (IH c H) as [(e & -> & ->)|(e & -> & ->)]; [left|right]; exists e; auto.
Qed.
Lemma balanced_insert x w : balanced x -> balanced w -> forall a b, w = a ++ b -> balanced (a ++ x ++ b).
Proof.
  intros Hx H. induction H as [|k w H1 H2 H IH|u w Hu IHu Hw IHw]; intros a b E.
  - symmetry in E. apply app_eq_nil in E. destruct E as [-> ->]. cbn. now rewrite app_nil_r.
  - destruct a as [|y a]; cbn in E.
    + subst b. cbn. apply balanced_app; auto. now constructor.
    + injection E as <- ->. cbn. constructor; auto.
  - destruct a as [|y a]; cbn in E.
    + subst b. cbn. apply balanced_app; auto. now constructor.
    + injection E as <- E. destruct (app_split _ _ _ _ E) as [(e & -> & ->)|(e & -> & E2)].
      * cbn. replace (a ++ x ++ e ++ T_RPAREN :: w) with ((a ++ x ++ e) ++ T_RPAREN :: w) by now rewrite <- !app_assoc.
        apply bal_paren; auto.
      * destruct e as [|z e]; cbn in E2.
        -- subst b. rewrite app_nil_r. cbn. rewrite app_assoc. apply bal_paren; auto.
           specialize (IHu u [] (eq_sym (app_nil_r u))). now rewrite app_nil_r in IHu.
        -- injection E2 as <- ->. cbn. rewrite <- app_assoc. cbn. apply bal_paren; auto.
Qed.
Lemma run_balanced w : forall o, run (rev w) o = Some 0 -> balanced (w ++ repeat T_RPAREN o).
Proof.
  induction w as [|k w IH] using rev_ind; intros o H.
  - cbn in H. injection H as ->. constructor.
  - rewrite rev_app_distr in H. cbn [rev app] in H. rewrite <- app_assoc. cbn [app].
    destruct (isP k T_LPAREN) as [->|H1].
    + destruct o as [|o]; [discriminate|]. cbn [run] in H. cbn [repeat].
      apply (balanced_insert [T_LPAREN; T_RPAREN] (w ++ repeat T_RPAREN o)); auto.
      apply (bal_paren [] []); constructor.
    + destruct (isP k T_RPAREN) as [->|H2]; [exact (IH (S o) H)|].
      rewrite run_other in H by auto. apply (balanced_insert [k] (w ++ repeat T_RPAREN o)); auto.
      constructor; auto. constructor.
Qed.
Lemma balanced_iff w : balanced w <-> run (rev w) 0 = Some 0.
Proof.
  split; [intros H; now apply balanced_run|]. intros H. apply run_balanced in H. cbn in H. now rewrite app_nil_r in H.
Qed.

Lemma kindAt ta n k : nth_error (map t_kind (ta_stream ta)) n = Some k -> ta_pos ta = Z.of_nat n ->
  typeAt ta 0 = k /\ type ta = Ok k.
Proof.
  intros H Ep. rewrite nth_error_map in H. destruct (nth_error (ta_stream ta) n) as [t|] eqn:E; [|discriminate].
  injection H as <-. assert (streamAt ta (ta_pos ta) = Ok t) as Hs.
  { unfold streamAt. rewrite Ep, Nat2Z.id, E. destruct (Z.ltb_spec (Z.of_nat n) 0); [lia|reflexivity]. }
  split; [apply typeAt_at; rewrite Z.add_0_r; exact Hs|]. unfold type. destruct (Z.eqb_spec (ta_pos ta) (-1)); [lia|].
  now rewrite Hs.
Qed.

Lemma rOALoop_spec b : forall u fuel ta o, map t_kind (ta_stream ta) = b ++ u -> u <> [] ->
  ta_pos ta = Z.of_nat (List.length b) -> List.length b < fuel ->
  exists ta', rOALoop fuel ta o = Ok ta' /\ ta_stream ta' = ta_stream ta /\
    ((exists b1 w, b = b1 ++ T_LPAREN :: w /\ ta_pos ta' = Z.of_nat (List.length b1) /\ ~ In T_INVALID w /\ run (rev w) o = Some 0)
     \/ (typeAt ta' 0 = T_INVALID /\ forall b1 w, b = b1 ++ T_LPAREN :: w -> ~ In T_INVALID w -> run (rev w) o <> Some 0)).
Proof.
  induction b as [|k b IH] using rev_ind; intros u fuel ta o E Hu Ep Hf; (destruct fuel as [|f]; [lia|]); cbn [rOALoop].
  - assert (popTok ta = setPos ta (-1)) as ->. { unfold popTok. rewrite Ep. reflexivity. }
    cbn. eexists. split; [reflexivity|]. split; [reflexivity|]. right.
    split; [unfold typeAt, streamAt; reflexivity|]. intros [|? b1] w Hb; discriminate.
  - rewrite app_length in Ep, Hf. cbn [List.length] in Ep, Hf.
    set (tb := popTok ta). assert (Eb : tb = setPos ta (Z.of_nat (List.length b))).
    { unfold tb, popTok. destruct (Z.leb_spec 0 (ta_pos ta)); [|lia]. f_equal. lia. }
    assert (Sb : map t_kind (ta_stream tb) = b ++ k :: u) by (rewrite Eb; cbn; rewrite E, <- app_assoc; reflexivity).
    assert (Kb : typeAt tb 0 = k /\ type tb = Ok k).
    { apply (kindAt tb (List.length b)); [|rewrite Eb; reflexivity]. rewrite Sb, nth_error_app2, Nat.sub_diag by lia. reflexivity. }
    destruct Kb as [Kb Tb]. rewrite Tb. cbn [cbind].
    assert (HR : forall o', k <> T_INVALID -> (forall w, run (rev (w ++ [k])) o = run (rev w) o') -> (k = T_LPAREN -> o <> 0) ->
      exists ta', rOALoop f tb o' = Ok ta' /\ ta_stream ta' = ta_stream ta /\
    ((exists b1 w, b ++ [k] = b1 ++ T_LPAREN :: w /\ ta_pos ta' = Z.of_nat (List.length b1) /\ ~ In T_INVALID w /\ run (rev w) o = Some 0)
     \/ (typeAt ta' 0 = T_INVALID /\ forall b1 w, b ++ [k] = b1 ++ T_LPAREN :: w -> ~ In T_INVALID w -> run (rev w) o <> Some 0))).
    { intros o' Hki Hrun Hko. destruct (IH (k :: u) f tb o' Sb) as (ta' & H1 & H2 & H3); [discriminate|rewrite Eb; reflexivity|lia|].
      exists ta'. split; auto. split; [rewrite H2, Eb; reflexivity|]. destruct H3 as [(b1 & w & -> & H4 & H5 & H6)|[H4 H5]].
      - left. exists b1, (w ++ [k]). rewrite <- app_assoc. cbn [app]. split; auto. split; auto. split; [|now rewrite Hrun].
        rewrite in_app_iff. cbn. intuition.
      - right. split; auto. intros b1 w Hb Hw.
        destruct w as [|y w _] using rev_ind.
        + apply app_inj_tail in Hb. destruct Hb as [-> ->]. cbn. specialize (Hko eq_refl). congruence.
        + assert (b = b1 ++ T_LPAREN :: w /\ k = y) as [Hb2 <-].
          { change (b1 ++ T_LPAREN :: w ++ [y]) with (b1 ++ (T_LPAREN :: w) ++ [y]) in Hb. rewrite app_assoc in Hb.
            apply app_inj_tail in Hb. exact Hb. }
          rewrite Hrun. apply (H5 _ _ Hb2). intros Hi. apply Hw, in_or_app. auto. }
    assert (HRO : forall w, k <> T_LPAREN -> k <> T_RPAREN -> run (rev (w ++ [k])) o = run (rev w) o).
    { intros w A B. rewrite rev_app_distr. cbn [rev app]. now rewrite run_other. }
    destruct (isP k T_RPAREN) as [->|Hkr].
    { apply HR; try discriminate. intros w. rewrite rev_app_distr. reflexivity. }
    destruct (isP k T_LPAREN) as [->|Hkl].
    { destruct o as [|o].
      - exists tb. split; auto. split; [rewrite Eb; reflexivity|]. left. exists b, []. rewrite Eb. cbn. auto.
      - apply HR; try discriminate. intros w. rewrite rev_app_distr. reflexivity. }
    destruct (isP k T_INVALID) as [->|Hki].
    { exists tb. split; auto. split; [rewrite Eb; reflexivity|]. right. split; auto. intros b1 w Hb Hw.
      destruct w as [|y w _] using rev_ind; [apply app_inj_tail in Hb; destruct Hb; discriminate|].
      change (b1 ++ T_LPAREN :: w ++ [y]) with (b1 ++ (T_LPAREN :: w) ++ [y]) in Hb. rewrite app_assoc in Hb.
      apply app_inj_tail in Hb. destruct Hb as [_ <-]. exfalso. apply Hw, in_or_app. right. left. reflexivity. }
    apply HR; auto; congruence.
Qed.

Lemma rOA_spec code before comma after fuel : t_kind comma = T_COMMA ->
  List.length before < fuel ->
  let toks := before ++ comma :: after in
  exists ta', removeOtherArguments fuel {| ta_code := code; ta_stream := toks; ta_pos := Z.of_nat (List.length before) |} = Ok ta' /\
    ta_stream ta' = toks /\
    ((exists p, ta_pos ta' = Z.of_nat p /\ encloses (map t_kind toks) (List.length before) p) \/
     (type ta' = Ok T_INVALID /\ forall p, ~ encloses (map t_kind toks) (List.length before) p)).
Proof.
  intros Hk Hf toks. set (ta := {| ta_code := code; ta_stream := toks; ta_pos := Z.of_nat (List.length before) |}).
  assert (HS : map t_kind (ta_stream ta) = map t_kind before ++ T_COMMA :: map t_kind after).
  { cbn. unfold toks. rewrite map_app. cbn. now rewrite Hk. }
  assert (type ta = Ok T_COMMA) as Ty.
  { apply (kindAt ta (List.length before)); [|reflexivity]. rewrite HS, nth_error_app2, map_length, Nat.sub_diag by (rewrite map_length; lia). reflexivity. }
  unfold removeOtherArguments. rewrite Ty. cbn [cbind]. rewrite is_refl.
  destruct (rOALoop_spec (map t_kind before) (T_COMMA :: map t_kind after) fuel ta 0 HS) as (ta' & H1 & H2 & H3);
    [discriminate|now rewrite map_length|now rewrite map_length|].
  exists ta'. split; auto. split; auto. cbn [ta ta_stream] in HS. destruct H3 as [(b1 & w & Hb & Hp & Hi & Hr)|[Hty H3]].
  - left. exists (List.length b1). split; auto. exists b1, w, (T_COMMA :: map t_kind after).
    split; [rewrite HS, Hb, <- app_assoc; reflexivity|]. split; auto. split.
    + rewrite <- (map_length t_kind before), Hb, app_length. reflexivity.
    + split; auto. now apply balanced_iff.
  - right. split.
    + pose proof (rOALoop_ok toks fuel ta 0 eq_refl) as HO. cbn [ta ta_pos] in HO.
      destruct HO as (tx & X1 & X2 & _ & [X3 X4] & _); [unfold toks; rewrite app_length; cbn; lia|lia|lia|].
      fold ta in X1. rewrite H1 in X1. injection X1 as <-. rewrite (type_ok toks), Hty; auto.
      cbn [ta ta_pos] in X4. unfold toks. rewrite app_length. cbn. lia.
    + intros p (pre & args & post & E & Hpre & Hc & Hb & Hi). apply (H3 pre args); auto; [|now apply balanced_iff].
      rewrite HS in E. apply (f_equal (firstn (List.length before))) in E.
      assert (EQ : T_LPAREN :: args ++ post = (T_LPAREN :: args) ++ post) by reflexivity. rewrite EQ, app_assoc in E.
      rewrite !firstn_app in E. rewrite (firstn_all2 (n := List.length before) (map t_kind before)) in E by (rewrite map_length; lia).
      rewrite map_length, Nat.sub_diag in E. cbn [firstn] in E. rewrite app_nil_r in E. rewrite E.
      assert (List.length (pre ++ T_LPAREN :: args) = List.length before) as EL by (rewrite app_length; cbn; lia).
      rewrite EL, Nat.sub_diag. cbn [firstn]. rewrite app_nil_r, <- firstn_app. apply firstn_all2. lia.
Qed.

Lemma encloses_unique ks c p q : encloses ks c p -> encloses ks c q -> p = q.
Proof.
  assert (W : forall p q, encloses ks c p -> encloses ks c q -> ~ p < q).
  { clear p q. intros p q (a1 & x1 & r1 & E1 & L1 & C1 & B1 & _) (a2 & x2 & r2 & E2 & L2 & C2 & B2 & _) H.
    rewrite E1 in E2. destruct (app_split _ _ _ _ E2) as [(e & E & _)|(e & E & E3)].
    - apply (f_equal (@List.length Tok)) in E. rewrite app_length in E. lia.
    - destruct e as [|z e]; [rewrite app_nil_r in E; subst a2; lia|]. cbn in E3. injection E3 as <- E3.
      assert (x1 = e ++ T_LPAREN :: x2) as Ex.
      { apply (f_equal (firstn (List.length x1))) in E3. rewrite firstn_app, Nat.sub_diag, firstn_all in E3. cbn in E3. rewrite app_nil_r in E3.
        rewrite E3. replace (e ++ T_LPAREN :: x2 ++ r2) with ((e ++ T_LPAREN :: x2) ++ r2) by (rewrite <- app_assoc; reflexivity).
        assert (List.length (e ++ T_LPAREN :: x2) = List.length x1) as EL.
        { subst a2. rewrite app_length in L2. cbn [List.length] in L2. rewrite app_length. cbn [List.length]. lia. }
        rewrite firstn_app, EL, Nat.sub_diag. cbn. rewrite app_nil_r. apply firstn_all2. lia. }
      apply balanced_run with (o := 0) in B1. rewrite Ex, rev_app_distr in B1. cbn [rev] in B1. rewrite run_app, run_app in B1.
      rewrite (balanced_run _ B2 0) in B1. discriminate. }
  intros H1 H2. pose proof (W p q H1 H2). pose proof (W q p H2 H1). lia.
Qed.
