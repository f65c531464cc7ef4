(** C68, part 2: pieces that change the place. *)
From Verif Require Export SrcProofs.
Open Scope nat_scope.

Section F.
Variable cc : CharClass.
Hypothesis OK : ascii_ok cc.
Variable content : qstring.
Notation yields := (yields cc content).
Notation emits := (emits cc content).
Notation leads := (leads cc content).
Notation stands := (stands cc content).
Notation before := (before content).

Record raw (sts : list LState) (rest : qstring) (l : LexState) : Prop := {
  r_reach : exists l0, initial l0 /\ reachable cc content l0 l;
  r_halt : lx_halt l = 0;
  r_rest : remaining content l = rest;
  r_states : lx_st l = sts
}.
Lemma stands_raw st rest l : stands st rest l -> raw (states st) rest l.
Proof. intros H. constructor; [exact (s_reach _ _ _ _ _ H)|exact (s_halt _ _ _ _ _ H)|exact (s_rest _ _ _ _ _ H)|exact (s_states _ _ _ _ _ H)]. Qed.
Lemma raw_stands st rest l : raw (states st) rest l -> (forall id, In (InHeredoc id) st -> lx_id l = id /\ docIdent cc id) ->
  (forall p st', within p st' st -> oddBackslashes (before l) = Some false) -> stands st rest l.
Proof. intros [A B C D] H1 H2. constructor; auto. Qed.

Lemma hstep l sts text r k nl st' id' : raw sts (text ++ r) l -> text ++ r <> [] ->
  handler cc sts (lx_id l) (before l) (text ++ r) = Some {| o_tok := k; o_len := List.length text; o_nl := nl; o_st := st'; o_id := id' |} ->
  k <> T_HALT_COMPILER ->
  exists l', yields l k text r l' /\ raw st' r l' /\ lx_id l' = id' /\ before l' = rev text ++ before l.
Proof.
  intros [A B C D] Hne Ho Hk.
  assert (EQ : exists l', yields l k text r l' /\ lx_st l' = st' /\ lx_id l' = id').
  { rewrite <- D in Ho.
    destruct (yields_intro cc content l _ _ C Hne ltac:(rewrite B; discriminate) Ho) as [l' [HY [H1 [H2 _]]]].
    { cbn [o_len]. rewrite app_length. lia. }
    cbn [o_len o_tok o_st o_id] in *. exists l'. split; [|auto].
    rewrite firstn_app, Nat.sub_diag, firstn_all, firstn_O, app_nil_r in HY.
    rewrite skipn_app, Nat.sub_diag, skipn_all in HY. exact HY. }
  destruct EQ as (l' & Y & S & I). exists l'. split; [exact Y|]. split; [|split; [exact I|eapply yields_before; eauto]].
  destruct Y as (t & nl' & N & K & _ & R). constructor; auto.
  - destruct A as [l0 [Hi Hr]]. exists l0. split; [exact Hi|]. eapply reach_step; eauto.
  - eapply next_halt; eauto. congruence.
Qed.

Lemma code_not_within st p x : code st -> ~ within p x st.
Proof. intros [y [-> | ->]] [Hp [W|W]]; injection W as W; subst; try discriminate; destruct Hp. Qed.
Lemma code_id st rest l id : code st -> stands st rest l -> In (InHeredoc id) st -> forall x, st <> InCode :: x.
Proof. intros C H Hin x ->. rewrite (code_bottom cc OK _ _ _ _ H) in Hin. destruct Hin as [E|[E|[]]]; discriminate. Qed.
Lemma states_cons p st : states (p :: st) = stateOf p :: states st.
Proof. reflexivity. Qed.

(** ** Code *)
Lemma code_state st : code st -> exists s, (s = DefaultState \/ s = StringVariableCurly) /\ exists q, states st = s :: q.
Proof. intros [y [-> | ->]]; eexists; (split; [|eexists; reflexivity]); auto. Qed.
Ltac openDefault c r :=
  match goal with |- context [handler _ _ _ _ ?t] => let t' := eval cbn in t in change t with t' end;
  unfold handler; cbn [stateAt nth_error app]; unfold lexDefault; cbn [peek stateAt nth_error];
  let A := fresh in let B := fresh in let D := fresh in let E := fresh in
  destruct (punct_tests cc OK c r eq_refl) as [-> [-> [A [B E]]]]; cbv iota; cbn [mOr mAnd]; rewrite ?A; cbn [mAnd]; cbv iota; rewrite B, ?E; clear A B E.

Lemma leads_arrow st r : code st -> noIdent cc r -> leads st [(T_OBJECT_OPERATOR, str "->")] (str "->") st r.
Proof.
  intros C N l H. destruct (code_state st C) as (s & Hs & q & Eq).
  destruct (hstep l _ (str "->") r T_OBJECT_OPERATOR [] (states st) (lx_id l) (stands_raw _ _ _ H)) as (l' & Y & R & I & B); [discriminate| |discriminate|].
  - rewrite Eq. assert (E : test (45%N :: 62%N :: r) 2 (isIdent cc) = Some false).
    { unfold test. cbn [peek]. destruct r as [|c r]; cbn; [now rewrite (isIdent_nul cc OK)|]. f_equal. apply not_true_iff_false. rewrite (identChar_spec cc). eapply N. reflexivity. }
    destruct Hs as [-> | ->]; openDefault 45%N (62%N :: r); cbn; unfold lexArrow; rewrite E; reflexivity.
  - exists l'. split; [eapply emits_one; [exact Y|reflexivity|discriminate]|]. apply raw_stands; [exact R| |].
    + intros id Hin. rewrite I. exact (s_id _ _ _ _ _ H id Hin).
    + intros p x W. destruct (code_not_within _ _ _ C W).
Qed.
Lemma ident_scan name r i : ident cc name -> noIdent cc r -> skipWhile (isIdent cc) (name ++ r) i = (i + List.length name, r).
Proof.
  intros [_ H1] H2. rewrite skipWhile_app; [reflexivity| |].
  - eapply Forall_impl; [|exact H1]. intros a Ha. now apply identChar_spec.
  - intros a x E. apply not_true_iff_false. rewrite (identChar_spec cc). eauto.
Qed.
Lemma leads_member st name r : code st -> ident cc name -> noIdent cc r ->
  leads st [(T_OBJECT_OPERATOR, str "->"); (T_STRING, name)] (str "->" ++ name) st r.
Proof.
  intros C HN N l H. destruct (code_state st C) as (s & Hs & q & Eq). rewrite <- app_assoc in H.
  pose proof HN as [(c & n' & En & Hc) _].
  destruct (hstep l _ (str "->") (name ++ r) T_OBJECT_OPERATOR [] (StringVariableObjectOperator :: states st) (lx_id l) (stands_raw _ _ _ H)) as (l1 & Y1 & R1 & I1 & B1); [discriminate| |discriminate|].
  - rewrite Eq. assert (E : test (45%N :: 62%N :: name ++ r) 2 (isIdent cc) = Some true).
    { subst name. unfold test. cbn. f_equal. apply (identChar_spec cc). exact (proj1 Hc). }
    destruct Hs as [-> | ->]; openDefault 45%N (62%N :: name ++ r); cbn; unfold lexArrow; rewrite E; reflexivity.
  - destruct (hstep l1 _ name r T_STRING [] (states st) (lx_id l1) R1) as (l2 & Y2 & R2 & I2 & B2); [subst name; discriminate| |discriminate|].
    + unfold handler. cbn [stateAt nth_error]. unfold lexObjOp. rewrite ident_scan by auto. cbn [fst pop].
      rewrite Eq. destruct Hs as [-> | ->]; reflexivity.
    + exists l2. split; [eapply em_tok; [exact Y1|reflexivity|discriminate|]; eapply emits_one; [exact Y2|reflexivity|discriminate]|]. apply raw_stands; [exact R2| |].
      * intros id Hin. rewrite I2, I1. exact (s_id _ _ _ _ _ H id Hin).
      * intros p x W. destruct (code_not_within _ _ _ C W).
Qed.
(** One token, with the place it leads to. *)
Lemma leads_one st st' k text r : k <> T_HALT_COMPILER -> skipped k = false -> k <> T_EOF -> text ++ r <> [] ->
  (forall l, stands st (text ++ r) l -> exists nl, handler cc (states st) (lx_id l) (before l) (text ++ r) = Some {| o_tok := k; o_len := List.length text; o_nl := nl; o_st := states st'; o_id := lx_id l |}) ->
  (forall id, In (InHeredoc id) st' -> In (InHeredoc id) st) ->
  (forall l p x, stands st (text ++ r) l -> within p x st' -> oddBackslashes (rev text ++ before l) = Some false) ->
  leads st [(k, text)] text st' r.
Proof.
  intros K1 K2 K3 Hne HH HI HB l H. destruct (HH l H) as [nl E].
  destruct (hstep l _ text r k nl (states st') (lx_id l) (stands_raw _ _ _ H) Hne E K1) as (l' & Y & R & I & B).
  exists l'. split; [eapply emits_one; eauto|]. apply raw_stands; [exact R| |].
  - intros id Hin. rewrite I. exact (s_id _ _ _ _ _ H id (HI id Hin)).
  - intros p x W. rewrite B. eapply HB; eauto.
Qed.
Lemma leads_lbrace st r : leads (InCode :: st) [(T_LBRACE, str "{")] (str "{") (InCode :: st) r.
Proof.
  apply leads_one; try discriminate; [reflexivity| |auto|].
  - intros l H. exists []. rewrite states_cons. cbn [stateOf]. openDefault 123%N r. reflexivity.
  - intros l p x H W. reflexivity.
Qed.
Lemma leads_rbrace st r : leads (InCode :: st) [(T_RBRACE, str "}")] (str "}") (InCode :: st) r.
Proof.
  apply leads_one; try discriminate; [reflexivity| |auto|].
  - intros l H. exists []. rewrite states_cons. cbn [stateOf]. openDefault 125%N r. reflexivity.
  - intros l p x H W. reflexivity.
Qed.
Lemma leads_lbrace_in st r : leads (InBraces :: st) [(T_LBRACE, str "{")] (str "{") (InBraces :: InBraces :: st) r.
Proof.
  apply leads_one; try discriminate; [reflexivity| | |].
  - intros l H. exists []. rewrite !states_cons. cbn [stateOf]. openDefault 123%N r. reflexivity.
  - intros id [E|Hin]; [discriminate|exact Hin].
  - intros l p x H W. reflexivity.
Qed.
Lemma leads_rbrace_in st r : leads (InBraces :: st) [(T_RBRACE, str "}")] (str "}") st r.
Proof.
  apply leads_one; try discriminate; [reflexivity| | |].
  - intros l H. exists []. rewrite !states_cons. cbn [stateOf]. openDefault 125%N r. reflexivity.
  - intros id Hin. right. exact Hin.
  - intros l p x H W. reflexivity.
Qed.
Lemma leads_close r : leads [InCode; InHtml] [(T_CLOSE_TAG, str "?>")] (str "?>") [InHtml] r.
Proof.
  apply leads_one; try discriminate; [reflexivity| | |].
  - intros l H. exists []. change (states [InCode; InHtml]) with [DefaultState; HtmlState; ErrorState]. openDefault 63%N (62%N :: r). reflexivity.
  - intros id [E|[]]; discriminate.
  - intros l p x H [Hp [W|W]]; injection W as W; subst; try discriminate; destruct Hp.
Qed.
Lemma leads_backtick st r : code st -> leads st [(T_BACKTICK, [cBACKTICK])] [cBACKTICK] (InBackticks :: st) r.
Proof.
  intros C. destruct (code_state st C) as (s & Hs & q & Eq).
  apply leads_one; try discriminate; [reflexivity| | |].
  - intros l H. exists []. rewrite states_cons, Eq. cbn [stateOf]. destruct Hs as [-> | ->]; openDefault 96%N r; reflexivity.
  - intros id [E|Hin]; [discriminate|exact Hin].
  - intros l p x H W. reflexivity.
Qed.
Lemma leads_quote st r : code st -> varStart cc cDQ r -> leads st [(T_DOUBLE_QUOTE, [cDQ])] [cDQ] (InQuotes :: st) r.
Proof.
  intros C V l H. pose proof (stands_php _ _ _ _ _ C H) as P.
  destruct (double_var cc OK content l r P V) as (l' & Y & S). exists l'. split; [eapply emits_one; [exact Y|reflexivity|discriminate]|].
  eapply (step cc content st); [exact H|exact Y|discriminate| | |].
  - rewrite S, (s_states _ _ _ _ _ H). reflexivity.
  - intros id [E|Hin]; [discriminate|]. left. split; [exact Hin|]. eapply code_id; eauto.
  - intros p x W. reflexivity.
Qed.
(** Heredocs *)
Lemma leads_heredoc st w quote id r : hereBlanks w -> quote = [] \/ quote = [cDQ] -> docIdent cc id -> r <> [] ->
  leads (InCode :: st) [(T_START_HEREDOC, heredocStart w quote id)] (heredocStart w quote id) (InHeredoc id :: InCode :: st) r.
Proof.
  intros Hw Hq Hid Hr l H. destruct r as [|d r]; [congruence|].
  set (sts := DefaultState :: states st).
  assert (EH : lexHereStart cc sts (lx_id l) (heredocStart w quote id ++ d :: r) =
    Some (id, Some {| o_tok := T_START_HEREDOC; o_len := List.length (heredocStart w quote id);
       o_nl := [3 + List.length w + List.length quote + List.length id + List.length quote]; o_st := StringHeredoc :: sts; o_id := id |})).
  { destruct Hid as [[c [s [-> Hc]]] Hall]. pose proof (Forall_inv Hall) as HcI.
    assert (Hcb : isLetter cc c || (c =? 95)%N = true) by (rewrite orb_true_iff, N.eqb_eq; exact Hc).
    assert (Hcs : c <> 32%N /\ c <> 9%N /\ c <> 39%N /\ c <> 34%N).
    { assert (G : forall x, (x < 128)%N -> asciiLetter x = false -> x <> 95%N -> c <> x).
      { intros x Hx HL Hx' ->. destruct Hc as [Hc|Hc]; [|congruence]. rewrite (ok_letter _ OK) in Hc by auto. congruence. }
      repeat split; apply G; try reflexivity; discriminate. }
    assert (Hq1 : isDigit cc 34%N = false /\ isLetter cc 34%N = false) by (rewrite (ok_digit _ OK), (ok_letter _ OK) by lia; auto).
    assert (Hq2 : isDigit cc 10%N = false /\ isLetter cc 10%N = false) by (rewrite (ok_digit _ OK), (ok_letter _ OK) by lia; auto).
    destruct Hcs as (Hc1 & Hc2 & Hc3 & Hc4). apply N.eqb_neq in Hc3, Hc4.
    assert (LEN : forall (a b : list N), List.length (a ++ b) - List.length b = List.length a) by (intros; rewrite app_length; lia).
    unfold heredocStart. rewrite <- !app_assoc. cbn [app str].
    destruct Hq as [-> | ->]; unfold lexHereStart; cbn [skipn app].
    - change (w ++ c :: s ++ 10%N :: d :: r) with (w ++ c :: (s ++ 10%N :: d :: r)).
      assert (E1 : hereSkip (w ++ c :: (s ++ 10%N :: d :: r)) = c :: s ++ 10%N :: d :: r).
      { destruct s as [|s0 s]; cbn [app]; apply hereSkip_app; auto. }
      rewrite E1. unfold isC at 1 2, test at 1 2. cbn [peek option_map mOr]. rewrite Hc3. cbn [mOr]. rewrite Hc4.
      unfold test at 1. cbn [peek option_map]. rewrite Hcb.
      change (c :: s ++ 10%N :: d :: r) with ((c :: s) ++ 10%N :: d :: r).
      rewrite (hereIdent_app cc (c :: s)) by (auto; try discriminate; tauto).
      cbn [moreThanOne andb app]. unfold isC, test. cbn [peek option_map mAnd]. change (10 =? 10)%N with true. cbn [mAnd].
      do 3 f_equal; cbn [List.length]; rewrite ?app_length; cbn [List.length]; rewrite ?app_length; cbn [List.length]; try lia.
      f_equal; [lia|f_equal; lia].
    - rewrite hereSkip_app by (auto; discriminate).
      unfold isC at 1 2, test at 1 2. cbn [peek option_map mOr]. change (34 =? 39)%N with false. cbn [mOr]. change (34 =? 34)%N with true.
      cbn [skipn]. unfold test at 1. cbn [peek option_map]. rewrite Hcb.
      change (c :: s ++ 34%N :: 10%N :: d :: r) with ((c :: s) ++ 34%N :: 10%N :: d :: r).
      rewrite (hereIdent_app cc (c :: s)) by (auto; try discriminate; tauto).
      cbn [moreThanOne andb app]. unfold isC, test. cbn [peek option_map mAnd skipn]. change (34 =? 39)%N with false. change (34 =? 34)%N with true. cbn [mAnd].
      cbn [moreThanOne skipn peek option_map mAnd]. change (10 =? 10)%N with true. cbn [mAnd].
      do 3 f_equal; cbn [List.length]; rewrite ?app_length; cbn [List.length]; rewrite ?app_length; cbn [List.length]; try lia.
      f_equal; [lia|f_equal; lia]. }
  destruct (hstep l _ (heredocStart w quote id) (d :: r) T_START_HEREDOC [3 + List.length w + List.length quote + List.length id + List.length quote] (StringHeredoc :: sts) id (stands_raw _ _ _ H)) as (l' & Y & R & I & B); [discriminate| |discriminate|].
  - rewrite states_cons. cbn [stateOf]. fold sts.
    assert (ES : exists x, heredocStart w quote id ++ d :: r = 60%N :: 60%N :: 60%N :: x) by (eexists; reflexivity).
    destruct ES as [x ES]. rewrite ES in EH |- *. subst sts. openDefault 60%N (60%N :: 60%N :: x).
    cbn -[lexHereStart List.length heredocStart]. unfold lexLess. cbn [stateAt nth_error]. unfold isC, test. cbn [peek option_map mAnd negb stIs].
    change (60 =? 60)%N with true. cbn [mAnd]. rewrite EH. reflexivity.
  - exists l'. split; [eapply emits_one; [exact Y|reflexivity|discriminate]|]. apply raw_stands; [exact R| |].
    + intros id' [E|Hin]; [injection E as <-; auto|]. exfalso. pose proof (code_bottom cc OK _ _ _ _ H). subst st. destruct Hin as [E|[E|[]]]; discriminate.
    + intros p x W. rewrite B. unfold heredocStart. rewrite !app_assoc, rev_app_distr. reflexivity.
Qed.
Lemma leads_nowdoc st w id body r : hereBlanks w -> docIdent cc id -> endsDoc id (id ++ r) ->
  ~ endsDoc id (body ++ id ++ r) -> nowdocBody id (body ++ id ++ r) body (id ++ r) ->
  leads (InCode :: st) [(T_START_NOWDOC, heredocStart w [cSQ] id); (T_STRING, body); (T_END_NOWDOC, id)]
      (heredocStart w [cSQ] id ++ body ++ id) (InCode :: st) r.
Proof.
  intros Hw Hid He Hn Hb l H. pose proof (code_bottom cc OK _ _ _ _ H) as ->.
  assert (EQ : (heredocStart w [cSQ] id ++ body ++ id) ++ r = (str "<<<" ++ w ++ [cSQ] ++ id ++ [cSQ; cNL]) ++ body ++ id ++ r) by (unfold heredocStart; rewrite <- !app_assoc; reflexivity).
  rewrite EQ in H. pose proof (stands_at _ _ _ _ _ _ H) as A. cbn [stateOf] in A.
  destruct (nowdoc_all cc OK content l w id body (id ++ r) A Hw Hid Hn Hb) as (l1 & l2 & l3 & Y1 & Y2 & Y3 & S).
  rewrite skipn_app, Nat.sub_diag, skipn_all in Y3. cbn [app skipn] in Y3.
  change (str "<<<" ++ w ++ [cSQ] ++ id ++ [cSQ; cNL]) with (heredocStart w [cSQ] id) in Y1.
  exists l3. split.
  - eapply em_tok; [|reflexivity|discriminate|eapply em_tok; [exact Y2|reflexivity|discriminate|eapply emits_one; [exact Y3|reflexivity|discriminate]]].
    replace (heredocStart w [cSQ] id) with (str "<<<" ++ w ++ [cSQ] ++ id ++ [cSQ; cNL]) by (unfold heredocStart; rewrite <- ?app_assoc; reflexivity). exact Y1.
  - destruct Y1 as (t1 & n1 & N1 & K1 & _ & R1). destruct Y2 as (t2 & n2 & N2 & K2 & _ & R2). destruct Y3 as (t3 & n3 & N3 & K3 & _ & R3).
    constructor.
    + destruct (s_reach _ _ _ _ _ H) as [l0 [Hi Hr]]. exists l0. split; [exact Hi|]. eapply reach_step; [|exact N3]. eapply reach_step; [|exact N2]. eapply reach_step; [exact Hr|exact N1].
    + eapply next_halt; [exact N3| |congruence]. eapply next_halt; [exact N2| |congruence]. eapply next_halt; [exact N1| |congruence]. exact (s_halt _ _ _ _ _ H).
    + exact R3.
    + rewrite S. exact (s_states _ _ _ _ _ H).
    + intros x [E|[E|[]]]; discriminate.
    + intros p x W. exfalso. eapply code_not_within; [|exact W]. eexists. left. reflexivity.
Qed.

(** ** HTML *)
Lemma html_not_within p x : ~ within p x [InHtml].
Proof. intros [Hp [W|W]]; [injection W as W _; subst p; destruct Hp|discriminate]. Qed.
Lemma start_not_within p x : ~ within p x [InCode; InHtml].
Proof. apply code_not_within. eexists. left. reflexivity. Qed.
Lemma leads_html c body r : (forall x, c :: body ++ str "<?" ++ r = str "<?" ++ x -> xmlTag cc x) ->
  firstOcc (str "<?") (body ++ str "<?" ++ r) body r ->
  leads [InHtml] [(T_INLINE_HTML, c :: body)] (c :: body) [InHtml] (str "<?" ++ r).
Proof.
  intros Hx F l H. destruct (html_text cc OK content l c _ body r (stands_at _ _ _ _ _ _ H) Hx F) as (l' & Y & S).
  exists l'. split; [eapply emits_one; [exact Y|reflexivity|discriminate]|].
  eapply (step cc content [InHtml]); [exact H|exact Y|discriminate|rewrite S; exact (s_states _ _ _ _ _ H)| |].
  - intros id [E|[]]; discriminate.
  - intros p x W. destruct (html_not_within _ _ W).
Qed.
Lemma leads_html_rest c body : (forall x, c :: body = str "<?" ++ x -> xmlTag cc x) -> ~ contains (str "<?") body ->
  leads [InHtml] [(T_INLINE_HTML, c :: body)] (c :: body) [InHtml] [].
Proof.
  intros Hx F l H. pose proof H as H'. rewrite app_nil_r in H'.
  destruct (html_rest cc OK content l c body (stands_at _ _ _ _ _ _ H') Hx (fun a b E => F (ex_intro _ a (ex_intro _ b E)))) as (l' & Y & S & _).
  exists l'. split; [eapply emits_one; [exact Y|reflexivity|discriminate]|].
  eapply (step cc content [InHtml]); [exact H|exact Y|discriminate|rewrite S; exact (s_states _ _ _ _ _ H)| |].
  - intros id [E|[]]; discriminate.
  - intros p x W. destruct (html_not_within _ _ W).
Qed.
Lemma leads_open k tag r : (forall l, stands [InHtml] (tag ++ r) l -> exists l', yields l k tag r l' /\ lx_st l' = DefaultState :: lx_st l) ->
  k = T_OPEN_TAG \/ k = T_OPEN_TAG_WITH_ECHO -> leads [InHtml] [(k, tag)] tag [InCode; InHtml] r.
Proof.
  intros HY K l H. destruct (HY l H) as (l' & Y & S). exists l'.
  split; [eapply emits_one; [exact Y|destruct K as [-> | ->]; reflexivity|destruct K as [-> | ->]; discriminate]|].
  eapply (step cc content [InHtml]); [exact H|exact Y|destruct K as [-> | ->]; discriminate|rewrite S, (s_states _ _ _ _ _ H); reflexivity| |].
  - intros id [E|[E|[]]]; discriminate.
  - intros p x W. destruct (start_not_within _ _ W).
Qed.
Lemma php_not_xml a b c w r : map (toLower cc) [a; b; c] = str "php" -> ~ xmlTag cc (a :: b :: c :: w :: r).
Proof. intros E (a' & b' & c' & s & E1 & E2). injection E1 as <- <- <- _. rewrite E in E2. discriminate. Qed.
Lemma leads_open_php tag r : phpTag cc tag -> leads [InHtml] [(T_OPEN_TAG, tag)] tag [InCode; InHtml] r.
Proof.
  intros T. apply leads_open; [|auto]. intros l H. pose proof T as (a & b & c & w & -> & E & Hw).
  destruct (html_open cc OK content l ([a; b; c; w] ++ r) (stands_at _ _ _ _ _ _ H) (php_not_xml a b c w r E)) as (l' & k & tag & tail & Y & EQ & S & D).
  destruct D as [[-> ->]|[[-> T']|(_ & _ & _ & N)]].
  - cbn in EQ. injection EQ as EQ. subst a. cbn in E. rewrite (ok_lower _ OK) in E by lia. discriminate.
  - destruct T' as (a' & b' & c' & w' & -> & E' & Hw'). cbn in EQ. injection EQ as <- <- <- <- <-. exists l'. auto.
  - exfalso. eapply N; [|exact T]. rewrite <- app_assoc. reflexivity.
Qed.
Lemma leads_open_short r : ~ xmlTag cc r -> (forall x, r <> cEQ :: x) -> (forall t x, str "<?" ++ r = t ++ x -> ~ phpTag cc t) ->
  leads [InHtml] [(T_OPEN_TAG, str "<?")] (str "<?") [InCode; InHtml] r.
Proof.
  intros N1 N2 N3. apply leads_open; [|auto]. intros l H.
  destruct (html_open cc OK content l r (stands_at _ _ _ _ _ _ H) N1) as (l' & k & tag & tail & Y & EQ & S & D).
  destruct D as [[-> ->]|[[-> T']|(-> & -> & _)]].
  - cbn in EQ. injection EQ as ->. exfalso. eapply N2. reflexivity.
  - exfalso. eapply N3; eauto.
  - cbn in EQ. injection EQ as ->. exists l'. auto.
Qed.
Lemma leads_open_echo r : leads [InHtml] [(T_OPEN_TAG_WITH_ECHO, str "<?=")] (str "<?=") [InCode; InHtml] r.
Proof.
  apply leads_open; [|auto]. intros l H.
  assert (NX : ~ xmlTag cc (cEQ :: r)).
  { intros (a & b & c & s & E & E2). injection E as <- _. cbn in E2. rewrite (ok_lower _ OK) in E2 by lia. discriminate. }
  destruct (html_open cc OK content l (cEQ :: r) (stands_at _ _ _ _ _ _ H) NX) as (l' & k & tag & tail & Y & EQ & S & D).
  destruct D as [[-> ->]|[[-> T']|(-> & -> & N & _)]].
  - cbn in EQ. injection EQ as ->. exists l'. auto.
  - destruct T' as (a' & b' & c' & w' & -> & E' & Hw'). cbn in EQ. injection EQ as <- _. cbn in E'. rewrite (ok_lower _ OK) in E' by lia. discriminate.
  - exfalso. eapply N. reflexivity.
Qed.
End F.
