(** C71: the whole method. *)
From Coq Require Import List Bool Lia.
From Verif Require Import ClsSpec OvrModel OvrSpec OvrProofs OvrProofs2 OvrProofs3.
From Verif Require Import Chars LexModel TokModel ParseModel SrcSpec PexSpec StSpec SrcPrint SrcFile OvrSpec2 OvrProofs4.
Import ListNotations.
Open Scope nat_scope.

Section S.
Variable cc : CharClass.
Hypothesis OK : ascii_ok cc.
Context {Fs : Functions}.

Lemma ret_ident : ident cc (str "ret").
Proof.
  destruct (ascii_word cc OK (str "ret") []) as ((c & s & E & I & _) & F & _); [reflexivity|intros; discriminate|]. split; [eauto|exact F].
Qed.
Lemma line_blank i : allBlank cc i -> allBlank cc (cNL :: i).
Proof. intros H. constructor; [rewrite (ok_space _ OK) by lia; reflexivity|exact H]. Qed.
Lemma four_blank : allBlank cc (str "    ").
Proof. apply Forall_forall. intros c H. change (str "    ") with [32; 32; 32; 32]%N in H. assert (c = 32%N) by (cbn in H; intuition). subst c. rewrite (ok_space _ OK) by lia. reflexivity. Qed.
Lemma on_line i s ts : allBlank cc i -> noBlank cc s -> spells cc inCode ts s -> spells cc inCode ts (cNL :: i ++ s).
Proof. intros B N S. change (cNL :: i ++ s) with ((cNL :: i) ++ s). apply blanks; [apply line_blank; exact B|exact N|exact S]. Qed.
Lemma on_line4 i s ts : allBlank cc i -> noBlank cc s -> spells cc inCode ts s -> spells cc inCode ts (cNL :: i ++ str "    " ++ s).
Proof.
  intros B N S. replace (cNL :: i ++ str "    " ++ s) with ((cNL :: i ++ str "    ") ++ s) by (cbn [app]; now rewrite <- app_assoc).
  apply blanks; [|exact N|exact S]. apply line_blank. apply Forall_app. split; [exact B|exact four_blank].
Qed.
Lemma ret_spell ts r : noIdent cc r -> spells cc inCode ts r -> spells cc inCode ((T_VARIABLE, str "$ret") :: ts) (str "$ret" ++ r).
Proof. intros N S. apply tok. - change (str "$ret") with (cDOLLAR :: str "ret"). apply x_variable; [exact ret_ident|exact N]. - exact S. Qed.
Lemma rbrace_noBlank r : noBlank cc (str "}" ++ r).
Proof. apply (ascii_noBlank cc OK); reflexivity. Qed.

Lemma body_spell t name b i ts r : plainName cc name -> Forall (fun p => ident cc (p_name p)) (t_params t) -> allBlank cc i ->
  spells cc inCode ts r -> noBlank cc r ->
  exists toks, map fst toks = flat_map stText (bodyIs (List.length (t_params t)) b) /\
    spells cc inCode (toks ++ ts) (onLines i (map (fun l => str "    " ++ l) (bodyLines t name b)) ++ cNL :: i ++ r).
Proof.
  intros HN HP B S N. assert (S1 : spells cc inCode ts (cNL :: i ++ r)) by (apply on_line; assumption).
  destruct b; cbn [bodyIs bodyLines map onLines flat_map].
  - exists []. split; [reflexivity|]. unfold onLines. cbn [flat_map app].
    match goal with |- spells _ _ _ ?x => replace x with ((cNL :: i ++ str "    " ++ cNL :: i) ++ r) end.
    2: { cbn [app]. rewrite ?app_nil_r, <- !app_assoc. reflexivity. }
    apply blanks; [|exact N|exact S]. apply line_blank. apply Forall_app. split; [exact B|]. apply Forall_app. split; [exact four_blank|apply line_blank; exact B].
  - destruct (call_spell cc OK name _ ts _ HN HP S1) as (toks & E & SP & SO). exists toks. split.
    + cbn [flat_map stText]. rewrite app_nil_r. exact E.
    + unfold onLines. cbn [flat_map]. rewrite app_nil_r. cbn [app]. rewrite <- !app_assoc. apply on_line4; [exact B|apply solid_noBlank; exact SO|exact SP].
  - assert (S2 : spells cc inCode ((T_RETURN, str "return") :: (T_VARIABLE, str "$ret") :: (T_SEMICOLON, str ";") :: ts) (str "return $ret;" ++ cNL :: i ++ r)).
    { change (str "return $ret;" ++ cNL :: i ++ r) with (str "return" ++ [cSP] ++ str "$ret" ++ str ";" ++ cNL :: i ++ r).
      apply tok.
      - eapply x_keyword; [apply (ascii_word cc OK); [reflexivity|apply sp_noIdent; exact OK]|apply findWord_in; reflexivity|reflexivity|discriminate].
      - apply blanks; [apply blank1; exact OK|apply (ascii_noBlank cc OK); reflexivity|].
        apply ret_spell; [apply (first_noIdent cc OK); reflexivity|]. apply tok; [apply semi_lex|exact S1]. }
    assert (S3 : spells cc inCode ((T_RETURN, str "return") :: (T_VARIABLE, str "$ret") :: (T_SEMICOLON, str ";") :: ts)
                   (cNL :: i ++ str "    " ++ str "return $ret;" ++ cNL :: i ++ r)).
    { apply on_line4; [exact B|apply (ascii_noBlank cc OK); reflexivity|exact S2]. }
    destruct (call_spell cc OK name _ _ _ HN HP S3) as (toks & E & SP & SO).
    exists ((T_VARIABLE, str "$ret") :: (T_ASSIGN, str "=") :: toks ++ [(T_RETURN, str "return"); (T_VARIABLE, str "$ret"); (T_SEMICOLON, str ";")]). split.
    + cbn [map fst]. rewrite map_app, E. cbn [flat_map stText map fst app]. cbn. rewrite <- !app_assoc. reflexivity.
    + unfold onLines. cbn [flat_map]. rewrite app_nil_r. cbn [app]. rewrite <- !app_assoc. cbn [app]. rewrite <- !app_assoc. cbn [app].
      apply on_line4; [exact B|apply (ascii_noBlank cc OK); reflexivity|].
      change (str "$ret = ") with (str "$ret" ++ [cSP] ++ str "=" ++ [cSP]). rewrite <- !app_assoc.
      apply ret_spell; [apply sp_noIdent; exact OK|]. apply blanks; [apply blank1; exact OK|apply (ascii_noBlank cc OK); reflexivity|].
      apply tok; [apply assign_lex|]. apply blanks; [apply blank1; exact OK|apply solid_noBlank; exact SO|exact SP].
Qed.

Lemma method_spell t name b ws xs i ts r pb : plainName cc name ->
  Forall2 (fun pd x => paramIs cc (fst pd) (snd pd) x) (withDefaults (t_params t) (t_defaults t)) xs ->
  List.length (t_defaults t) <= List.length (t_params t) -> allBlank cc i -> allBlank cc pb -> noBlank cc r -> spells cc inCode ts r ->
  exists toks, map fst toks = map wordTok (ws ++ [WFunction]) ++ T_STRING :: T_LPAREN :: paramsText xs ++ T_RPAREN :: T_LBRACE ::
                 flat_map stText (bodyIs (List.length (t_params t)) b) ++ [T_RBRACE] /\
    forall lead, allBlank cc lead ->
    spells cc inCode (toks ++ ts) (lead ++ flat_map (fun k => wordText k ++ [cSP]) (ws ++ [WFunction]) ++ name ++ signature (t_params t) (t_defaults t) ++
      onLines i ([str "{"] ++ map (fun l => str "    " ++ l) (bodyLines t name b) ++ [str "}"; []]) ++ pb ++ r).
Proof.
  intros HN HX HL B BP NB SPL.
  assert (HP : Forall (fun p => ident cc (p_name p)) (t_params t)).
  { assert (L : List.length (withDefaults (t_params t) (t_defaults t)) = List.length (t_params t)).
    { unfold withDefaults. rewrite combine_length, app_length, repeat_length, map_length. lia. }
    assert (M : map fst (withDefaults (t_params t) (t_defaults t)) = t_params t).
    { unfold withDefaults. revert HL. clear. generalize (t_defaults t) as ds. induction (t_params t) as [|p ps IH]; intros ds HL; [reflexivity|].
      cbn [List.length] in *. destruct (le_lt_dec (List.length ds) (List.length ps)) as [Q|Q].
      - replace (S (List.length ps) - List.length ds) with (S (List.length ps - List.length ds)) by lia. cbn [repeat app combine map fst]. f_equal. apply IH. exact Q.
      - replace (S (List.length ps) - List.length ds) with 0 by lia. destruct ds as [|d ds]; [cbn in Q; lia|]. cbn [repeat app map combine fst]. f_equal.
        cbn [List.length] in *. specialize (IH ds ltac:(lia)). replace (List.length ps - List.length ds) with 0 in IH by lia. exact IH. }
    rewrite <- M. clear - HX. induction HX as [|pd x l xs H _ IH]; [constructor|]. constructor; [apply H|exact IH]. }
  assert (S0 : spells cc inCode ((T_RBRACE, str "}") :: ts) (str "}" ++ cNL :: i ++ pb ++ r)).
  { apply close_brace. replace (cNL :: i ++ pb ++ r) with ((cNL :: i ++ pb) ++ r) by (cbn [app]; now rewrite <- app_assoc).
    apply blanks; [apply line_blank; apply Forall_app; split; assumption|exact NB|exact SPL]. }
  destruct (body_spell t name b i _ _ HN HP B S0 (rbrace_noBlank _)) as (tb & EB & SB).
  pose proof (on_line i _ _ B (ascii_noBlank cc OK 123%N _ eq_refl eq_refl) (open_brace cc _ _ SB)) as S1.
  destruct (signature_spell cc OK _ _ _ _ _ HX S1) as (tsig & ES & SS).
  assert (S2 : spells cc inCode ((T_STRING, name) :: tsig ++ (T_LBRACE, str "{") :: tb ++ (T_RBRACE, str "}") :: ts)
     (name ++ signature (t_params t) (t_defaults t) ++ cNL :: i ++ str "{" ++ onLines i (map (fun l => str "    " ++ l) (bodyLines t name b)) ++ cNL :: i ++ str "}" ++ cNL :: i ++ pb ++ r)).
  { apply tok; [apply name_lex; [exact HN|apply (first_noIdent cc OK); reflexivity]|exact SS]. }
  destruct (words_spell cc OK (ws ++ [WFunction]) _ _ (name_solid cc OK name _ HN) S2) as [S3 SO].
  exists (wordToks (ws ++ [WFunction]) ++ (T_STRING, name) :: tsig ++ (T_LBRACE, str "{") :: tb ++ [(T_RBRACE, str "}")]). split.
  - rewrite map_app. cbn [map fst]. rewrite map_app. cbn [map fst]. rewrite map_app, ES, EB. unfold wordToks. rewrite map_map. cbn [map fst app].
    rewrite <- !app_assoc. reflexivity.
  - intros lead BL. apply blanks; [exact BL| |].
    + match goal with |- noBlank _ ?x => match type of SO with solid _ ?y => replace x with y; [apply solid_noBlank; exact SO|] end end.
      unfold onLines. rewrite !flat_map_app. cbn [flat_map app]. rewrite <- !app_assoc. cbn [app]. rewrite <- !app_assoc. cbn [app]. rewrite ?app_nil_r, <- ?app_assoc. reflexivity.
    + match goal with |- spells _ _ ?u ?x => match type of S3 with spells _ _ ?v ?y => replace x with y; [replace u with v; [exact S3|]|] end end.
      * rewrite <- !app_assoc. cbn [app]. rewrite <- !app_assoc. cbn [app]. rewrite <- !app_assoc. reflexivity.
      * unfold onLines. rewrite !flat_map_app. cbn [flat_map app]. rewrite <- !app_assoc. cbn [app]. rewrite <- !app_assoc. cbn [app]. rewrite ?app_nil_r, <- ?app_assoc. reflexivity.
Qed.

(** ** In the file *)
Lemma line_exists (b a : qstring) : exists line, lineIn b a line.
Proof using.
  destruct (tail_split b) as (a1 & a2 & E1 & B1 & N1 & _). destruct (firstLine_split a) as (x & E2 & B2 & N2).
  exists (a2 ++ firstLine a), a1, a2, (firstLine a), x. repeat split; try assumption. rewrite in_app_iff. tauto.
Qed.
Lemma indent_exists line : exists ind rest, indented cc line ind rest.
Proof using.
  induction line as [|c l (ind & rest & E & B & N)]; [exists [], []; repeat split; [intros ? []|discriminate]|].
  destruct (isSpace cc c) eqn:S.
  - exists (c :: ind), rest. split; [cbn; congruence|]. split; [|exact N]. intros x [<-|H]; auto.
  - exists [], (c :: l). split; [reflexivity|]. split; [intros ? []|]. intros d r X. injection X as <- _. exact S.
Qed.
Lemma vars_plain n : forallb PexSpec.plain (repeat EVar n) = true.
Proof using. induction n; [reflexivity|exact IHn]. Qed.
Lemma body_ok n b : forallb stOk (bodyIs n b) = true.
Proof using. destruct b; cbn; rewrite ?vars_plain; reflexivity. Qed.
Lemma members_app a b : membersText (a ++ b) = membersText a ++ membersText b.
Proof using. unfold membersText. apply flat_map_app. Qed.
Lemma word_tokens ws : ~ In WFunction ws -> (forall k, In k ws -> isModifier k \/ k = WFunction) -> map wordTok ws = map modTok (flat_map modifierOf ws).
Proof using.
  induction ws as [|k ws IH]; intros N I; [reflexivity|]. cbn [map flat_map]. rewrite map_app, IH; [|intros X; apply N; now right|intros x X; apply I; now right].
  destruct (I k (or_introl eq_refl)) as [X|X]; [|exfalso; apply N; left; exact X]. unfold isModifier in X. repeat (destruct X as [->|X]; [reflexivity|]). subst k. reflexivity.
Qed.
Lemma method_tokens ws xs b : ~ In WFunction ws -> (forall k, In k ws -> isModifier k \/ k = WFunction) ->
  map wordTok (ws ++ [WFunction]) ++ T_STRING :: T_LPAREN :: paramsText xs ++ T_RPAREN :: T_LBRACE :: flat_map stText (bodyIs (List.length xs) b) ++ [T_RBRACE]
  = membersText [methodIs ws xs b].
Proof using.
  intros N I. unfold membersText, methodIs. cbn [flat_map fst snd]. rewrite app_nil_r. rewrite map_app, (word_tokens ws N I). cbn [map wordTok memText flag retText].
  rewrite <- !app_assoc. cbn [app]. rewrite <- !app_assoc. reflexivity.
Qed.
End S.

Lemma Forall2_len {A B} {R : A -> B -> Prop} {l m} : Forall2 R l m -> List.length l = List.length m.
Proof. induction 1; cbn; congruence. Qed.

Theorem method_read d cc api pre w post t h mods kept k0 w0 tb pb p1 ta (F1 F2 : list (@fi (closures d))) hd ms1 ms2 xs :
  ascii_ok cc -> spacesAreNoLetters cc -> spaceNotLetter cc ->
  m_isMember (t_member t) = true -> h <> OverrideVar -> (t_special t = true -> t_pretty t <> None) ->
  plainName cc (functionName t) -> List.length (t_defaults t) <= List.length (t_params t) ->
  Forall2 (fun pd x => paramIs cc (fst pd) (snd pd) x) (withDefaults (t_params t) (t_defaults t)) xs ->
  typedBehind cc pre mods kept ->
  (In WFunction mods -> (In WPublic mods \/ In WProtected mods) /\ (In WStatic mods \/ m_static (t_member t) = false)) ->
  OvrSpec.front api pre kept = k0 ++ w0 -> allBlank cc w0 -> fileFront cc k0 tb ->
  post = pb ++ p1 -> allBlank cc pb -> noBlank cc p1 -> spells cc inCode ta p1 ->
  map fst tb = sourceOf F1 ++ headText hd ++ T_LBRACE :: membersText ms1 ->
  map fst ta = membersText ms2 ++ T_RBRACE :: sourceOf F2 ->
  forallb fiOk (F1 ++ FSt (SClass hd (ms1 ++ ms2)) :: F2) = true ->
  exists ws doc', header mods t h (ws ++ [WFunction]) /\
    implement cc api (pre ++ w ++ post) (typed origin pre) (typed origin (pre ++ w)) t h = Some doc' /\
    forall g, exists tr n,
      sourceRead tr = Some (F1 ++ FSt (SClass hd (ms1 ++ [methodIs ws xs (bodyOf t h)] ++ ms2)) :: F2) /\
      forall f, n <= f -> exists ps e,
        tokenize cc f doc' initHtml 0 0 = Some (PDone (ps ++ [e])) /\ p_kind e = T_EOF /\
        parseFile g f (map p_kind ps) = Some (Accepted tr []).
Proof.
  intros OK SPC SNL M NV SPE HN HL HX TB HF EF BW FF EP BP NP SP ET EA HOK.
  assert (EAF : exists after, pre ++ w ++ post = OvrSpec.front api pre kept ++ after).
  { destruct api; [|exists (w ++ post); reflexivity]. destruct TB as [_ TB]. destruct (ends_clean cc OK SPC _ _ _ TB) as (X & -> & _).
    exists (X ++ w ++ post). cbn. now rewrite <- app_assoc. }
  destruct EAF as (after & EAF). destruct (line_exists (OvrSpec.front api pre kept) after) as (line & HLI). destruct (indent_exists cc line) as (ind & rest & HI).
  destruct (function_last cc pre mods kept t h TB NV M HF) as (ws & EW & NW).
  pose proof (implemented cc api pre w post t h mods kept line ind rest OK SPC M HL SPE TB after EAF HLI HI) as E. rewrite EW in E.
  pose proof (words_header mods t h M) as HD. rewrite EW in HD.
  eexists ws, _. split; [exact HD|]. split; [exact E|]. intros g.
  assert (BI : allBlank cc ind). { destruct HI as (_ & B & _). apply Forall_forall. exact B. }
  assert (B2 : allBlank cc (str "  ")). { change (str "  ") with ([cSP] ++ [cSP]). apply Forall_app. split; apply blank1; exact OK. }
  assert (BIN : allBlank cc (indentBy ind)). { unfold indentBy. destruct ind; [exact B2|exact BI]. }
  assert (BBG : allBlank cc (begun ind rest)).
  { unfold begun. apply Forall_app. split; [destruct rest; [constructor|apply line_blank; [exact OK|exact BI]]|destruct ind; [exact B2|constructor]]. }
  assert (LX : List.length xs = List.length (t_params t)).
  { assert (HX2 := Forall2_len HX). clear HX; rename HX2 into HX. unfold withDefaults in HX. revert HX. rewrite combine_length, app_length, repeat_length, map_length. lia. }
  destruct (@method_spell cc OK (closures d) t (functionName t) (bodyOf t h) ws xs (indentBy ind) ta p1 pb HN HX HL BIN BP NP SP) as (toks & EM & SM).
  specialize (SM (w0 ++ begun ind rest)). rewrite <- LX in EM.
  rewrite method_tokens in EM; [|exact NW|].
  2: { intros k Hk. destruct TB as [(ms & rs & _ & EMS & IM & _) _]. destruct HD as [(more & EQ & K) _ _ _ _ _].
       assert (X : In k (rev mods ++ more)) by (rewrite <- EQ; apply in_app_iff; now left). apply in_app_iff in X. destruct X as [X|X].
       - apply in_rev in X. destruct EMS as [->|[-> _]]; [destruct X as [<-|X]; auto|auto].
       - apply K in X. unfold isModifier. intuition. }
  pose proof (FF _ _ (SM ltac:(apply Forall_app; split; assumption))) as SALL.
  assert (EDOC : k0 ++ (w0 ++ begun ind rest) ++ flat_map (fun k => wordText k ++ [cSP]) (ws ++ [WFunction]) ++ functionName t ++ signature (t_params t) (t_defaults t) ++
      onLines (indentBy ind) ([str "{"] ++ map (fun l => str "    " ++ l) (bodyLines t (functionName t) (bodyOf t h)) ++ [str "}"; []]) ++ pb ++ p1 =
      OvrSpec.front api pre kept ++ written ind rest (ws ++ [WFunction]) t (functionName t) h ++ post).
  { rewrite EF, EP. unfold written. destruct h; [congruence| |]; rewrite <- !app_assoc; reflexivity. }
  rewrite EDOC in SALL.
  destruct (text_read d cc _ _ (F1 ++ FSt (SClass hd (ms1 ++ [methodIs ws xs (bodyOf t h)] ++ ms2)) :: F2) OK SNL SALL) with (g := g) as (tr & n & R & P).
  - rewrite map_app, map_app, ET, EM, EA. unfold sourceOf. rewrite flat_map_app. cbn [flat_map fiText stText]. fold (membersText (ms1 ++ [methodIs ws xs (bodyOf t h)] ++ ms2)).
    rewrite !members_app. rewrite <- !app_assoc. cbn [app]. rewrite <- !app_assoc. reflexivity.
  - rewrite forallb_app in *. apply andb_true_iff in HOK. destruct HOK as [H1 H2]. cbn [forallb fiOk stOk] in H2 |- *. rewrite H1. cbn [andb].
    apply andb_true_iff in H2. destruct H2 as [H2 H3]. rewrite H3, andb_true_r. apply andb_true_iff in H2. destruct H2 as [H2 H4]. rewrite H2. cbn [andb].
    rewrite !forallb_app in *. apply andb_true_iff in H4. destruct H4 as [H4 H5]. rewrite H4, H5. cbn [forallb methodIs fst snd memOk isMethod]. rewrite body_ok.
    assert (XP : forallb paramOk xs = true). { apply forallb_forall. intros x Hx. clear - HX Hx. induction HX as [|pd y l xs H _ IH]; [destruct Hx|]. destruct Hx as [<-|Hx]; [apply H|auto]. }
    rewrite XP. reflexivity.
  - exists tr, n. split; [exact R|]. intros f Hf. destruct (P f Hf) as (ps & e & P1 & P2 & _ & P3). exists ps, e. auto.
Qed.
