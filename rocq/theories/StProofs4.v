(** Classes, interfaces and traits. *)
From Coq Require Import List Bool NArith ZArith Lia Arith.
From Verif Require Import Chars LexModel ParseModel ParseSpec ParseProofs PexSpec PexProofs PexProofs2 PexProofs4 PexPath PexPath2 PexProofs5 PexEvery PexProofs6 StSpec StTakes StNames StParts StProofs StProofs2 StProofs3.
Import ListNotations.
Open Scope nat_scope.

Section T.
Variable rs : Gen.
Context {Fs : Functions} {FsR : FunctionsRead rs}.
Notation TakesS := (TakesS rs).
Notation Stm := (Stm rs).
Notation Lst := (Lst rs).
Notation Top := (Top rs).

Definition modToks : list Tok := [T_PUBLIC; T_PROTECTED; T_PRIVATE; T_STATIC; T_ABSTRACT; T_FINAL].
Definition bodyText (m : member) (o : option (list st)) : list Tok :=
  match o with Some l => T_LBRACE :: flat_map stText l ++ [T_RBRACE] | None => if isMethod m then [T_SEMICOLON] else [] end.
Definition memberText (m : member * option (list st)) : list Tok := memText (fst m) ++ bodyText (fst m) (snd m).
Definition memberOk (m : member * option (list st)) : bool :=
  memOk (fst m) && match snd m with Some l => isMethod (fst m) && forallb stOk l | None => true end.

Lemma mod_in : forall m, In (modTok m) modToks.
Proof. intros m. apply in_list. destruct m; reflexivity. Qed.
Lemma mods_heads : forall mods w, In (hd T_EOF w) [T_FUNCTION; T_CONST] -> w <> [] ->
  In (hd T_EOF (map modTok mods ++ w)) (T_FUNCTION :: T_CONST :: modToks) /\ map modTok mods ++ w <> [].
Proof.
  intros [|m mods] w HI HN; cbn [map app].
  - split; [|exact HN]. cbn [In] in HI |- *. tauto.
  - split; [right; right; apply mod_in|discriminate].
Qed.
Lemma ts_methodBody : forall o r, (forall l, o = Some l -> Lst l) -> TakesS None (IN n_methodBody) (match o with Some l => T_LBRACE :: flat_map stText l ++ [T_RBRACE] | None => [T_SEMICOLON] end) r [WBody o].
Proof.
  intros o r H. apply (ts_N rs _ _ _ _ (match o with Some l => [WTok T_LBRACE; WSts l; WTok T_RBRACE] | None => [WTok T_SEMICOLON] end)); [reflexivity|destruct o; comp| |destruct o; reflexivity].
  cbn [rule alts seqs]. destruct o as [l|]; [no; yes; apply ts_block, (H l eq_refl)|yes; apply ts_tok].
Qed.
(** The three kinds of members that may have modifiers. *)
Lemma ts_modified : forall mods w r b vs v, outside modToks (w ++ r) -> In (hd T_EOF (map modTok mods ++ w)) (T_FUNCTION :: T_CONST :: modToks) -> map modTok mods ++ w <> [] ->
  rule n_classStatement = alts [seqs [IT T_VAR; IN n_classVariableDeclaration; IT T_SEMICOLON]; ISeq (IN n_optionalModifiers) b;
    seqs [IT T_USE; IList (IN n_namespacedIdentifier) T_COMMA None; alts [IN n_traitAliasDeclaration; IT T_SEMICOLON]]] ->
  TakesS None b w r vs -> nodeOf n_classStatement (WMods mods :: vs) = v -> TakesS None (IN n_classStatement) (map modTok mods ++ w) r [v].
Proof.
  intros mods w r b vs v O HI HN RU H E. eapply ts_N; [reflexivity|eapply enter_in; [exact HI|exact HN|comp]| |exact E].
  rewrite RU. cbn [alts seqs]. apply ts_alt_r; [eapply test_out; [exact HI|exact HN|discriminate|comp]|].
  apply ts_alt_l; [|apply ts_seqv; [apply ts_mods; exact O|exact H]].
  eapply test_in; [exact HI|exact HN|discriminate|]. cbn [rule alts seqs] in RU. injection RU as <-. comp.
Qed.
Lemma ts_memberS : forall m r, memberOk m = true -> (forall l, snd m = Some l -> Lst l) -> TakesS None (IN n_classStatement) (memberText m) r [WMem m].
Proof.
  intros [m o] r OK H. unfold memberOk in OK. cbn [fst snd] in *. apply andb_true_iff in OK as [OK OB]. unfold memberText. cbn [fst snd].
  destruct m as [vs|mods t vs|mods b ps ret|mods es|ns ren]; cbn [memText memOk isMethod bodyText] in *.
  - destruct o as [l|]; [discriminate OB|]. rewrite app_nil_r. apply some_nonempty in OK. eapply ts_N; [reflexivity|comp| |].
    + cbn [rule alts seqs]. yes. apply ts_seqt. apply ts_seqv; [apply ts_classVars, OK|apply ts_tok].
    + reflexivity.
  - destruct o as [l|]; [discriminate OB|]. rewrite app_nil_r. apply andb_true_iff in OK as [OK NV]. apply andb_true_iff in OK as [NM OT].
    apply some_nonempty in NV. destruct (vars_hd vs NV) as [w EW].
    assert (HT : In (hd T_EOF (typeText t ++ joined T_COMMA (map varText vs) ++ [T_SEMICOLON])) (T_VARIABLE :: propHeads) /\ typeText t ++ joined T_COMMA (map varText vs) ++ [T_SEMICOLON] <> []).
    { destruct t as [|h t]; [cbn [typeText map joined app]; rewrite EW; split; [now left|discriminate]|]. destruct (propType_heads (h :: t) ltac:(discriminate) OT) as [HI HN].
      split; [rewrite hd_app by exact HN; now right|]. destruct (typeText (h :: t)); [congruence|discriminate]. }
    destruct HT as [HI HN]. eapply (ts_modified mods _ _ _ (match t with [] => [] | _ => [WType t] end ++ [WVars vs; WTok T_SEMICOLON])).
    + eapply out_heads; [exact HI|exact HN|comp].
    + destruct mods as [|m mods]; [discriminate NM|]. right. right. apply mod_in.
    + destruct mods as [|m mods]; [discriminate NM|]. discriminate.
    + reflexivity.
    + cbn [alts seqs]. apply ts_alt_l; [eapply test_in; [exact HI|exact HN|discriminate|comp]|]. apply ts_seq.
      * destruct t as [|h t].
        -- cbn [typeText map joined]. rewrite EW. no. yes. apply ts_eps.
        -- destruct (propType_heads (h :: t) ltac:(discriminate) OT) as [HI2 HN2]. apply ts_alt_l; [eapply test_in; [exact HI2|exact HN2|discriminate|comp]|].
           apply ts_propType; [discriminate|exact OT|]. rewrite EW. reflexivity.
      * apply ts_seqv; [apply ts_classVars, NV|apply ts_tok].
    + destruct t; reflexivity.
  - unfold bodyText. cbn [isMethod]. apply andb_true_iff in OK as [OP _].
    replace ((map modTok mods ++ T_FUNCTION :: flag b T_BIT_AND ++ T_STRING :: T_LPAREN :: paramsText ps ++ T_RPAREN :: retText ret) ++ match o with Some l => T_LBRACE :: flat_map stText l ++ [T_RBRACE] | None => [T_SEMICOLON] end)
      with (map modTok mods ++ T_FUNCTION :: flag b T_BIT_AND ++ T_STRING :: T_LPAREN :: paramsText ps ++ T_RPAREN :: retText ret ++ match o with Some l => T_LBRACE :: flat_map stText l ++ [T_RBRACE] | None => [T_SEMICOLON] end)
      by (norm; reflexivity).
    set (B := match o with Some l => T_LBRACE :: flat_map stText l ++ [T_RBRACE] | None => [T_SEMICOLON] end).
    destruct (mods_heads mods (T_FUNCTION :: flag b T_BIT_AND ++ T_STRING :: T_LPAREN :: paramsText ps ++ T_RPAREN :: retText ret ++ B)) as [HI HN]; [now left|discriminate|].
    eapply (ts_modified mods _ _ _ ([WTok T_FUNCTION] ++ (if b then [WTok T_BIT_AND] else []) ++ [WPart; WTok T_LPAREN; WParams ps; WTok T_RPAREN] ++ match ret with [] => [] | _ => [WTok T_COLON; WType ret] end ++ [WBody o])).
    + reflexivity.
    + exact HI.
    + exact HN.
    + reflexivity.
    + cbn [alts seqs]. no. yes. cbn [app]. apply ts_seqt. apply ts_seq; [apply ts_opt; [exact []|discriminate|intros _; reflexivity]|].
      change (T_STRING :: ?w) with ([T_STRING] ++ w). apply ts_seqv; [apply ts_semiId|]. apply ts_seqt. apply ts_seqv; [apply (ts_params rs), OP|]. apply ts_seqt.
      apply ts_seq; [apply ts_ret; unfold B; destruct o; reflexivity|]. apply ts_methodBody, H.
    + destruct b, ret; reflexivity.
  - destruct o as [l|]; [discriminate OB|]. rewrite app_nil_r. apply andb_true_iff in OK as [NE PE]. apply some_nonempty in NE.
    destruct (mods_heads mods (T_CONST :: joined T_COMMA (map (fun e => T_STRING :: T_ASSIGN :: text e) es) ++ [T_SEMICOLON])) as [HI HN]; [right; now left|discriminate|].
    eapply (ts_modified mods).
    + reflexivity.
    + exact HI.
    + exact HN.
    + reflexivity.
    + cbn [alts seqs]. no. no. yes. apply ts_seqt. apply ts_seq; [|apply ts_tok].
      eapply (ts_consts rs); [reflexivity|reflexivity|comp|intros; apply ts_semiId|intros; reflexivity|exact NE|exact PE].
    + cbn [nodeOf readMember]. rewrite pick_app_tok, pick_exs. reflexivity.
  - destruct o as [l|]; [discriminate OB|]. rewrite app_nil_r. destruct ren as [ren|].
    + apply andb_true_iff in OK as [OK P]. apply andb_true_iff in OK as [N1 N2]. apply some_nonempty in N1, N2. eapply ts_N; [reflexivity|comp| |].
      * cbn [rule alts seqs]. no. no. yes. apply ts_seqt. apply ts_seq; [apply ts_names; [exact N1|reflexivity|discriminate|discriminate|reflexivity]|].
        yes. apply ts_renames; [exact N2|exact P].
      * cbn [nodeOf readMember]. rewrite rev_app_distr. cbn [rev app]. rewrite rev_involutive, (pick_inter _ getName WName) by (intros; split; reflexivity). reflexivity.
    + apply some_nonempty in OK. eapply ts_N; [reflexivity|comp| |].
      * cbn [rule alts seqs]. no. no. yes. apply ts_seqt. apply ts_seq; [apply ts_names; [exact OK|reflexivity|discriminate|discriminate|reflexivity]|].
        no. yes. apply ts_tok.
      * cbn [nodeOf readMember]. rewrite rev_app_distr. cbn [rev app]. rewrite pick_app_tok, (pick_inter _ getName WName) by (intros; split; reflexivity). reflexivity.
Qed.
Definition memberHeads : list Tok := T_VAR :: T_USE :: T_FUNCTION :: T_CONST :: modToks.
Lemma member_hd : forall m, memberOk m = true -> In (hd T_EOF (memberText m)) memberHeads /\ memberText m <> [].
Proof.
  intros [m o] OK. unfold memberOk in OK. cbn [fst snd] in *. apply andb_true_iff in OK as [OK _]. unfold memberText. cbn [fst snd].
  assert (KW : forall k w, In k memberHeads -> In (hd T_EOF (k :: w)) memberHeads /\ k :: w <> []) by (intros k w HK; split; [exact HK|discriminate]).
  destruct m as [vs|mods t vs|mods b ps ret|mods es|ns [ren|]]; cbn [memText memOk] in *.
  - apply KW. now left.
  - destruct mods as [|m mods]; [discriminate OK|]. apply KW. do 4 right. apply mod_in.
  - destruct mods as [|m mods]; (apply KW; do 2 right); [now left|]. do 2 right. apply mod_in.
  - destruct mods as [|m mods]; (apply KW; do 3 right); [now left|]. right. apply mod_in.
  - apply KW. right. now left.
  - apply KW. right. now left.
Qed.
Lemma ts_classBody : forall ms r, forallb memberOk ms = true -> (forall m l, In m ms -> snd m = Some l -> Lst l) ->
  TakesS None (IN n_classBody) (flat_map memberText ms) (T_RBRACE :: r) [WMems ms].
Proof.
  intros ms r OK H. eapply ts_N; [reflexivity| | |].
  - destruct ms as [|m ms]; [comp|]. cbn [forallb] in OK. apply andb_true_iff in OK as [O1 _]. destruct (member_hd m O1) as [HI HN]. cbn [flat_map]. rewrite <- app_assoc.
    eapply enter_in; [exact HI|exact HN|comp].
  - cbn [rule seqs]. apply ts_seqn; [|apply ts_peek; reflexivity]. apply ts_loop; [|reflexivity].
    apply (ts_many rs None _ _ memberText WMem); [|reflexivity].
    intros m l1 l2 EQ. pose proof (in_split _ _ _ _ _ EQ) as IM. pose proof (forallb_In _ _ _ _ OK IM) as OM. destruct (member_hd m OM) as [HI HN].
    split; [eapply first_in; [exact HI|exact HN|comp]|]. apply ts_recover. apply ts_memberS; [exact OM|]. intros l EL. exact (H m l IM EL).
  - cbn [nodeOf]. rewrite app_nil_r. rewrite (pick_map _ getMem WMem) by (intros; split; reflexivity). reflexivity.
Qed.
Lemma ts_extends : forall e r, outside [T_BACKSLASH; T_EXTENDS] r ->
  TakesS None (alts [seqs [IT T_EXTENDS; IN n_classExtends]; IEps]) (optText T_EXTENDS (option_map nameText e)) r (match e with Some n => [WTok T_EXTENDS; WName n] | None => [] end).
Proof.
  intros e r O. cbn [alts seqs]. destruct e as [n|]; cbn [option_map optText].
  - yes. apply ts_seqt. destruct (name_heads n) as [HI HN]. eapply ts_N; [reflexivity|eapply enter_in; [exact HI|exact HN|comp]| |].
    + cbn [rule]. apply ts_name. eapply out_less; [|exact O]. reflexivity.
    + reflexivity.
  - apply ts_alt_r; [|yes; apply ts_eps]. cbn [app]. apply (out_test [T_BACKSLASH; T_EXTENDS]); [discriminate|comp|exact O].
Qed.
Lemma ts_list : forall k l r, (forall c a, seqs [IT k; IN n_classImplements] <> ICond c a) -> test (seqs [IT k; IN n_classImplements]) (at_ (T_LBRACE :: r)) = false ->
  test (seqs [IT k; IN n_classImplements]) (at_ (k :: namesText l ++ T_LBRACE :: r)) = true ->
  TakesS None (alts [seqs [IT k; IN n_classImplements]; IEps]) (match l with [] => [] | _ => k :: namesText l end) (T_LBRACE :: r) (match l with [] => [] | _ => [WTok k; WNames l] end).
Proof.
  intros k l r _ T0 T1. cbn [alts]. destruct l as [|n l].
  - apply ts_alt_r; [exact T0|yes; apply ts_eps].
  - apply ts_alt_l; [exact T1|]. cbn [seqs]. apply ts_seqt. apply ts_implements; [discriminate|reflexivity].
Qed.
Lemma top_class : forall h ms, headOk h = true -> forallb memberOk ms = true -> (forall m l, In m ms -> snd m = Some l -> Lst l) -> Top (SClass h ms).
Proof.
  intros h ms OH OM H r _.
  assert (BODY : forall w, headText h ++ T_LBRACE :: flat_map memberText ms ++ [T_RBRACE] = w -> TakesS None (IN n_topStatement) w r [WSt (SClass h ms)]).
  2: { exact (BODY _ eq_refl). }
  intros W EW. subst W. destruct h as [m e i|e|]; cbn [headText].
  - assert (HH : In (hd T_EOF (match m with Some x => [modTok x] | None => [] end ++ [T_CLASS])) [T_ABSTRACT; T_FINAL; T_CLASS] /\ match m with Some x => [modTok x] | None => [] end ++ [T_CLASS] <> []).
    { destruct m as [[]|]; try discriminate OH; (split; [cbn; tauto|discriminate]). }
    destruct HH as [HI HN].
    set (W2 := T_STRING :: optText T_EXTENDS (option_map nameText e) ++ match i with [] => [] | _ => T_IMPLEMENTS :: namesText i end ++ T_LBRACE :: flat_map memberText ms ++ [T_RBRACE]).
    replace ((match m with Some x => [modTok x] | None => [] end ++ T_CLASS :: T_STRING :: optText T_EXTENDS (option_map nameText e) ++ match i with [] => [] | _ => T_IMPLEMENTS :: namesText i end) ++ T_LBRACE :: flat_map memberText ms ++ [T_RBRACE])
      with ((match m with Some x => [modTok x] | None => [] end ++ [T_CLASS]) ++ W2) by (unfold W2; norm; reflexivity).
    set (CV := WMods (match m with Some x => [x] | None => [] end) :: WTok T_CLASS :: WPart :: (match e with Some n => [WTok T_EXTENDS; WName n] | None => [] end) ++ (match i with [] => [] | _ => [WTok T_IMPLEMENTS; WNames i] end) ++ [WTok T_LBRACE; WMems ms; WTok T_RBRACE]).
    eapply ts_N; [reflexivity|rewrite <- app_assoc; eapply enter_in; [exact HI|exact HN|comp]| |].
    + cbn [rule alts]. apply ts_alt_r; [|do 1 (apply ts_alt_r; [rewrite <- app_assoc; eapply test_out; [exact HI|exact HN|discriminate|comp]|])].
      * cbn [test]. apply andb_false_iff. right. unfold enters. rewrite <- app_assoc. unfold yytoken, la, at_. cbn [rest Nat.sub]. rewrite hd_nth, hd_app by exact HN.
        assert (Q : forallb (fun k => negb (nullable (IN n_statement) || mem k (first (IN n_statement)))) [T_ABSTRACT; T_FINAL; T_CLASS] = true) by comp.
        apply negb_true_iff. exact (forallb_In _ _ _ _ Q HI).
      * apply ts_alt_l; [rewrite <- app_assoc; eapply test_in; [exact HI|exact HN|discriminate|comp]|].
        apply (ts_N rs _ _ _ _ CV (WSt (SClass (HClass m e i) ms))); [reflexivity|rewrite <- app_assoc; eapply enter_in; [exact HI|exact HN|comp]| |].
        -- cbn [rule seqs]. rewrite <- app_assoc. unfold CV. apply ts_seqv; [apply ts_classMod; exact OH|]. apply ts_seqt. unfold W2.
           change (T_STRING :: ?w) with ([T_STRING] ++ w). apply ts_seqv; [apply ts_ident|]. apply ts_seq; [apply ts_extends; destruct i; reflexivity|].
           apply ts_seq; [apply ts_list; [discriminate|comp|comp]|]. apply ts_seqt. apply ts_seqv; [apply ts_classBody; [exact OM|exact H]|apply ts_tok].
        -- unfold CV. destruct m, e, i; reflexivity.
    + reflexivity.
  - norm. eapply ts_N; [reflexivity|comp| |].
    + cbn [rule alts]. go.
      apply (ts_N rs _ _ _ _ (WTok T_INTERFACE :: WPart :: (match e with [] => [] | _ => [WTok T_EXTENDS; WNames e] end) ++ [WTok T_LBRACE; WMems ms; WTok T_RBRACE]) (WSt (SClass (HInterface e) ms))); [reflexivity|comp| |destruct e; reflexivity].
      cbn [rule seqs]. apply ts_seqt. change (T_STRING :: ?w) with ([T_STRING] ++ w). apply ts_seqv; [apply ts_ident|].
      apply ts_seq; [apply ts_list; [discriminate|comp|comp]|]. apply ts_seqt. apply ts_seqv; [apply ts_recover, ts_classBody; [exact OM|exact H]|apply ts_tok].
    + reflexivity.
  - norm. eapply ts_N; [reflexivity|comp| |].
    + cbn [rule alts]. go.
      apply (ts_N rs _ _ _ _ (WTok T_TRAIT :: WPart :: [WTok T_LBRACE; WMems ms; WTok T_RBRACE]) (WSt (SClass HTrait ms))); [reflexivity|comp| |reflexivity].
      cbn [rule seqs]. apply ts_seqt. change (T_STRING :: ?w) with ([T_STRING] ++ w). apply ts_seqv; [apply ts_ident|].
      apply ts_seqt. apply ts_seqv; [apply ts_classBody; [exact OM|exact H]|apply ts_tok].
    + reflexivity.
Qed.
End T.
