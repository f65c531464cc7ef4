(** Lists of expressions, use declarations, and what classes are made of. *)
From Coq Require Import List Bool NArith ZArith Lia Arith.
From Verif Require Import Chars LexModel ParseModel ParseSpec ParseProofs PexSpec PexProofs PexProofs2 PexProofs4 PexPath PexPath2 PexProofs5 PexEvery PexProofs6 StSpec StTakes StNames.
Import ListNotations.
Open Scope nat_scope.

Section T.
Variable rs : Gen.
Context {Fs : Functions} {FsR : FunctionsRead rs}.
Notation TakesS := (TakesS rs).

Lemma some_nonempty : forall A (l : list A), some l = true -> l <> [].
Proof. intros A [|x l] H; [discriminate H|discriminate]. Qed.
Lemma in_split : forall A (l l1 l2 : list A) x, l = l1 ++ x :: l2 -> In x l.
Proof. intros A l l1 l2 x ->. apply in_or_app. right. now left. Qed.

(** ** Expressions *)
Lemma ts_exprs : forall es r, es <> [] -> forallb plain es = true -> stops 0 r -> hd T_EOF r <> T_COMMA ->
  TakesS None (IList (IN n_expr) T_COMMA None) (exprsText es) r (inter T_COMMA (map WEx es)).
Proof.
  intros es r N P ST C. apply ts_sepBy; [exact N| |exact C]. intros x l1 l2 EQ. split; [|exact I].
  apply (ts_expr rs); [exact (forallb_In _ _ _ _ P (in_split _ _ _ _ _ EQ))|]. destruct l2; [exact ST|]. cbn [map behind_]. unfold stops. comp.
Qed.
Lemma pick_exs : forall es, pick getEx (inter T_COMMA (map WEx es)) = Some es.
Proof. intros es. apply pick_inter. intros x. split; reflexivity. Qed.
Lemma exprs_heads : forall es, es <> [] -> forallb plain es = true -> In (hd T_EOF (exprsText es)) (heads 0) /\ exprsText es <> [].
Proof.
  intros [|e es] N P; [congruence|]. cbn [forallb] in P. apply andb_true_iff in P as [P _]. destruct (text_heads rs e P) as [HI HN]. unfold exprsText. cbn [map].
  destruct es as [|y es]; [split; assumption|]. cbn [map]. rewrite joined_cons by discriminate. split; [now rewrite hd_app|]. destruct (text e); [congruence|discriminate].
Qed.
Lemma ts_for : forall es k r, (k = T_SEMICOLON \/ k = T_RPAREN) -> forallb plain es = true -> TakesS None (IN n_forExpr) (exprsText es) (k :: r) [WExs es].
Proof.
  intros es k r HK P. apply (ts_N rs None _ _ _ (inter T_COMMA (map WEx es))); [reflexivity|apply enter_nullable; comp| |].
  - cbn [rule alts]. destruct es as [|e es].
    + apply ts_alt_r; [destruct HK as [->| ->]; comp|]. apply ts_alt_l; [reflexivity|apply ts_eps].
    + destruct (exprs_heads (e :: es) ltac:(discriminate) P) as [HI HN]. apply ts_alt_l; [eapply test_in; [exact HI|exact HN|discriminate|comp]|].
      apply ts_exprs; [discriminate|exact P|destruct HK as [->| ->]; comp|destruct HK as [->| ->]; discriminate].
  - cbn [nodeOf]. rewrite pick_exs. reflexivity.
Qed.
Lemma ts_optEx : forall o q r, optOk o = true ->
  TakesS None (alts [IN n_expr; IEps]) (optEx o) (termTok q :: r) (match o with Some e => [WEx e] | None => [] end).
Proof.
  intros o q r P. cbn [alts]. destruct o as [e|]; cbn [optEx].
  - destruct (text_heads rs e P) as [HI HN]. apply ts_alt_l; [eapply test_in; [exact HI|exact HN|discriminate|comp]|]. apply (ts_expr rs); [exact P|]. destruct q; comp.
  - apply ts_alt_r; [destruct q; comp|]. apply ts_alt_l; [reflexivity|apply ts_eps].
Qed.
Ltac endspath := unfold endsPath, quiet, nodim; repeat split; discriminate.
Lemma ts_variables : forall vs r, vs <> [] -> forallb (fun v => path v && plain v) vs = true ->
  TakesS None (IList (IN n_variable) T_COMMA None) (exprsText vs) (T_RPAREN :: r) (inter T_COMMA (map WEx vs)).
Proof.
  intros vs r N P. apply ts_sepBy; [exact N| |discriminate]. intros x l1 l2 EQ. split; [|exact I].
  pose proof (forallb_In _ _ _ _ P (in_split _ _ _ _ _ EQ)) as PX. cbv beta in PX. apply andb_true_iff in PX as [P1 P2].
  apply (ts_variable rs); [exact P2|exact P1|]. destruct l2; cbn [map behind_]; endspath.
Qed.
Lemma target_hd : forall x, targetOk x = true -> In (hd T_EOF (targetText x)) (T_BIT_AND :: heads 0) /\ targetText x <> [].
Proof.
  intros [b e] P. unfold targetOk in P. cbn [snd] in P. apply andb_true_iff in P as [P1 P2]. unfold targetText. cbn [fst snd].
  destruct b; cbn [flag app]; [split; [now left|discriminate]|]. destruct (text_heads rs e P2) as [HI HN]. split; [now right|exact HN].
Qed.
Lemma path_head : forall e, plain e = true -> path e = true -> In (hd T_EOF (text e)) [T_VARIABLE; T_STRING] /\ text e <> [].
Proof.
  intros e P PE. destruct (proj1 (proj2 (proj2 (every rs e P))) PE) as (b & g & gs & _ & _ & _ & EW & _). rewrite EW. unfold pathText.
  destruct b; (split; [cbn; tauto|discriminate]).
Qed.
Lemma ts_target : forall x k r, targetOk x = true -> (k = T_DOUBLE_ARROW \/ k = T_RPAREN) -> TakesS None (IN n_foreachVariable) (targetText x) (k :: r) [WTarget x].
Proof.
  intros [b e] k r P HK. pose proof P as P0. unfold targetOk in P. cbn [snd] in P. apply andb_true_iff in P as [P1 P2]. destruct (path_head e P2 P1) as [HI HN].
  apply (ts_N rs None _ _ _ ((if b then [WTok T_BIT_AND] else []) ++ [WEx e])); [reflexivity| | |].
  - unfold targetText. cbn [fst snd]. destruct b; [comp|]. eapply enter_in; [exact HI|exact HN|comp].
  - cbn [rule seqs]. unfold targetText. cbn [fst snd]. apply ts_seq.
    + apply ts_opt; [exact []|discriminate|]. intros _. eapply out_heads; [exact HI|exact HN|comp].
    + apply (ts_variable rs); [exact P2|exact P1|]. destruct HK as [->| ->]; endspath.
  - destruct b; reflexivity.
Qed.
(** NAME = expression *)
Lemma ts_consts : forall n x es, rule n = seqs [IN x; IT T_ASSIGN; IN n_expr] -> special n = false ->
  nullable (rule n) || mem T_STRING (first (rule n)) = true -> (forall r, TakesS None (IN x) [T_STRING] r [WPart]) ->
  (forall vs, nodeOf n vs = match vs with [WPart; _; WEx e] => WEx e | _ => WBad end) -> forall r,
  es <> [] -> forallb plain es = true ->
  TakesS None (IList (IN n) T_COMMA None) (joined T_COMMA (map (fun e => T_STRING :: T_ASSIGN :: text e) es)) (T_SEMICOLON :: r) (inter T_COMMA (map WEx es)).
Proof.
  intros n x es RU SP E TX NO r N P. apply ts_sepBy; [exact N| |discriminate]. intros y l1 l2 EQ. split; [|exact I].
  eapply ts_N; [exact SP|exact E| |].
  - rewrite RU. cbn [seqs]. change (T_STRING :: T_ASSIGN :: text y) with ([T_STRING] ++ T_ASSIGN :: text y). apply ts_seqv; [apply TX|]. apply ts_seqt.
    apply (ts_expr rs); [exact (forallb_In _ _ _ _ P (in_split _ _ _ _ _ EQ))|]. destruct l2; cbn [map behind_]; unfold stops; comp.
  - rewrite NO. reflexivity.
Qed.
Lemma ts_declares : forall ds r, ds <> [] ->
  TakesS None (IList (IN n_declareItem) T_COMMA None) (joined T_COMMA (map (fun d => T_STRING :: T_ASSIGN :: scText d) ds)) (T_RPAREN :: r) (inter T_COMMA (map WSc ds)).
Proof.
  intros ds r N. apply ts_sepBy; [exact N| |discriminate]. intros y l1 l2 EQ. split; [|exact I].
  eapply ts_N; [reflexivity|comp| |].
  - cbn [rule seqs]. apply ts_seqt. apply ts_seqt. apply ts_scalar. apply out_behind; reflexivity.
  - reflexivity.
Qed.
Lemma ts_globals : forall n q r,
  TakesS None (IList (IN n_globalVar) T_COMMA None) (joined T_COMMA (repeat [T_VARIABLE] (S n))) (termTok q :: r) (inter T_COMMA (map (fun _ : unit => WPart) (repeat tt (S n)))).
Proof.
  intros n q r. replace (repeat [T_VARIABLE] (S n)) with (map (fun _ : unit => [T_VARIABLE]) (repeat tt (S n))).
  - apply ts_sepBy; [discriminate| |destruct q; discriminate]. intros y l1 l2 EQ. split; [|exact I].
    eapply ts_N; [reflexivity|comp|cbn [rule alts]; yes; apply ts_varId|reflexivity].
  - generalize (S n). intros m. induction m as [|m IH]; [reflexivity|]. cbn [repeat map]. now rewrite IH.
Qed.

(** ** Use declarations *)
Definition impOf (k : import) : Imp := match k with ImAny => NamespaceOrClassImport | ImFunction => FunctionImport | ImConst => ConstantImport end.
Definition impVals (k : import) : list sv := map WTok (importText k).
Lemma ts_import : forall k b w r v, outside [T_FUNCTION; T_CONST] (w ++ r) -> TakesS (Some (impOf k)) b w r v ->
  TakesS None (ISeq (alts [seqs [IT T_FUNCTION; IAct (ASetImport FunctionImport)]; seqs [IT T_CONST; IAct (ASetImport ConstantImport)]; IAct (ASetImport NamespaceOrClassImport)]) b)
    (importText k ++ w) r (impVals k ++ v).
Proof.
  intros k b w r v O T s R V _. rewrite <- app_assoc in R.
  assert (X : exists ts s1, Runs rs (alts [seqs [IT T_FUNCTION; IAct (ASetImport FunctionImport)]; seqs [IT T_CONST; IAct (ASetImport ConstantImport)]; IAct (ASetImport NamespaceOrClassImport)]) s (Ok ts s1)
    /\ map readS ts = impVals k /\ calm s (w ++ r) s1 /\ imp s1 = impOf k).
  { destruct k; cbn [importText app] in R.
    - exists [], (setImps s NamespaceOrClassImport (cimp s)). split; [|repeat split; assumption]. cbn [alts seqs].
      apply Runs_alt_r; [rewrite test_at, R by exact V; eapply out_test; [discriminate| |exact O]; comp|].
      apply Runs_alt_r; [rewrite test_at, R by exact V; eapply out_test; [discriminate| |exact O]; comp|].
      apply Runs_alt_l; [reflexivity|]. exact (Runs_act rs (ASetImport NamespaceOrClassImport) s).
    - pose proof (calm_lex _ _ _ R V) as (A1 & A2 & A3 & A4). exists [Leaf T_FUNCTION (pos s)], (setImps (yylex s) FunctionImport (cimp (yylex s))).
      split; [|split; [reflexivity|repeat split; assumption]]. cbn [alts seqs].
      apply Runs_alt_l; [rewrite test_at, R by exact V; comp|]. apply (Runs_seq_ok rs _ _ s [Leaf T_FUNCTION (pos s)] (yylex s) []).
      + apply Runs_tok. exact (yytoken_cons _ _ _ R).
      + exact (Runs_act rs (ASetImport FunctionImport) (yylex s)).
    - pose proof (calm_lex _ _ _ R V) as (A1 & A2 & A3 & A4). exists [Leaf T_CONST (pos s)], (setImps (yylex s) ConstantImport (cimp (yylex s))).
      split; [|split; [reflexivity|repeat split; assumption]]. cbn [alts seqs].
      apply Runs_alt_r; [rewrite test_at, R by exact V; comp|].
      apply Runs_alt_l; [rewrite test_at, R by exact V; comp|]. apply (Runs_seq_ok rs _ _ s [Leaf T_CONST (pos s)] (yylex s) []).
      + apply Runs_tok. exact (yytoken_cons _ _ _ R).
      + exact (Runs_act rs (ASetImport ConstantImport) (yylex s)). }
  destruct X as (ts & s1 & RU & RD & C & I1). destruct (T s1 (proj1 C) (proj1 (proj2 (proj2 C))) I1) as (t2 & s2 & RU2 & RD2 & C2 & _).
  exists (ts ++ t2), s2. split; [eapply Runs_seq_ok; eassumption|]. split; [rewrite map_app; congruence|]. split; [eapply calm_trans; eassumption|exact I].
Qed.
Definition compatible (k i : import) : bool := match k, i with ImAny, _ | _, ImAny => true | _, _ => false end.
Lemma ts_importC : forall k i b w r v, compatible k i = true -> outside [T_FUNCTION; T_CONST] (w ++ r) -> TakesS (Some (impOf k)) b w r v ->
  TakesS (Some (impOf k)) (ISeq (alts [seqs [IT T_FUNCTION; IAct (ASetCompoundImport FunctionImport)]; seqs [IT T_CONST; IAct (ASetCompoundImport ConstantImport)]; IAct (ASetCompoundImport NamespaceOrClassImport)]) (ISeq (IAct AMixedImport) b))
    (importText i ++ w) r (impVals i ++ v).
Proof.
  intros k i b w r v CP O T s R V K. rewrite <- app_assoc in R.
  assert (X : exists ts s1, Runs rs (alts [seqs [IT T_FUNCTION; IAct (ASetCompoundImport FunctionImport)]; seqs [IT T_CONST; IAct (ASetCompoundImport ConstantImport)]; IAct (ASetCompoundImport NamespaceOrClassImport)]) s (Ok ts s1)
    /\ map readS ts = impVals i /\ calm s (w ++ r) s1 /\ imp s1 = impOf k /\ cimp s1 = impOf i).
  { cbn in K. destruct i; cbn [importText app] in R.
    - exists [], (setImps s (imp s) NamespaceOrClassImport). split; [|repeat split; assumption]. cbn [alts seqs].
      apply Runs_alt_r; [rewrite test_at, R by exact V; eapply out_test; [discriminate| |exact O]; comp|].
      apply Runs_alt_r; [rewrite test_at, R by exact V; eapply out_test; [discriminate| |exact O]; comp|].
      apply Runs_alt_l; [reflexivity|]. exact (Runs_act rs (ASetCompoundImport NamespaceOrClassImport) s).
    - pose proof (calm_lex _ _ _ R V) as (A1 & A2 & A3 & A4). exists [Leaf T_FUNCTION (pos s)], (setImps (yylex s) (imp (yylex s)) FunctionImport).
      split; [|split; [reflexivity|repeat split; try assumption; cbn; rewrite imp_lex; exact K]]. cbn [alts seqs].
      apply Runs_alt_l; [rewrite test_at, R by exact V; comp|]. apply (Runs_seq_ok rs _ _ s [Leaf T_FUNCTION (pos s)] (yylex s) []).
      + apply Runs_tok. exact (yytoken_cons _ _ _ R).
      + exact (Runs_act rs (ASetCompoundImport FunctionImport) (yylex s)).
    - pose proof (calm_lex _ _ _ R V) as (A1 & A2 & A3 & A4). exists [Leaf T_CONST (pos s)], (setImps (yylex s) (imp (yylex s)) ConstantImport).
      split; [|split; [reflexivity|repeat split; try assumption; cbn; rewrite imp_lex; exact K]]. cbn [alts seqs].
      apply Runs_alt_r; [rewrite test_at, R by exact V; comp|].
      apply Runs_alt_l; [rewrite test_at, R by exact V; comp|]. apply (Runs_seq_ok rs _ _ s [Leaf T_CONST (pos s)] (yylex s) []).
      + apply Runs_tok. exact (yytoken_cons _ _ _ R).
      + exact (Runs_act rs (ASetCompoundImport ConstantImport) (yylex s)). }
  destruct X as (ts & s1 & RU & RD & C & I1 & I2). destruct (T s1 (proj1 C) (proj1 (proj2 (proj2 C))) I1) as (t2 & s2 & RU2 & RD2 & C2 & K2).
  assert (MX : Runs rs (IAct AMixedImport) s1 (Ok [] s1)).
  { pose proof (Runs_act rs AMixedImport s1) as Y. cbn [doAct] in Y. rewrite I1, I2 in Y. destruct k, i; try discriminate CP; exact Y. }
  exists (ts ++ [] ++ t2), s2. split; [eapply Runs_seq_ok; [exact RU|]; eapply Runs_seq_ok; eassumption|].
  split; [cbn [app]; rewrite map_app; congruence|]. split; [eapply calm_trans; eassumption|exact K2].
Qed.
Lemma ts_alias : forall o (b : bool) (i : item) r, outside [T_AS] r ->
  TakesS o (alts [seqs [IT T_AS; IN n_identifier]; IEps]) (aliasText b) r (if b then [WTok T_AS; WPart] else []).
Proof.
  intros o b i r O. cbn [alts seqs]. destruct b; cbn [aliasText].
  - yes. apply ts_seqt, ts_ident.
  - apply ts_alt_r; [cbn [app]; eapply out_test; [discriminate| |exact O]; comp|]. apply ts_alt_l; [reflexivity|apply ts_eps].
Qed.
Lemma partVals_rev : forall n, rev (partVals n) = partVals n.
Proof.
  intros n. unfold partVals. set (v := fun _ : unit => WPart). assert (L : forall m, inter T_BACKSLASH (map v (repeat tt (S (S m)))) = inter T_BACKSLASH (map v (repeat tt (S m))) ++ [WTok T_BACKSLASH; WPart]).
  { induction m as [|m IH]; [reflexivity|]. change (map v (repeat tt (S (S (S m))))) with (WPart :: map v (repeat tt (S (S m)))).
    rewrite inter_cons by discriminate. transitivity (WPart :: WTok T_BACKSLASH :: inter T_BACKSLASH (map v (repeat tt (S m))) ++ [WTok T_BACKSLASH; WPart]).
    - f_equal. f_equal. exact IH.
    - change (map v (repeat tt (S (S m)))) with (WPart :: map v (repeat tt (S m))). rewrite inter_cons by discriminate. reflexivity. }
  induction n as [|n IH]; [reflexivity|]. rewrite L at 1. rewrite rev_app_distr, IH. reflexivity.
Qed.
Lemma ts_inner : forall o j b r, outside [T_AS; T_BACKSLASH] r ->
  TakesS o (IN n_innerUseNamespace) (parts j ++ aliasText b) r [WUseM (ImAny, j, b)].
Proof.
  intros o j b r O. apply (ts_N rs o _ _ _ (partVals j ++ if b then [WTok T_AS; WPart] else [])); [reflexivity| | |].
  - destruct (parts_hd j) as [w ->]. comp.
  - cbn [rule seqs]. apply ts_seq.
    + apply ts_parts; [|discriminate]. destruct b; [discriminate|]. eapply out_neq; [exact O|reflexivity].
    + apply ts_alias; [exact IEps|]. eapply out_less; [|exact O]. reflexivity.
  - cbn [nodeOf]. destruct b.
    + rewrite rev_app_distr, partVals_rev. cbn [rev app]. rewrite partVals_rev, partsOf_vals. reflexivity.
    + rewrite app_nil_r, partVals_rev, partsOf_vals. destruct j as [|j]; reflexivity.
Qed.
Definition memberText (m : import * nat * bool) : list Tok := importText (fst (fst m)) ++ parts (snd (fst m)) ++ aliasText (snd m).
Lemma member_heads : forall m, In (hd T_EOF (memberText m)) [T_FUNCTION; T_CONST; T_STRING] /\ memberText m <> [].
Proof. intros [[[| |] j] b]; unfold memberText; cbn [fst snd importText app]; destruct (parts_hd j) as [w ->]; (split; [cbn; tauto|discriminate]). Qed.
Lemma ts_member : forall k m r, compatible k (fst (fst m)) = true -> outside [T_AS; T_BACKSLASH] r ->
  TakesS (Some (impOf k)) (IN n_compoundNamespaceStatement) (memberText m) r [WUseM m].
Proof.
  intros k m r CP O. destruct (member_heads m) as [HI HN]. apply (ts_N rs _ _ _ _ (impVals (fst (fst m)) ++ [WUseM (ImAny, snd (fst m), snd m)])); [reflexivity|eapply enter_in; [exact HI|exact HN|comp]| |].
  - cbn [rule]. destruct m as [[i j] b]. cbn [fst snd] in *. unfold memberText. cbn [fst snd].
    refine (ts_importC k i _ _ _ _ CP _ (ts_inner _ j b r O)). destruct (parts_hd j) as [w ->]. reflexivity.
  - destruct m as [[[| |] j] b]; reflexivity.
Qed.
Definition useHeads := nameHeads.
Lemma use_heads : forall u, In (hd T_EOF (useText u)) nameHeads /\ useText u <> [].
Proof.
  intros [n b|n ms]; cbn [useText]; destruct (name_heads n) as [HI HN]; (split; [now rewrite hd_app|]); destruct (nameText n); congruence || discriminate.
Qed.
Lemma ts_use : forall k u r, useOk k u = true -> outside [T_AS; T_BACKSLASH; T_LBRACE] r ->
  TakesS (Some (impOf k)) (IN n_useNamespaceOrUseGroupedNamespace) (useText u) r [WUse u].
Proof.
  intros k u r OK O. destruct (use_heads u) as [HI HN]. destruct u as [n b|n ms].
  - apply (ts_N rs _ _ _ _ (WName n :: if b then [WTok T_AS; WPart] else [])); [reflexivity|eapply enter_in; [exact HI|exact HN|comp]| |].
    + cbn [rule seqs useText alts]. apply ts_seqv.
      * apply ts_nameB. destruct b; [reflexivity|]. eapply out_less; [|exact O]. reflexivity.
      * destruct b; cbn [aliasText].
        -- yes. apply ts_seqt, ts_ident.
        -- apply ts_alt_r; [cbn [app]; eapply out_test; [discriminate| |exact O]; comp|].
           apply ts_alt_r; [cbn [app]; eapply out_test; [discriminate| |exact O]; comp|]. apply ts_alt_l; [reflexivity|apply ts_eps].
    + destruct b; reflexivity.
  - cbn [useOk] in OK. apply andb_true_iff in OK as [N P]. apply some_nonempty in N.
    apply (ts_N rs _ _ _ _ [WName n; WUseMs ms]); [reflexivity|eapply enter_in; [exact HI|exact HN|comp]| |].
    + cbn [rule seqs useText alts]. fold memberText.
      replace (nameText n ++ T_BACKSLASH :: T_LBRACE :: joined T_COMMA (map memberText ms) ++ [T_RBRACE])
        with ((nameText n ++ [T_BACKSLASH]) ++ T_LBRACE :: joined T_COMMA (map memberText ms) ++ [T_RBRACE]) by now rewrite <- app_assoc.
      apply (ts_seqv rs _ _ _ _ _ _ _ [WUseMs ms]).
      * apply ts_nameG.
      * no. yes. eapply ts_N; [reflexivity|comp| |].
        -- cbn [rule seqs]. apply ts_seqt. apply ts_seq; [|apply ts_tok].
           apply (ts_sepBy rs _ _ _ _ _ memberText WUseM); [exact N| |discriminate]. intros x l1 l2 EQ.
           pose proof (forallb_In _ _ _ _ P (in_split _ _ _ _ _ EQ)) as PX. cbv beta in PX. destruct (member_heads x) as [HI2 HN2].
           split; [apply ts_member; [exact PX|apply out_behind; reflexivity]|]. rewrite hd_app by exact HN2. intros EX. rewrite EX in HI2. vm_compute in HI2. intuition discriminate.
        -- cbn [nodeOf]. rewrite pick_tok, pick_app_tok, (pick_inter _ getUseM WUseM) by (intros; split; reflexivity). reflexivity.
    + reflexivity.
Qed.
Lemma ts_useStatement : forall k us r, us <> [] -> forallb (useOk k) us = true ->
  TakesS None (IN n_useStatement) (importText k ++ joined T_COMMA (map useText us) ++ [T_SEMICOLON]) r [WUses k us].
Proof.
  intros k us r N P. assert (HU : exists w, joined T_COMMA (map useText us) = w /\ In (hd T_EOF w) nameHeads /\ w <> []).
  { eexists. split; [reflexivity|]. destruct us as [|u us]; [congruence|]. cbn [map]. destruct (use_heads u) as [HI HN].
    destruct us as [|u2 us]; [split; assumption|]. cbn [map]. rewrite joined_cons by discriminate. split; [now rewrite hd_app|]. destruct (useText u); [congruence|discriminate]. }
  destruct HU as (w & EW & HI & HN).
  assert (U : TakesS (Some (impOf k)) (seqs [IList (IN n_useNamespaceOrUseGroupedNamespace) T_COMMA None; IT T_SEMICOLON]) (w ++ [T_SEMICOLON]) r (inter T_COMMA (map WUse us) ++ [WTok T_SEMICOLON])).
  { cbn [seqs]. apply ts_seq; [|apply ts_tok]. rewrite <- EW. apply ts_sepBy; [exact N| |discriminate]. intros x l1 l2 EQ. split; [|exact I].
    apply ts_use; [exact (forallb_In _ _ _ _ P (in_split _ _ _ _ _ EQ))|]. apply out_behind; reflexivity. }
  rewrite EW. apply (ts_N rs _ _ _ _ (impVals k ++ inter T_COMMA (map WUse us) ++ [WTok T_SEMICOLON])); [reflexivity| | |].
  - destruct k; cbn [importText app]; [|comp|comp]. rewrite <- app_assoc. eapply enter_in; [exact HI|exact HN|comp].
  - cbn [rule]. refine (ts_import k _ _ _ _ _ U). rewrite <- app_assoc. eapply out_heads; [exact HI|exact HN|comp].
  - assert (PK : pick getUse (inter T_COMMA (map WUse us) ++ [WTok T_SEMICOLON]) = Some us).
    { rewrite pick_app_tok. apply pick_inter. intros; split; reflexivity. }
    destruct k; cbn [impVals importText map app nodeOf importOf gives]; rewrite PK; try reflexivity.
    destruct us as [|u [|u2 us]]; [congruence| |]; reflexivity.
Qed.

(** ** Classes *)
Lemma ts_mods : forall mods r, outside [T_PUBLIC; T_PROTECTED; T_PRIVATE; T_STATIC; T_ABSTRACT; T_FINAL] r ->
  TakesS None (IN n_optionalModifiers) (map modTok mods) r [WMods mods].
Proof.
  intros mods r O. apply (ts_N rs _ _ _ _ (map (fun m => WTok (modTok m)) mods)); [reflexivity|apply enter_nullable; comp| |].
  - cbn [rule]. replace (map modTok mods) with (flat_map (fun m => [modTok m]) mods).
    + apply ts_many; [|eapply out_first; [|exact O]; comp]. intros m l1 l2 _. split; [destruct m; comp|]. cbn [alts].
      destruct m; cbn [modTok]; repeat first [yes; apply ts_tok|no].
    + induction mods as [|m mods IH]; [reflexivity|]. cbn [flat_map map app]. now rewrite IH.
  - cbn [nodeOf]. assert (E : modsOf (map (fun m => WTok (modTok m)) mods) = Some mods).
    { induction mods as [|m mods IH]; [reflexivity|]. cbn [map modsOf]. rewrite IH. destruct m; reflexivity. }
    rewrite E. reflexivity.
Qed.
Lemma ts_classMod : forall m r, headOk (HClass m None []) = true ->
  TakesS None (IN n_optionalClassModifier) (match m with Some x => [modTok x] | None => [] end) (T_CLASS :: r) [WMods (match m with Some x => [x] | None => [] end)].
Proof.
  intros m r OK. apply (ts_N rs _ _ _ _ (match m with Some x => [WTok (modTok x)] | None => [] end)); [reflexivity|apply enter_nullable; comp| |].
  - cbn [rule alts]. destruct m as [m|]; [destruct m; try discriminate OK; cbn [modTok]; repeat first [yes; apply ts_tok|no]|].
    no. no. apply ts_alt_l; [reflexivity|apply ts_eps].
  - destruct m as [m|]; [destruct m; try discriminate OK|]; reflexivity.
Qed.
Lemma ts_implements : forall l r, l <> [] -> outside [T_BACKSLASH; T_COMMA] r -> TakesS None (IN n_classImplements) (namesText l) r [WNames l].
Proof.
  intros l r N O. assert (H : In (hd T_EOF (namesText l)) nameHeads /\ namesText l <> []).
  { destruct l as [|n l]; [congruence|]. destruct (name_heads n) as [HI HN]. unfold namesText. cbn [map]. destruct l as [|y l]; [split; assumption|]. cbn [map].
    rewrite joined_cons by discriminate. split; [now rewrite hd_app|]. destruct (nameText n); [congruence|discriminate]. }
  destruct H as [HI HN]. eapply ts_N; [reflexivity|eapply enter_in; [exact HI|exact HN|comp]| |].
  - cbn [rule]. apply ts_names; [exact N|eapply out_less; [|exact O]; reflexivity|eapply out_neq; [exact O|reflexivity]|discriminate|reflexivity].
  - cbn [nodeOf]. rewrite (pick_inter _ getName WName) by (intros; split; reflexivity). reflexivity.
Qed.
Lemma names_heads : forall l, l <> [] -> In (hd T_EOF (namesText l)) nameHeads /\ namesText l <> [].
Proof.
  intros l N. destruct l as [|n l]; [congruence|]. destruct (name_heads n) as [HI HN]. unfold namesText. cbn [map]. destruct l as [|y l]; [split; assumption|]. cbn [map].
  rewrite joined_cons by discriminate. split; [now rewrite hd_app|]. destruct (nameText n); [congruence|discriminate].
Qed.
Lemma ts_classVars : forall vs r, vs <> [] -> TakesS None (IN n_classVariableDeclaration) (joined T_COMMA (map varText vs)) (T_SEMICOLON :: r) [WVars vs].
Proof.
  intros vs r N. destruct (vars_hd vs N) as [w EW]. eapply ts_N; [reflexivity|rewrite EW; comp| |].
  - cbn [rule]. apply ts_varDecls; [reflexivity|reflexivity|comp|intros; reflexivity|exact N|reflexivity].
  - cbn [nodeOf]. rewrite (pick_inter _ getVar WVarDecl) by (intros; split; reflexivity). reflexivity.
Qed.
(** One rename of a use in a class *)
Definition renameOk (p : name * rename) : bool := match snd p with RInsteadof l => some l | _ => true end.
Lemma ts_traitId : forall n r, TakesS None (IN n_traitAliasIdentifier) (nameText n ++ [T_PAAMAYIM_NEKUDOTAYIM; T_STRING]) r [WName n].
Proof.
  intros n r. destruct (name_heads n) as [HI HN]. eapply ts_N; [reflexivity|rewrite <- app_assoc; eapply enter_in; [exact HI|exact HN|comp]| |].
  - cbn [rule seqs]. apply ts_seqv; [apply ts_name; reflexivity|]. apply ts_seqt, ts_semiId.
  - reflexivity.
Qed.
Lemma ts_vis : forall m r, TakesS None (IN n_traitVisibilityModifiers) [modTok m] r [WMods [m]].
Proof.
  intros m r. apply (ts_N rs _ _ _ _ [WTok (modTok m)]); [reflexivity|destruct m; comp| |destruct m; reflexivity].
  cbn [rule alts]. destruct m; cbn [modTok]; repeat first [yes; apply ts_tok|no].
Qed.
Lemma ts_newName : forall r, TakesS None (IN n_reservedNonModifierIdentifier) [T_STRING] r [WPart].
Proof. intros r. eapply ts_N; [reflexivity|comp|cbn [rule alts]; first [yes; apply ts_ident|no; yes; apply ts_ident]|reflexivity]. Qed.
Lemma ts_rename : forall p r, renameOk p = true -> TakesS None (IN n_traitAliasStatement) (renameText p) (T_SEMICOLON :: r) [WRename p].
Proof.
  intros [n a] r OK. unfold renameText. cbn [fst snd]. destruct (name_heads n) as [HI HN].
  set (tail := match a with RVisibility m => [T_AS; modTok m] | RName => [T_AS; T_STRING] | RBoth m => [T_AS; modTok m; T_STRING] | RInsteadof l => T_INSTEADOF :: namesText l end).
  replace (nameText n ++ T_PAAMAYIM_NEKUDOTAYIM :: T_STRING :: tail) with ((nameText n ++ [T_PAAMAYIM_NEKUDOTAYIM; T_STRING]) ++ tail) by now rewrite <- app_assoc.
  assert (E : forall i, forallb (fun k => nullable i || mem k (first i)) nameHeads = true -> enters i (at_ (((nameText n ++ [T_PAAMAYIM_NEKUDOTAYIM; T_STRING]) ++ tail) ++ T_SEMICOLON :: r)) = true).
  { intros i F. rewrite <- !app_assoc. eapply enter_in; [exact HI|exact HN|exact F]. }
  destruct a as [m| |m|l]; subst tail.
  - apply (ts_N rs _ _ _ _ [WName n; WTok T_AS; WMods [m]]); [reflexivity|apply E; comp| |reflexivity].
    cbn [rule seqs alts]. apply ts_seqv; [apply ts_traitId|]. yes. apply ts_seqt. apply ts_alt_l; [destruct m; comp|]. apply ts_cond.
    apply ts_alt_l; [destruct m; comp|]. apply ts_vis.
  - apply (ts_N rs _ _ _ _ [WName n; WTok T_AS; WPart]); [reflexivity|apply E; comp| |reflexivity].
    cbn [rule seqs alts]. apply ts_seqv; [apply ts_traitId|]. yes. apply ts_seqt. yes. apply ts_cond. no. yes. apply ts_newName.
  - apply (ts_N rs _ _ _ _ [WName n; WTok T_AS; WMods [m]; WPart]); [reflexivity|apply E; comp| |reflexivity].
    cbn [rule seqs alts]. apply ts_seqv; [apply ts_traitId|]. yes. apply ts_seqt. apply ts_alt_r; [destruct m; comp|]. apply ts_alt_l; [destruct m; comp|].
    change [modTok m; T_STRING] with ([modTok m] ++ [T_STRING]). apply ts_seqv; [apply ts_vis|apply ts_semiId].
  - cbn [renameOk snd] in OK. apply some_nonempty in OK.
    apply (ts_N rs _ _ _ _ (WName n :: WTok T_INSTEADOF :: inter T_COMMA (map WName l))); [reflexivity|apply E; comp| |].
    + cbn [rule seqs alts]. apply ts_seqv; [apply ts_traitId|]. no. yes. apply ts_seqt. apply ts_names; [exact OK|reflexivity|discriminate|discriminate|reflexivity].
    + cbn [nodeOf]. rewrite (pick_inter _ getName WName) by (intros; split; reflexivity). reflexivity.
Qed.
Lemma rename_heads : forall p, In (hd T_EOF (renameText p)) nameHeads /\ renameText p <> [].
Proof. intros [n a]. unfold renameText. cbn [fst snd]. destruct (name_heads n) as [HI HN]. split; [now rewrite hd_app|]. destruct (nameText n); [congruence|discriminate]. Qed.
Lemma ts_renames : forall l r, l <> [] -> forallb renameOk l = true ->
  TakesS None (IN n_traitAliasDeclaration) (T_LBRACE :: flat_map (fun r => renameText r ++ [T_SEMICOLON]) l ++ [T_RBRACE]) r [WRenames l].
Proof.
  intros l r N P. eapply ts_N; [reflexivity|comp| |].
  - cbn [rule seqs]. apply ts_seqt. apply ts_seq; [|apply ts_tok]. apply (ts_ended rs _ _ _ _ _ renameText WRename); [exact N| |reflexivity].
    intros x l1 l2 EQ. destruct (rename_heads x) as [HI HN]. split; [apply ts_rename; exact (forallb_In _ _ _ _ P (in_split _ _ _ _ _ EQ))|].
    split; [exact HN|]. intros EX. rewrite EX in HI. vm_compute in HI. intuition discriminate.
  - cbn [nodeOf]. rewrite pick_tok, pick_app_tok, (pick_ended _ getRename WRename) by (intros; split; reflexivity). reflexivity.
Qed.
End T.
