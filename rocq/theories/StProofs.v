(** Statements. *)
From Coq Require Import List Bool NArith ZArith Lia Arith.
From Verif Require Import Chars LexModel ParseModel ParseSpec ParseProofs PexSpec PexProofs PexProofs2 PexProofs4 PexPath PexPath2 PexProofs5 PexEvery PexProofs6 StSpec StTakes StNames StParts.
Import ListNotations.
Open Scope nat_scope.

Definition simpleHeads : list Tok := heads 0 ++
  [T_IF; T_WHILE; T_DO; T_FOR; T_FOREACH; T_SWITCH; T_DECLARE; T_TRY; T_ECHO; T_RETURN; T_BREAK; T_CONTINUE; T_THROW; T_UNSET; T_GLOBAL;
   T_STATIC; T_CONST; T_GOTO; T_USE; T_SEMICOLON; T_LBRACE; T_OPEN_TAG; T_CLOSE_TAG; T_INLINE_HTML; T_OPEN_TAG_WITH_ECHO].
Definition topHeads : list Tok := simpleHeads ++ [T_HALT_COMPILER; T_FUNCTION; T_CLASS; T_ABSTRACT; T_FINAL; T_INTERFACE; T_TRAIT].
(** What may stand behind a list of statements. *)
Definition listEnds : list Tok :=
  [T_RBRACE; T_ELSEIF; T_ELSE; T_ENDIF; T_ENDFOREACH; T_ENDFOR; T_ENDWHILE; T_ENDSWITCH; T_ENDDECLARE; T_CASE; T_DEFAULT].

Lemma in_list : forall k L, inStop k L = true -> In k L.
Proof. intros k L H. unfold inStop in H. apply existsb_exists in H as (x & HI & E). apply teq_eq in E. now subst x. Qed.
Ltac norm := unfold forText, foreachText, declareText, parens; cbn [app]; repeat (rewrite <- app_assoc; cbn [app]).
Ltac go := first [yes | no; go].

Section T.
Variable rs : Gen.
Context {Fs : Functions} {FsR : FunctionsRead rs}.
Notation TakesS := (TakesS rs).

Definition follows (s : st) (r : list Tok) : Prop := outside [T_CATCH; T_FINALLY] r /\ (closed s = false -> outside [T_ELSE; T_ELSEIF] r).

Definition Stm (s : st) : Prop := forall r, follows s r -> TakesS None (IN n_statement) (stText s) r [WSt s].
Definition Lst (l : list st) : Prop := forall r, inStop (hd T_EOF r) listEnds = true -> (closedList l = false -> outside [T_ELSE; T_ELSEIF] r) ->
  TakesS None (IN n_innerStatementList) (flat_map stText l) r [WSts l].
Definition Top (s : st) : Prop := forall r, follows s r -> TakesS None (IN n_topStatement) (stText s) r [WSt s].

Lemma simple_heads : forall s, stOk s = true -> simple s = true -> In (hd T_EOF (stText s)) simpleHeads /\ stText s <> [].
Proof.
  intros s OK SI. assert (KW : forall k w, In k simpleHeads -> stText s = k :: w -> In (hd T_EOF (stText s)) simpleHeads /\ stText s <> []).
  { intros k w HK E. rewrite E. split; [exact HK|discriminate]. }
  destruct s; try discriminate SI; try (eapply KW; [apply in_list|reflexivity]; reflexivity).
  cbn [stOk] in OK. cbn [stText]. destruct (text_heads rs e OK) as [HI HN]. split; [rewrite hd_app by exact HN; apply in_or_app; now left|].
  destruct (text e); [congruence|discriminate].
Qed.
Lemma top_heads : forall s, stOk s = true -> In (hd T_EOF (stText s)) topHeads /\ stText s <> [].
Proof.
  intros s OK. destruct (simple s) eqn:SI.
  - destruct (simple_heads s OK SI) as [HI HN]. split; [apply in_or_app; now left|exact HN].
  - assert (KW : forall k w, inStop k topHeads = true -> In (hd T_EOF (k :: w)) topHeads /\ k :: w <> []).
    { intros k w HK. split; [apply in_list; exact HK|discriminate]. }
    destruct s; try discriminate SI; cbn [stText app]; try (apply KW; reflexivity).
    destruct h as [[m|] ext im| |]; cbn [headText app]; try (apply KW; reflexivity).
    cbn [stOk headOk] in OK. destruct m; try discriminate OK; cbn [app]; apply KW; reflexivity.
Qed.
Lemma first_in : forall i w r L, In (hd T_EOF w) L -> w <> [] -> forallb (fun k => mem k (first i)) L = true -> mem (hd T_EOF (w ++ r)) (first i) = true.
Proof. intros i w r L HI N F. rewrite hd_app by exact N. exact (forallb_In _ _ _ _ F HI). Qed.

Lemma closedList_snoc : forall l x, closedList (l ++ [x]) = closed x.
Proof. intros l x. unfold closedList. rewrite rev_app_distr. reflexivity. Qed.
Lemma lst_all : forall l, forallb stOk l = true -> (forall s, In s l -> Top s) -> Lst l.
Proof.
  intros l OK H r E CL. eapply ts_N; [reflexivity|apply enter_nullable; comp| |].
  - cbn [rule]. apply ts_loop.
    + apply (ts_many rs None _ _ stText WSt).
      * intros x l1 l2 EQ. pose proof (in_split _ _ _ _ _ EQ) as IX. pose proof (forallb_In _ _ _ _ OK IX) as OX. destruct (top_heads x OX) as [HI HN].
        split; [eapply first_in; [exact HI|exact HN|comp]|]. apply ts_recover. apply H; [exact IX|].
        destruct l2 as [|y l2].
        -- cbn [flat_map app]. split.
           ++ unfold outside. destruct (inStop (hd T_EOF r) [T_CATCH; T_FINALLY]) eqn:E2; [|reflexivity]. exfalso. unfold inStop in E2. apply existsb_exists in E2 as (k & HK & EK).
              apply teq_eq in EK. rewrite EK in E. cbn in HK. destruct HK as [<-|[<-|[]]]; discriminate E.
           ++ intros CX. apply CL. rewrite EQ, closedList_snoc. exact CX.
        -- assert (IY : In y l) by (rewrite EQ; apply in_or_app; right; right; now left). destruct (top_heads y (forallb_In _ _ _ _ OK IY)) as [HI2 HN2].
           cbn [flat_map]. rewrite <- app_assoc. split; [|intros _]; (eapply out_heads; [exact HI2|exact HN2|comp]).
      * assert (F : forallb (fun k => negb (mem k (first (IRecover n_topStatement)))) listEnds = true) by comp.
        unfold inStop in E. apply existsb_exists in E as (k & HK & EK). apply teq_eq in EK. rewrite EK. apply negb_true_iff. exact (forallb_In _ _ _ _ F HK).
    + assert (F : forallb (fun k => inStop k innerStop) listEnds = true) by comp.
      unfold inStop in E. apply existsb_exists in E as (k & HK & EK). apply teq_eq in EK. rewrite EK. exact (forallb_In _ _ _ _ F HK).
  - cbn [nodeOf]. rewrite (pick_map _ getSt WSt) by (intros; split; reflexivity). reflexivity.
Qed.
Lemma lst_brace : forall l r, Lst l -> TakesS None (IN n_innerStatementList) (flat_map stText l) (T_RBRACE :: r) [WSts l].
Proof. intros l r H. apply H; [reflexivity|intros _; reflexivity]. Qed.
(** { ... } *)
Lemma ts_block : forall l r, Lst l ->
  TakesS None (seqs [IT T_LBRACE; IRecover n_innerStatementList; IT T_RBRACE]) (T_LBRACE :: flat_map stText l ++ [T_RBRACE]) r [WTok T_LBRACE; WSts l; WTok T_RBRACE].
Proof. intros l r H. cbn [seqs]. apply ts_seqt. apply ts_seqv; [apply ts_recover, lst_brace, H|apply ts_tok]. Qed.
Lemma simple_anon : forall s, stOk s = true -> simple s = true -> anon (stText s).
Proof.
  intros s OK SI. destruct s; try discriminate SI; try (cbn; intro; discriminate).
  cbn [stOk] in OK. cbn [stText]. destruct (text_heads rs e OK) as [_ HN]. intro A. rewrite hd_app in A by exact HN.
  destruct (text_anon rs e OK A) as [[r E]|[r E]]; rewrite E; [left|right]; eexists; reflexivity.
Qed.
Lemma top_simple : forall s, stOk s = true -> simple s = true -> Stm s -> Top s.
Proof.
  intros s OK SI H r F. destruct (simple_heads s OK SI) as [HI HN]. eapply ts_N; [reflexivity|eapply enter_in; [exact HI|exact HN|comp]| |].
  - cbn [rule alts]. apply ts_alt_l; [|apply ts_cond, H, F]. cbn [test].
    rewrite (anon_holds _ (stText s) r (eq_refl : rest (at_ (stText s ++ r)) = _) HN (simple_anon s OK SI)). cbn [andb].
    eapply enter_in; [exact HI|exact HN|comp].
  - reflexivity.
Qed.

(** ** The statements one by one *)
Lemma st_expr : forall q e, plain e = true -> Stm (SExpr q e).
Proof.
  intros q e P r _. cbn [stText]. destruct (text_heads rs e P) as [HI HN]. pose proof (text_second rs e P) as SEC.
  eapply ts_N; [reflexivity|rewrite <- app_assoc; eapply enter_in; [exact HI|exact HN|comp]| |].
  - cbn [rule alts].
    assert (NO : forall a b vs, (forall c x, a <> ICond c x) -> forallb (fun k => negb (nullable a || mem k (first a))) (heads 0) = true ->
      TakesS None b (text e ++ [termTok q]) r vs -> TakesS None (IAlt a b) (text e ++ [termTok q]) r vs).
    { intros a b vs NC F T. apply ts_alt_r; [|exact T]. rewrite <- app_assoc. eapply test_out; [exact HI|exact HN|exact NC|exact F]. }
    do 10 (apply NO; [discriminate|comp|]). apply ts_alt_l.
    + cbn [test holds]. apply andb_true_iff. split.
      * apply orb_true_iff. right. apply negb_true_iff, teq_neq. unfold la, at_. cbn [rest Nat.sub]. rewrite <- app_assoc. apply SEC. destruct q; discriminate.
      * rewrite <- app_assoc. eapply enter_in; [exact HI|exact HN|comp].
    + apply ts_cond. cbn [seqs]. apply ts_seqv; [apply (ts_expr rs); [exact P|destruct q; comp]|apply ts_term].
  - reflexivity.
Qed.
Ltac enter := eapply ts_N; [reflexivity|comp|cbn [rule alts seqs stText]; go; norm|].
Lemma st_tok : forall k s, In (k, s) [(T_SEMICOLON, SEmpty); (T_OPEN_TAG, SOpen); (T_CLOSE_TAG, SClose); (T_INLINE_HTML, SHtml)] -> Stm s.
Proof.
  intros k s H r _. cbn [In] in H. destruct H as [H|[H|[H|[H|[]]]]]; injection H as <- <-; (enter; [apply ts_tok|reflexivity]).
Qed.
Lemma st_show : forall q e, plain e = true -> Stm (SShow q e).
Proof. intros q e P r _. enter; [apply ts_seqt; apply ts_seqv; [apply (ts_expr rs); [exact P|destruct q; comp]|apply ts_term]|reflexivity]. Qed.
Lemma st_throw : forall q e, plain e = true -> Stm (SThrow q e).
Proof. intros q e P r _. enter; [apply ts_seqt; apply ts_seqv; [apply (ts_expr rs); [exact P|destruct q; comp]|apply ts_term]|reflexivity]. Qed.
Lemma st_block : forall l, Lst l -> Stm (SBlock l).
Proof. intros l H r _. enter; [exact (ts_block l r H)|reflexivity]. Qed.
Lemma st_goto : Stm SGoto.
Proof. intros r _. enter; [apply ts_seqt; apply ts_seqt; apply ts_tok|reflexivity]. Qed.
Lemma st_label : Stm SLabel.
Proof. intros r _. enter; [apply ts_seqt; apply ts_tok|reflexivity]. Qed.
Lemma st_return : forall q o, optOk o = true -> Stm (SReturn q o).
Proof.
  intros q o P r _. enter; [apply ts_seqt; apply ts_seq; [apply (ts_optEx rs), P|apply ts_term]|]. destruct o; reflexivity.
Qed.
Lemma st_break : forall q o, optOk o = true -> Stm (SBreak q o).
Proof.
  intros q o P r _. enter; [apply ts_seqt; apply ts_seq; [apply (ts_optEx rs), P|apply ts_term]|]. destruct o; reflexivity.
Qed.
Lemma st_continue : forall q o, optOk o = true -> Stm (SContinue q o).
Proof.
  intros q o P r _. enter; [apply ts_seqt; apply ts_seq; [apply (ts_optEx rs), P|apply ts_term]|]. destruct o; reflexivity.
Qed.
Lemma st_echo : forall q es, es <> [] -> forallb plain es = true -> Stm (SEcho q es).
Proof.
  intros q es N P r _. enter; [apply ts_seqt; apply ts_seq; [apply (ts_exprs rs); [exact N|exact P|destruct q; comp|destruct q; discriminate]|apply ts_term]|].
  cbn [nodeOf readWord]. rewrite rev_app_distr. cbn [rev app]. rewrite rev_involutive, pick_exs. reflexivity.
Qed.
Lemma st_unset : forall q vs, vs <> [] -> forallb (fun v => path v && plain v) vs = true -> Stm (SUnset q vs).
Proof.
  intros q vs N P r _. enter; [apply ts_seqt; apply ts_seqt; apply ts_seq; [apply (ts_variables rs); [exact N|exact P]|apply ts_seqt; apply ts_term]|].
  cbn [nodeOf readWord rev]. rewrite rev_app_distr. cbn [rev app]. rewrite rev_app_distr. cbn [rev app]. rewrite rev_involutive. cbn [app].
  rewrite pick_tok, pick_app_tok, pick_exs. reflexivity.
Qed.
Lemma st_global : forall q n, Stm (SGlobal q n).
Proof.
  intros q n r _. enter; [apply ts_seqt; apply ts_seq; [apply ts_globals|apply ts_term]|].
  cbn [nodeOf readWord]. rewrite rev_app_distr. cbn [rev app]. rewrite rev_involutive. rewrite (pick_inter _ getPart (fun _ => WPart)) by (intros []; split; reflexivity).
  cbn [gives repeat]. now rewrite repeat_length.
Qed.
Lemma st_static : forall q vs, vs <> [] -> Stm (SStatic q vs).
Proof.
  intros q vs N r _. enter; [apply ts_seqt; apply ts_seq; [apply ts_varDecls; [reflexivity|reflexivity|comp|intros; reflexivity|exact N|destruct q; reflexivity]|apply ts_term]|].
  cbn [nodeOf readWord]. rewrite rev_app_distr. cbn [rev app]. rewrite rev_involutive. rewrite (pick_inter _ getVar WVarDecl) by (intros; split; reflexivity). reflexivity.
Qed.
Lemma st_const : forall es, es <> [] -> forallb plain es = true -> Stm (SConst es).
Proof.
  intros es N P r _. enter; [apply ts_seqt; apply ts_seq; [eapply (ts_consts rs); [reflexivity|reflexivity|comp|intros; apply ts_ident|intros; reflexivity|exact N|exact P]|apply ts_tok]|].
  cbn [nodeOf readWord]. rewrite pick_app_tok, pick_exs. reflexivity.
Qed.
Lemma st_use : forall k us, us <> [] -> forallb (useOk k) us = true -> Stm (SUse k us).
Proof. intros k us N P r _. enter; [apply ts_seqt; apply ts_useStatement; assumption|reflexivity]. Qed.

(** Loops: a statement, or a list between a colon and a word *)
Lemma ts_body : forall n k s r, rule n = alts [IN n_statement; seqs [IT T_COLON; IN n_innerStatementList; IT k; IN n_semicolonOrCloseTag]] -> special n = false ->
  (forall vs, nodeOf n vs = match vs with [WSt s] => WSt s | [_; WSts l; _; WQ q] => WColon q l | _ => WBad end) ->
  forallb (fun t => nullable (rule n) || mem t (first (rule n))) simpleHeads = true ->
  stOk s = true -> simple s = true -> Stm s -> follows s r -> TakesS None (IN n) (stText s) r [WSt s].
Proof.
  intros n k s r RU SP NO F OK SI H FO. destruct (simple_heads s OK SI) as [HI HN].
  eapply ts_N; [exact SP|eapply enter_in; [exact HI|exact HN|exact F]| |].
  - rewrite RU. cbn [alts]. apply ts_alt_l; [eapply test_in; [exact HI|exact HN|discriminate|comp]|]. apply H, FO.
  - rewrite NO. reflexivity.
Qed.
Lemma ts_colon : forall n k q l r, rule n = alts [IN n_statement; seqs [IT T_COLON; IN n_innerStatementList; IT k; IN n_semicolonOrCloseTag]] -> special n = false ->
  (forall vs, nodeOf n vs = match vs with [WSt s] => WSt s | [_; WSts l; _; WQ q] => WColon q l | _ => WBad end) ->
  nullable (rule n) || mem T_COLON (first (rule n)) = true -> inStop k [T_ENDIF; T_ENDFOREACH; T_ENDFOR; T_ENDWHILE; T_ENDDECLARE] = true ->
  Lst l -> TakesS None (IN n) (T_COLON :: flat_map stText l ++ [k; termTok q]) r [WColon q l].
Proof.
  intros n k q l r RU SP NO F K H. eapply ts_N; [exact SP|exact F| |].
  - rewrite RU. cbn [alts seqs]. no. unfold inStop in K. apply existsb_exists in K as (k' & HK & EK). apply teq_eq in EK. subst k'.
    apply ts_alt_l; [reflexivity|]. apply ts_seqt. apply ts_seqv.
    + cbn in HK. repeat (destruct HK as [<-|HK]; [apply H; [reflexivity|intros _; reflexivity]|]). contradiction.
    + apply ts_seqt, ts_term.
  - rewrite NO. reflexivity.
Qed.
Lemma st_while : forall c a, plain c = true -> stOk a = true -> simple a = true -> Stm a -> Stm (SWhile c a).
Proof.
  intros c a P OK SI H r FO. enter. - apply ts_seqt. apply ts_seqt. apply ts_seqv; [apply (ts_expr rs); [exact P|comp]|]. apply ts_seqt.
  eapply ts_body; [reflexivity|reflexivity|intros; reflexivity|comp|exact OK|exact SI|exact H|exact FO].
  - reflexivity.
Qed.
Lemma st_whileC : forall q c l, plain c = true -> Lst l -> Stm (SWhileC q c l).
Proof.
  intros q c l P H r FO. enter. - apply ts_seqt. apply ts_seqt. apply ts_seqv; [apply (ts_expr rs); [exact P|comp]|]. apply ts_seqt.
  eapply ts_colon; [reflexivity|reflexivity|intros; reflexivity|comp|reflexivity|exact H].
  - reflexivity.
Qed.
Lemma st_do : forall q a c, plain c = true -> Stm a -> Stm (SDo q a c).
Proof.
  intros q a c P H r FO. enter. - apply ts_seqt. apply ts_seqv; [apply H; split; [reflexivity|intros _; reflexivity]|].
  apply ts_seqt. apply ts_seqt. apply ts_seqv; [apply (ts_expr rs); [exact P|comp]|]. apply ts_seqt. apply ts_term.
  - reflexivity.
Qed.
Lemma st_for : forall i c s a, forallb plain i = true -> forallb plain c = true -> forallb plain s = true -> stOk a = true -> simple a = true -> Stm a -> Stm (SFor i c s a).
Proof.
  intros i c s a P1 P2 P3 OK SI H r FO. enter. - apply ts_seqt. apply ts_seqt. apply ts_seqv; [apply (ts_for rs); [now left|exact P1]|]. apply ts_seqt.
  apply ts_seqv; [apply (ts_for rs); [now left|exact P2]|]. apply ts_seqt. apply ts_seqv; [apply (ts_for rs); [now right|exact P3]|]. apply ts_seqt.
  eapply ts_body; [reflexivity|reflexivity|intros; reflexivity|comp|exact OK|exact SI|exact H|exact FO].
  - reflexivity.
Qed.
Lemma st_forC : forall q i c s l, forallb plain i = true -> forallb plain c = true -> forallb plain s = true -> Lst l -> Stm (SForC q i c s l).
Proof.
  intros q i c s l P1 P2 P3 H r FO. enter. - apply ts_seqt. apply ts_seqt. apply ts_seqv; [apply (ts_for rs); [now left|exact P1]|]. apply ts_seqt.
  apply ts_seqv; [apply (ts_for rs); [now left|exact P2]|]. apply ts_seqt. apply ts_seqv; [apply (ts_for rs); [now right|exact P3]|]. apply ts_seqt.
  eapply ts_colon; [reflexivity|reflexivity|intros; reflexivity|comp|reflexivity|exact H].
  - reflexivity.
Qed.
End T.
