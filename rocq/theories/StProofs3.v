(** foreach, try, functions. *)
From Coq Require Import List Bool NArith ZArith Lia Arith.
From Verif Require Import Chars LexModel ParseModel ParseSpec ParseProofs PexSpec PexProofs PexProofs2 PexProofs4 PexPath PexPath2 PexProofs5 PexEvery PexProofs6 StSpec StTakes StNames StParts StProofs StProofs2.
Import ListNotations.
Open Scope nat_scope.

Section T.
Variable rs : Gen.
Context {Fs : Functions} {FsR : FunctionsRead rs}.
Notation TakesS := (TakesS rs).
Notation Stm := (Stm rs).
Notation Lst := (Lst rs).
Notation Top := (Top rs).
Ltac endspath := unfold endsPath, quiet, nodim; repeat split; discriminate.
Ltac enter := eapply ts_N; [reflexivity|comp|cbn [rule alts seqs stText]; go; norm|].

Definition arrowText (y : option (bool * ex)) : list Tok := optText T_DOUBLE_ARROW (option_map targetText y).
Definition yOk (y : option (bool * ex)) : bool := match y with Some z => targetOk z | None => true end.
Lemma ts_foreachHead : forall v x y b w r vb, path v = true -> plain v = true -> targetOk x = true -> yOk y = true -> TakesS None b w r vb ->
  TakesS None (ISeq (IRollback (seqs [IN n_variable; IT T_AS; IN n_foreachVariable]) (seqs [IN n_expr; IT T_AS; IN n_variable]))
      (ISeq (alts [seqs [IT T_DOUBLE_ARROW; IN n_foreachVariable]; IEps]) (ISeq (IT T_RPAREN) b)))
    (text v ++ T_AS :: targetText x ++ arrowText y ++ T_RPAREN :: w) r
    ([WEx v; WTok T_AS; WTarget x] ++ (match y with Some z => [WTok T_DOUBLE_ARROW; WTarget z] | None => [] end) ++ WTok T_RPAREN :: vb).
Proof.
  intros v x y b w r vb PV PL TX TY H.
  replace (text v ++ T_AS :: targetText x ++ arrowText y ++ T_RPAREN :: w) with ((text v ++ T_AS :: targetText x) ++ arrowText y ++ T_RPAREN :: w) by (rewrite <- app_assoc; reflexivity).
  apply ts_seq.
  - apply ts_rollback. cbn [seqs]. apply ts_seqv; [apply (ts_variable rs); [exact PL|exact PV|endspath]|]. apply ts_seqt.
    destruct y as [z|]; unfold arrowText; cbn [option_map optText app]; (apply (ts_target rs); [exact TX|]); [now left|now right].
  - apply ts_seq; [|apply ts_seqt, H]. cbn [alts seqs]. destruct y as [z|]; unfold arrowText; cbn [option_map optText app].
    + yes. apply ts_seqt. apply (ts_target rs); [exact TY|now right].
    + no. yes. apply ts_eps.
Qed.
Lemma st_foreach : forall v x y a, path v = true -> plain v = true -> targetOk x = true -> yOk y = true -> stOk a = true -> simple a = true -> Stm a -> Stm (SForeach v x y a).
Proof.
  intros v x y a P1 P2 P3 P4 OK SI H r FO. enter.
  - fold (arrowText y). apply ts_seqt, ts_seqt. apply ts_foreachHead; [exact P1|exact P2|exact P3|exact P4|].
    eapply (ts_body rs); [reflexivity|reflexivity|intros; reflexivity|comp|exact OK|exact SI|exact H|exact FO].
  - destruct y; reflexivity.
Qed.
Lemma st_foreachC : forall q v x y l, path v = true -> plain v = true -> targetOk x = true -> yOk y = true -> Lst l -> Stm (SForeachC q v x y l).
Proof.
  intros q v x y l P1 P2 P3 P4 H r FO. enter.
  - fold (arrowText y). apply ts_seqt, ts_seqt. apply ts_foreachHead; [exact P1|exact P2|exact P3|exact P4|].
    eapply ts_colon; [reflexivity|reflexivity|intros; reflexivity|comp|reflexivity|exact H].
  - destruct y; reflexivity.
Qed.

(** try *)
Definition catchText (c : list name * list st) : list Tok :=
  T_CATCH :: parens (joined T_BIT_OR (map nameText (fst c)) ++ [T_VARIABLE]) ++ T_LBRACE :: flat_map stText (snd c) ++ [T_RBRACE].
Definition finText (f : option (list st)) : list Tok := match f with Some x => T_FINALLY :: T_LBRACE :: flat_map stText x ++ [T_RBRACE] | None => [] end.
Lemma ts_catchNames : forall ns r, ns <> [] ->
  TakesS None (IList (IN n_namespacedIdentifier) T_BIT_OR None) (joined T_BIT_OR (map nameText ns)) (T_VARIABLE :: r) (inter T_BIT_OR (map WName ns)).
Proof.
  intros ns r N. apply ts_sepBy; [exact N| |discriminate]. intros y l1 l2 EQ. split; [|exact I].
  apply ts_name. apply out_behind; reflexivity.
Qed.
Lemma ts_catch : forall c r, fst c <> [] -> Lst (snd c) -> TakesS None (IN n_catchItem) (catchText c) r [WCatch c].
Proof.
  intros [ns l] r N H. unfold catchText. cbn [fst snd] in *. eapply ts_N; [reflexivity|comp| |].
  - cbn [rule seqs]. norm. apply ts_seqt, ts_seqt. apply ts_seq; [apply ts_catchNames, N|].
    change (T_VARIABLE :: T_RPAREN :: T_LBRACE :: flat_map stText l ++ [T_RBRACE]) with ([T_VARIABLE] ++ T_RPAREN :: T_LBRACE :: flat_map stText l ++ [T_RBRACE]).
    apply ts_seqv; [apply ts_varId|]. apply ts_seqt. apply ts_block, H.
  - cbn [nodeOf rev]. rewrite rev_app_distr. cbn [rev app]. cbn [rev app]. rewrite <- !app_assoc. cbn [app].
    rewrite rev_app_distr, rev_involutive. cbn [rev app]. rewrite !pick_tok. rewrite (pick_inter _ getName WName) by (intros; split; reflexivity). reflexivity.
Qed.
Lemma st_try : forall l cs f, Lst l -> forallb (fun c => some (fst c) && forallb stOk (snd c)) cs = true -> (forall c, In c cs -> Lst (snd c)) -> (forall x, f = Some x -> Lst x) -> Stm (STry l cs f).
Proof.
  intros l cs f HL OK HC HF r [F1 _].
  apply (ts_N rs _ _ _ _ ([WTok T_TRY; WTok T_LBRACE; WSts l; WTok T_RBRACE] ++ map WCatch cs ++
     match f with Some x => [WTok T_FINALLY; WTok T_LBRACE; WSts x; WTok T_RBRACE] | None => [] end)); [reflexivity|comp| |].
  - cbn [rule alts seqs stText]. go. norm. fold (finText f). change (flat_map _ cs) with (flat_map catchText cs). cbn [app].
    apply ts_seqt, ts_seqt. apply ts_seqv; [apply ts_recover, lst_brace, HL|]. apply ts_seqt. apply ts_seq.
    + apply (ts_many rs None _ _ catchText WCatch).
      * intros c l1 l2 EQ. pose proof (in_split _ _ _ _ _ EQ) as IC. split; [comp|]. pose proof (forallb_In _ _ _ _ OK IC) as X. cbv beta in X. apply andb_true_iff in X as [X _].
        apply ts_catch; [apply some_nonempty, X|exact (HC c IC)].
      * destruct f as [x|]; [reflexivity|]. cbn [finText app]. apply (out_first [T_CATCH; T_FINALLY]); [comp|exact F1].
    + destruct f as [x|]; cbn [finText].
      * yes. apply ts_seqt, ts_seqt. apply ts_seqv; [apply lst_brace, (HF x eq_refl)|apply ts_tok].
      * apply ts_alt_r; [|yes; apply ts_eps]. cbn [app]. apply (out_test [T_CATCH; T_FINALLY]); [discriminate|comp|exact F1].
  - cbn [app nodeOf readWord]. destruct f as [x|].
    + rewrite rev_app_distr. cbn [rev app]. rewrite rev_involutive. rewrite (pick_map _ getCatch WCatch) by (intros; split; reflexivity). reflexivity.
    + rewrite app_nil_r. rewrite <- map_rev. rewrite (pick_map _ getCatch WCatch) by (intros; split; reflexivity). destruct (rev cs); reflexivity.
Qed.

(** ** Declarations *)
Lemma top_halt : Top SHalt.
Proof. intros r _. eapply ts_N; [reflexivity|comp| |]. - cbn [rule alts seqs stText]. go. apply ts_seqt, ts_seqt, ts_seqt, ts_tok. - reflexivity. Qed.
Lemma top_function : forall b ps t l, forallb paramOk ps = true -> Lst l -> Top (SFunction b ps t l).
Proof.
  intros b ps t l P H r _. eapply ts_N; [reflexivity|comp| |].
  - cbn [rule alts seqs stText]. no || (apply ts_alt_r; [destruct b; comp|]). apply ts_alt_l; [destruct b; comp|].
    apply (ts_N rs _ _ _ _ ([WTok T_FUNCTION] ++ (if b then [WTok T_BIT_AND] else []) ++ [WPart; WTok T_LPAREN; WParams ps; WTok T_RPAREN]
      ++ (match t with [] => [] | _ => [WTok T_COLON; WType t] end) ++ [WTok T_LBRACE; WSts l; WTok T_RBRACE]) (WSt (SFunction b ps t l)));
      [reflexivity|destruct b; comp| |destruct b, t; reflexivity].
    cbn [rule seqs]. norm. apply ts_seqt. apply ts_seq; [apply ts_opt; [exact []|discriminate|intros _; reflexivity]|].
    change (T_STRING :: ?w) with ([T_STRING] ++ w). apply ts_seqv; [apply ts_ident|]. apply ts_seqt. apply ts_seqv; [apply (ts_params rs), P|]. apply ts_seqt.
    apply ts_seq; [apply ts_ret; reflexivity|]. apply ts_block, H.
  - reflexivity.
Qed.
End T.
