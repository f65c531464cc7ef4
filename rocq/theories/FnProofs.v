(** Functions without a name, inside each other to any depth. *)
From Coq Require Import List Bool NArith ZArith Lia Arith.
From Verif Require Import Chars LexModel ParseModel ParseSpec ParseProofs PexSpec PexProofs PexProofs2 PexProofs4 PexPath PexPath2 PexProofs5 PexEvery PexProofs6 StSpec StTakes StNames StParts StProofs StProofs2 StProofs3 StProofs4 StProofs5 StFile.
Import ListNotations.
Open Scope nat_scope.

Section T.
Variable rs : Gen.
Context {Fs : Functions} {FsR : FunctionsRead rs}.
Notation TakesS := (TakesS rs).

Lemma ts_useVar : forall b r, TakesS None (IN n_lexicalVar) (flag b T_BIT_AND ++ [T_VARIABLE]) r [WUseVar b].
Proof.
  intros b r. apply (ts_N rs None _ _ _ ((if b then [WTok T_BIT_AND] else []) ++ [WPart])); [reflexivity|destruct b; comp| |destruct b; reflexivity].
  cbn [rule seqs]. apply ts_seq; [apply ts_opt; [exact []|discriminate|intros _; reflexivity]|apply ts_varId].
Qed.
Lemma ts_uses : forall l r, l <> [] ->
  TakesS None (IN n_lexicalVarList) (joined T_COMMA (map (fun b => flag b T_BIT_AND ++ [T_VARIABLE]) l)) (T_RPAREN :: r) [WUseVars l].
Proof.
  intros l r N. apply (ts_N rs None _ _ _ (inter T_COMMA (map WUseVar l))); [reflexivity| | |].
  - apply enter_nullable. comp.
  - cbn [rule alts]. apply ts_alt_l.
    + destruct l as [|b l]; [congruence|]. cbn [map]. rewrite joined_behind. destruct b; comp.
    + apply ts_sepBy; [exact N| |discriminate]. intros x l1 l2 _. split; [apply ts_useVar|]. destruct x; discriminate.
  - cbn [nodeOf]. rewrite (pick_inter _ getUseVar WUseVar) by (intros; split; reflexivity). reflexivity.
Qed.
Definition useVals (l : list bool) : list sv := match l with [] => [] | _ => [WTok T_USE; WTok T_LPAREN; WUseVars l; WTok T_RPAREN] end.
Lemma ts_useClause : forall l r, outside [T_USE] r ->
  TakesS None (alts [seqs [IT T_USE; IT T_LPAREN; IN n_lexicalVarList; IT T_RPAREN]; IEps]) (usesText l) r (useVals l).
Proof.
  intros l r O. cbn [alts seqs]. destruct l as [|b l].
  - cbn [usesText useVals]. apply ts_alt_r; [|apply ts_alt_l; [reflexivity|apply ts_eps]]. cbn [app]. eapply out_test; [discriminate| |exact O]. comp.
  - unfold usesText, useVals, parens. yes. apply ts_seqt. apply ts_seqt. apply ts_seqv; [apply ts_uses; discriminate|apply ts_tok].
Qed.
Lemma ret_outside : forall L t w, inStop T_COLON L = false -> inStop T_LBRACE L = false -> outside L (retText t ++ T_LBRACE :: w).
Proof. intros L [|h t] w H1 H2; [exact H2|exact H1]. Qed.

Lemma ts_fn : forall f r, fnOk f = true -> TakesS None (IN n_closure) (fnText f) r [WFn f].
Proof.
  intros f r OK. unfold fnOk in OK. apply andb_true_iff in OK as [OK OB]. apply andb_true_iff in OK as [OP _]. destruct f as [b ps us t l]. cbn [f_params f_ret f_body] in *.
  unfold fnText. cbn [f_ref f_params f_uses f_ret f_body].
  apply (ts_N rs None _ _ _ ([WTok T_FUNCTION] ++ (if b then [WTok T_BIT_AND] else []) ++ [WTok T_LPAREN; WParams ps; WTok T_RPAREN]
      ++ useVals us ++ (match t with [] => [] | _ => [WTok T_COLON; WType t] end) ++ [WTok T_LBRACE; WSts l; WTok T_RBRACE]));
    [reflexivity|comp| |destruct b, us, t; reflexivity].
  cbn [rule seqs]. norm. apply ts_seqt. apply ts_seq; [apply ts_opt; [exact []|discriminate|intros _; reflexivity]|].
  apply ts_seqt. apply ts_seqv; [apply (ts_params rs), OP|]. apply ts_seqt.
  apply ts_seq; [apply ts_useClause|].
  - rewrite <- app_assoc. cbn [app]. apply ret_outside; reflexivity.
  - apply ts_seq; [apply ts_ret; reflexivity|]. apply ts_block, (lst_st rs), OB.
Qed.
End T.

#[global] Instance functionsRead : forall rs n, @FunctionsRead rs (closures n).
Proof.
  intros rs n. induction n as [|n IH]; intros f OK; [destruct f|]. cbn [closures fun_ funOk funText] in *.
  split.
  - unfold fnText, parens. destruct (f_ref f); cbn [flag app]; [right|left]; eexists; reflexivity.
  - intros r s R V. destruct (@ts_fn rs (closures n) IH f r OK s R V I) as (ts & s' & RU & RD & (C1 & C2 & C3 & C4) & _).
    destruct (node_shape rs _ _ _ _ RU) as (p & ch & b & ->). cbn [map] in RD.
    exists (Node n_closure p ch b), s'. split; [exact RU|]. split; [|auto].
    assert (E : readS (Node n_closure p ch b) = WFn f) by congruence.
    cbn [read funRead closures]. unfold fnRead. rewrite E. reflexivity.
Qed.

Theorem file_readN : forall n g (es : list (@ex (closures n))), (forall e, In e es -> plain e = true) ->
  exists t, expressionsOf t = Some (map Some es) /\ exists f0, forall f, f0 <= f -> parseFile g f (fileOf es) = Some (Accepted t []).
Proof. intros n g. exact (file_read g). Qed.
Theorem source_readN : forall n g (fs : list (@fi (closures n))), forallb fiOk fs = true ->
  exists t, sourceRead t = Some fs /\ exists f0, forall f, f0 <= f -> parseFile g f (sourceOf fs) = Some (Accepted t []).
Proof. intros n g. exact (source_read g). Qed.

Theorem source_one : forall n (fs fs' : list (@fi (closures n))), forallb fiOk fs = true -> forallb fiOk fs' = true -> sourceOf fs = sourceOf fs' -> fs = fs'.
Proof.
  intros n fs fs' O1 O2 E. set (g := {| resync := fun _ _ => true; unblocks := true |}).
  destruct (source_read g fs O1) as (t & R & f0 & H). destruct (source_read g fs' O2) as (t' & R' & f1 & H').
  specialize (H (f0 + f1) ltac:(lia)). specialize (H' (f0 + f1) ltac:(lia)). rewrite E, H' in H. injection H as ->. congruence.
Qed.

#[local] Instance none : Functions := closures 0.
Theorem initial_value : exists e : ex, plain e = true /\
  forall g f r, parseFile g f ([T_OPEN_TAG; T_STATIC; T_VARIABLE; T_ASSIGN] ++ text e ++ [T_SEMICOLON]) = Some r -> exists ps, r = Rejected ps.
Proof.
  exists (EBin OPlus ENum ENum). split; [reflexivity|]. intros g f r H.
  assert (X : exists ps, forall h, 100 <= h -> parseFile g h ([T_OPEN_TAG; T_STATIC; T_VARIABLE; T_ASSIGN] ++ text (EBin OPlus ENum ENum) ++ [T_SEMICOLON]) = Some (Rejected ps)).
  { assert (Y : exists s', run g 100 (rule n_start) (initial ([T_OPEN_TAG; T_STATIC; T_VARIABLE; T_ASSIGN] ++ text (EBin OPlus ENum ENum) ++ [T_SEMICOLON])) = Some (Fail s')) by (eexists; vm_compute; reflexivity).
    destruct Y as [s' Y]. eexists. intros h L. unfold parseFile. rewrite (run_mono _ _ _ _ _ _ L Y). reflexivity. }
  destruct X as [ps X]. exists ps. specialize (X (100 + f) ltac:(lia)). unfold parseFile in *.
  destruct (run g f (rule n_start) _) as [x|] eqn:E; [|discriminate H]. rewrite (run_mono g f (100 + f) _ _ _ ltac:(lia) E) in X. congruence.
Qed.
