(** Files. *)
From Coq Require Import List Bool NArith ZArith Lia Arith.
From Verif Require Import Chars LexModel ParseModel ParseSpec ParseProofs PexSpec PexProofs PexProofs2 PexProofs4 PexPath PexPath2 PexProofs5 PexEvery PexProofs6 StSpec StTakes StNames StParts StProofs StProofs2 StProofs3 StProofs4 StProofs5.
Import ListNotations.
Open Scope nat_scope.

Section T.
Variable rs : Gen.
Context {Fs : Functions} {FsR : FunctionsRead rs}.
Notation TakesS := (TakesS rs).
Notation Top := (Top rs).
Notation Lst := (Lst rs).

Lemma top_st : forall s, stOk s = true -> Top s.
Proof. intros s OK. exact (proj1 (every_st rs _ s (le_n _) OK)). Qed.
Lemma lst_st : forall l, forallb stOk l = true -> Lst l.
Proof. intros l OK. apply (lst_all rs); [exact OK|]. intros s IS. apply top_st. exact (forallb_In _ _ _ _ OK IS). Qed.

Lemma fi_heads : forall f, fiOk f = true -> In (hd T_EOF (fiText f)) (T_NAMESPACE :: topHeads) /\ fiText f <> [].
Proof.
  intros [s|n|o l] OK; cbn [fiText]; [|split; [now left|discriminate]|split; [now left|discriminate]].
  destruct (top_heads rs s OK) as [HI HN]. split; [now right|exact HN].
Qed.
Lemma ts_fi : forall f r, fiOk f = true -> outside [T_CATCH; T_FINALLY; T_ELSE; T_ELSEIF] r -> TakesS None (IN n_outerTopStatement) (fiText f) r [WFi f].
Proof.
  intros [s|n|o l] r OK O; cbn [fiOk fiText] in *.
  - destruct (top_heads rs s OK) as [HI HN]. eapply ts_N; [reflexivity|eapply enter_in; [exact HI|exact HN|comp]| |].
    + cbn [rule alts]. apply ts_alt_r; [eapply test_out; [exact HI|exact HN|discriminate|comp]|].
      apply ts_alt_l; [eapply test_in; [exact HI|exact HN|discriminate|comp]|]. apply top_st; [exact OK|]. split; [|intros _]; (eapply out_less; [|exact O]; reflexivity).
    + reflexivity.
  - destruct (parts_hd n) as [w EW]. eapply ts_N; [reflexivity|comp| |].
    + cbn [rule alts]. yes. eapply ts_N; [reflexivity|comp| |].
      * cbn [rule alts seqs]. apply ts_seqt. apply ts_alt_l; [rewrite EW; comp|]. apply ts_seq; [apply ts_parts; [discriminate|discriminate]|]. yes. apply ts_tok.
      * cbn [nodeOf rev]. rewrite rev_app_distr. cbn [rev app]. rewrite rev_app_distr, rev_involutive. cbn [rev app]. unfold partsOf.
        rewrite pick_tok, pick_parts. cbn [gives repeat]. now rewrite repeat_length.
    + reflexivity.
  - eapply ts_N; [reflexivity|comp| |].
    + cbn [rule alts]. yes. apply (ts_N rs _ _ _ _ (WTok T_NAMESPACE :: match o with Some n => partVals n | None => [] end ++ [WTok T_LBRACE; WSts l; WTok T_RBRACE]) (WFi (FNsBlock o l))); [reflexivity|comp| |].
      * cbn [rule alts seqs]. apply ts_seqt. destruct o as [n|].
        -- destruct (parts_hd n) as [w EW]. apply ts_alt_l; [rewrite EW; comp|]. apply ts_seq; [apply ts_parts; [discriminate|discriminate]|]. no. yes. apply ts_block, lst_st, OK.
        -- cbn [app]. no. no. yes. apply ts_block, lst_st, OK.
      * destruct o as [n|]; [|reflexivity]. cbn [nodeOf rev]. rewrite rev_app_distr. cbn [rev app]. rewrite partVals_rev.
        destruct (partVals n) as [|v vs] eqn:EV; [destruct n; discriminate EV|]. cbn [app].
        assert (PV : rev (partVals n ++ [WTok T_NAMESPACE]) = WTok T_NAMESPACE :: partVals n) by (rewrite rev_app_distr, partVals_rev; reflexivity).
        rewrite EV in PV. cbn [app] in PV. destruct v; try (destruct n; discriminate EV).
        change (rev (WPart :: vs ++ [WTok T_NAMESPACE])) with (rev (WPart :: (vs ++ [WTok T_NAMESPACE]))) in PV.
        assert (G : partsOf (rev (WPart :: vs ++ [WTok T_NAMESPACE])) (fun k => WFi (FNsBlock (Some k) l)) = WFi (FNsBlock (Some n) l)).
        { rewrite PV. unfold partsOf. rewrite <- EV, pick_tok, pick_parts. cbn [gives repeat]. now rewrite repeat_length. }
        destruct vs as [|v2 vs]; exact G.
    + reflexivity.
Qed.
Theorem source_read : forall fs, forallb fiOk fs = true ->
  exists t, sourceRead t = Some fs /\ exists f0, forall f, f0 <= f -> parseFile rs f (sourceOf fs) = Some (Accepted t []).
Proof.
  intros fs OK. set (s := initial (sourceOf fs)).
  assert (H : TakesS None (IStar (IN n_outerTopStatement)) (sourceOf fs) [] (map WFi fs)).
  { apply (ts_many rs None _ _ fiText WFi); [|reflexivity]. intros f l1 l2 EQ. pose proof (in_split _ _ _ _ _ EQ) as IX. pose proof (forallb_In _ _ _ _ OK IX) as OF.
    destruct (fi_heads f OF) as [HI HN]. split; [eapply first_in; [exact HI|exact HN|comp]|]. apply ts_fi; [exact OF|].
    destruct l2 as [|g l2]; [reflexivity|]. assert (IG : In g fs) by (rewrite EQ; apply in_or_app; right; right; now left).
    destruct (fi_heads g (forallb_In _ _ _ _ OK IG)) as [HI2 HN2]. cbn [flat_map]. rewrite <- app_assoc. eapply out_heads; [exact HI2|exact HN2|comp]. }
  destruct (H s) as (ts & s' & RU & RD & (C1 & C2 & C3 & C4) & _); [unfold s; now rewrite app_nil_r|reflexivity|exact I|].
  exists (Node n_start 0 ts (pos s')). split.
  - cbn [sourceRead]. rewrite RD. apply pick_map. intros x. split; reflexivity.
  - destruct RU as [f0 RU]. exists f0. intros f F. unfold parseFile. fold s. change (rule n_start) with (IStar (IN n_outerTopStatement)).
    rewrite (run_mono _ _ _ _ _ _ F RU). rewrite C1, C2. reflexivity.
Qed.
End T.
