(** Statements made of statements: conditions, cases, foreach, declare, try. *)
From Coq Require Import List Bool NArith ZArith Lia Arith.
From Verif Require Import Chars LexModel ParseModel ParseSpec ParseProofs PexSpec PexProofs PexProofs2 PexProofs4 PexPath PexPath2 PexProofs5 PexEvery PexProofs6 StSpec StTakes StNames StParts StProofs.
Import ListNotations.
Open Scope nat_scope.

Section T.
Variable rs : Gen.
Context {Fs : Functions} {FsR : FunctionsRead rs}.
Notation TakesS := (TakesS rs).
Notation Stm := (Stm rs).
Notation Lst := (Lst rs).
Notation Top := (Top rs).

Ltac enter := eapply ts_N; [reflexivity|comp|cbn [rule alts seqs stText]; go; norm|].
Lemma butlast_in : forall A (f : A -> bool) l l1 x y l2, allButLast f l = true -> l = l1 ++ x :: y :: l2 -> f x = true.
Proof.
  intros A f l l1 x y l2 H ->. unfold allButLast in H. rewrite removelast_app in H by discriminate. rewrite forallb_app in H. apply andb_true_iff in H as [_ H].
  change (removelast (x :: y :: l2)) with (x :: removelast (y :: l2)) in H. cbn [forallb] in H. now apply andb_true_iff in H as [H _].
Qed.
Definition elifText (p : ex * st) : list Tok := T_ELSEIF :: parens (text (fst p)) ++ stText (snd p).
Definition elseText (b : option st) : list Tok := match b with Some x => T_ELSE :: stText x | None => [] end.
Lemma ts_elif : forall p r, plain (fst p) = true -> Stm (snd p) -> follows (snd p) r -> TakesS None (IN n_elseifListItem) (elifText p) r [WElif p].
Proof.
  intros [c s] r P H F. unfold elifText. cbn [fst snd]. eapply ts_N; [reflexivity|comp| |].
  - cbn [rule seqs]. norm. apply ts_seqt, ts_seqt. apply ts_seqv; [apply (ts_expr rs); [exact P|comp]|]. apply ts_seqt. apply H, F.
  - reflexivity.
Qed.
Lemma ts_elifs : forall es r, (forall p, In p es -> plain (fst p) = true /\ Stm (snd p)) -> allButLast (fun p => closed (snd p)) es = true ->
  outside [T_ELSEIF] r -> (forall l x, es = l ++ [x] -> follows (snd x) r) -> TakesS None (IN n_elseifList) (flat_map elifText es) r [WElifs es].
Proof.
  intros es r H AB O L. eapply ts_N; [reflexivity|apply enter_nullable; comp| |].
  - cbn [rule]. apply (ts_many rs None _ _ elifText WElif).
    + intros p l1 l2 EQ. destruct (H p (in_split _ _ _ _ _ EQ)) as [P S_]. split; [comp|]. apply ts_elif; [exact P|exact S_|].
      destruct l2 as [|y l2]; [apply (L l1 p EQ)|]. split; [reflexivity|]. rewrite (butlast_in _ _ _ _ _ _ _ AB EQ). discriminate.
    + apply (out_first [T_ELSEIF]); [comp|exact O].
  - cbn [nodeOf]. rewrite (pick_map _ getElif WElif) by (intros; split; reflexivity). reflexivity.
Qed.
Lemma ts_else : forall b r, (forall x, b = Some x -> Stm x /\ follows x r) -> outside (match b with Some _ => [] | None => [T_ELSE] end) r -> TakesS None (IN n_elseSingle) (elseText b) r [WElse b].
Proof.
  intros b r H O. apply (ts_N rs _ _ _ _ (match b with Some x => [WTok T_ELSE; WSt x] | None => [] end)); [reflexivity|apply enter_nullable; comp| |destruct b; reflexivity].
  cbn [rule alts seqs]. destruct b as [x|]; cbn [elseText].
  - yes. apply ts_seqt. destruct (H x eq_refl) as [A B]. apply A, B.
  - apply ts_alt_r; [|yes; apply ts_eps]. cbn [app]. apply (out_test [T_ELSE]); [discriminate|comp|exact O].
Qed.

Ltac split_ok H := repeat match type of H with (_ && _ = true) => let H2 := fresh "OK" in apply andb_true_iff in H as [H H2] end.
Lemma out_two : forall r, outside [T_ELSE; T_ELSEIF] r -> outside [T_ELSE] r /\ outside [T_ELSEIF] r.
Proof. intros r H. split; (eapply out_less; [|exact H]; reflexivity). Qed.
Lemma st_if : forall c a es b, stOk (SIf c a es b) = true -> Stm a -> (forall p, In p es -> Stm (snd p)) -> (forall x, b = Some x -> Stm x) -> Stm (SIf c a es b).
Proof.
  intros c a es b OK HA HE HB r [F1 F2]. cbn [stOk] in OK. cbn [closed] in F2.
  apply andb_true_iff in OK as [OK O6]. apply andb_true_iff in OK as [OK O5]. apply andb_true_iff in OK as [OK O4]. apply andb_true_iff in OK as [OK O3].
  apply andb_true_iff in OK as [OK O2]. apply andb_true_iff in OK as [OC OA].
  assert (HE2 : forall p, In p es -> plain (fst p) = true /\ Stm (snd p)).
  { intros p IP. split; [|exact (HE p IP)]. pose proof (forallb_In _ _ _ _ O3 IP) as X. cbv beta in X. apply andb_true_iff in X as [X _]. now apply andb_true_iff in X as [X _]. }
  assert (FA : follows a (flat_map elifText es ++ elseText b ++ r)).
  { destruct es as [|e es]; [destruct b as [x|]|].
    - split; [reflexivity|]. rewrite orb_false_r in O6. rewrite O6. discriminate.
    - cbn [flat_map app elseText]. split; [exact F1|]. intros _. apply F2. reflexivity.
    - split; [reflexivity|]. rewrite orb_false_r in O6. rewrite O6. discriminate. }
  destruct (simple_heads rs a OA O2) as [HI HN].
  eapply ts_N; [reflexivity|comp| |].
  - cbn [rule alts seqs stText]. go. norm. apply ts_seqt, ts_seqt. apply ts_seqv; [apply (ts_expr rs); [exact OC|comp]|]. apply ts_seqt.
    apply ts_alt_r; [rewrite <- app_assoc; eapply test_out; [exact HI|exact HN|discriminate|comp]|].
    apply ts_alt_l; [rewrite <- app_assoc; eapply test_in; [exact HI|exact HN|discriminate|comp]|].
    fold (elseText b). change (flat_map (fun p => T_ELSEIF :: T_LPAREN :: (text (fst p) ++ [T_RPAREN]) ++ stText (snd p)) es) with (flat_map elifText es).
    apply ts_seqv; [apply HA; rewrite <- app_assoc; exact FA|]. apply ts_seqv.
    + apply ts_elifs; [exact HE2|exact O5| |].
      * destruct b as [x|]; [reflexivity|]. cbn [elseText app]. apply out_two, F2. reflexivity.
      * intros l x EQ. destruct b as [y|].
        -- split; [reflexivity|]. apply andb_true_iff in O4 as [_ O4]. pose proof (forallb_In _ _ _ _ O4 (in_split _ _ _ _ _ EQ)) as X. cbv beta in X. rewrite X. discriminate.
        -- split; [exact F1|]. intros _. apply F2. reflexivity.
    + apply ts_else.
      * intros x EB. split; [exact (HB x EB)|]. subst b. split; [exact F1|exact F2].
      * destruct b as [x|]; [reflexivity|]. apply out_two, F2. reflexivity.
  - reflexivity.
Qed.

Definition elifCText (p : ex * list st) : list Tok := T_ELSEIF :: parens (text (fst p)) ++ T_COLON :: flat_map stText (snd p).
Definition elseCText (b : option (list st)) : list Tok := match b with Some x => T_ELSE :: T_COLON :: flat_map stText x | None => [] end.
Lemma ts_elifC : forall p r, plain (fst p) = true -> Lst (snd p) -> inStop (hd T_EOF r) listEnds = true -> (closedList (snd p) = false -> outside [T_ELSE; T_ELSEIF] r) ->
  TakesS None (IN n_newelseifListItem) (elifCText p) r [WElifC p].
Proof.
  intros [c s] r P H F1 F2. unfold elifCText. cbn [fst snd]. eapply ts_N; [reflexivity|comp| |].
  - cbn [rule seqs]. norm. apply ts_seqt, ts_seqt. apply ts_seqv; [apply (ts_expr rs); [exact P|comp]|]. apply ts_seqt, ts_seqt. apply H; [exact F1|exact F2].
  - reflexivity.
Qed.
Lemma st_ifC : forall q c a es b, stOk (SIfC q c a es b) = true -> Lst a -> (forall p, In p es -> Lst (snd p)) -> (forall x, b = Some x -> Lst x) -> Stm (SIfC q c a es b).
Proof.
  intros q c a es b OK HA HE HB r [F1 F2]. cbn [stOk] in OK.
  apply andb_true_iff in OK as [OK O6]. apply andb_true_iff in OK as [OK O5]. apply andb_true_iff in OK as [OK O4]. apply andb_true_iff in OK as [OK O3].
  apply andb_true_iff in OK as [OC OA].
  set (r2 := T_ENDIF :: termTok q :: r).
  eapply ts_N; [reflexivity|comp| |].
  - cbn [rule alts seqs stText]. go. norm. apply ts_seqt, ts_seqt. apply ts_seqv; [apply (ts_expr rs); [exact OC|comp]|]. apply ts_seqt.
    yes. fold (elseCText b). change (flat_map (fun p => T_ELSEIF :: parens (text (fst p)) ++ T_COLON :: flat_map stText (snd p)) es) with (flat_map elifCText es).
    apply ts_seqt. apply ts_seqv; [|apply ts_seqv; [|apply ts_seqv]].
    + apply HA; [destruct es; [destruct b|]; reflexivity|]. destruct es as [|e es]; [destruct b as [x|]|].
      * rewrite orb_false_r in O6. rewrite O6. discriminate.
      * intros _. reflexivity.
      * rewrite orb_false_r in O6. rewrite O6. discriminate.
    + eapply ts_N; [reflexivity|apply enter_nullable; comp| |].
      * cbn [rule]. apply (ts_many rs None _ _ elifCText WElifC).
        -- intros p l1 l2 EQ. pose proof (in_split _ _ _ _ _ EQ) as IP. split; [comp|].
           pose proof (forallb_In _ _ _ _ O3 IP) as X. cbv beta in X. apply andb_true_iff in X as [X _].
           apply ts_elifC; [exact X|exact (HE p IP)| |].
           ++ destruct l2; [destruct b|]; reflexivity.
           ++ destruct l2 as [|y l2]; [|rewrite (butlast_in _ _ _ _ _ _ _ O5 EQ); discriminate].
              destruct b as [y|]; [|intros _; reflexivity]. apply andb_true_iff in O4 as [_ O4]. pose proof (forallb_In _ _ _ _ O4 IP) as Y. cbv beta in Y. rewrite Y. discriminate.
        -- destruct b; reflexivity.
      * cbn [nodeOf]. rewrite (pick_map _ getElifC WElifC) by (intros; split; reflexivity). reflexivity.
    + apply (ts_N rs _ _ _ _ (match b with Some x => [WTok T_ELSE; WTok T_COLON; WSts x] | None => [] end) (WElseC b)); [reflexivity|apply enter_nullable; comp| |destruct b; reflexivity].
      cbn [rule alts seqs]. destruct b as [x|]; cbn [elseCText].
      * yes. apply ts_seqt, ts_seqt. apply (HB x eq_refl); [reflexivity|intros _; reflexivity].
      * no. yes. apply ts_eps.
    + apply ts_seqt, ts_term.
  - reflexivity.
Qed.

(** switch *)
Definition oneCase (c : option ex * list st) : list Tok := caseText (fst c) ++ T_COLON :: flat_map stText (snd c).
Lemma ts_case : forall c r, optOk (fst c) = true -> Lst (snd c) -> inStop (hd T_EOF r) [T_CASE; T_DEFAULT; T_RBRACE; T_ENDSWITCH] = true ->
  TakesS None (IN n_case_item) (oneCase c) r [WCase c].
Proof.
  intros [o l] r P H F. unfold oneCase. cbn [fst snd] in *.
  assert (L : TakesS None (IN n_innerStatementList) (flat_map stText l) r [WSts l]).
  { unfold inStop in F. apply existsb_exists in F as (k & HK & EK). apply teq_eq in EK. apply H; unfold outside; rewrite EK; cbn [In] in HK;
      repeat (destruct HK as [<-|HK]; [first [reflexivity|intros _; reflexivity]|]); contradiction. }
  apply (ts_N rs _ _ _ _ (match o with Some e => [WTok T_CASE; WEx e; WTok T_COLON; WSts l] | None => [WTok T_DEFAULT; WTok T_COLON; WSts l] end));
    [reflexivity|destruct o; comp| |destruct o; reflexivity].
  cbn [rule alts seqs]. destruct o as [e|]; cbn [caseText app].
  - yes. apply ts_seqt. apply ts_seqv; [apply (ts_expr rs); [exact P|comp]|].
    change (T_COLON :: flat_map stText l) with ([T_COLON] ++ flat_map stText l). apply ts_seqv; [yes; apply ts_tok|exact L].
  - no. yes. apply ts_seqt. change (T_COLON :: flat_map stText l) with ([T_COLON] ++ flat_map stText l). apply ts_seqv; [yes; apply ts_tok|exact L].
Qed.
Lemma ts_cases : forall cs r, forallb (fun p => optOk (fst p) && forallb stOk (snd p)) cs = true -> (forall p, In p cs -> Lst (snd p)) ->
  inStop (hd T_EOF r) [T_RBRACE; T_ENDSWITCH] = true -> TakesS None (IN n_caseList) (flat_map oneCase cs) r [WCases cs].
Proof.
  intros cs r OK H F. eapply ts_N; [reflexivity|apply enter_nullable; comp| |].
  - cbn [rule]. apply (ts_many rs None _ _ oneCase WCase).
    + intros p l1 l2 EQ. pose proof (in_split _ _ _ _ _ EQ) as IP. pose proof (forallb_In _ _ _ _ OK IP) as X. cbv beta in X. apply andb_true_iff in X as [X _].
      split; [destruct p as [[e|] l]; comp|]. apply ts_case; [exact X|exact (H p IP)|].
      destruct l2 as [|[[e|] l] l2]; [|reflexivity|reflexivity]. cbn [flat_map app].
      unfold inStop in *. apply existsb_exists in F as (k & HK & EK). apply existsb_exists. exists k. split; [|exact EK]. cbn [In] in *. tauto.
    + unfold inStop in F. apply existsb_exists in F as (k & HK & EK). apply teq_eq in EK. rewrite EK. cbn [In] in HK. destruct HK as [<-|[<-|[]]]; reflexivity.
  - cbn [nodeOf]. rewrite (pick_map _ getCase WCase) by (intros; split; reflexivity). reflexivity.
Qed.
Lemma case_not_semi : forall cs k r, k <> T_SEMICOLON -> hd T_EOF (flat_map oneCase cs ++ k :: r) <> T_SEMICOLON.
Proof. intros [|[[e|] l] cs] k r H; cbn; [exact H|discriminate|discriminate]. Qed.
Lemma skip_semi : forall o b w r v, hd T_EOF (w ++ r) <> T_SEMICOLON -> TakesS o b w r v -> TakesS o (ISeq (alts [IT T_SEMICOLON; IEps]) b) w r v.
Proof.
  intros o b w r v N H. apply ts_skip; [|exact H]. cbn [alts]. apply ts_alt_r; [|yes; apply ts_eps]. cbn [app].
  apply (out_test [T_SEMICOLON]); [discriminate|comp|]. unfold outside, inStop. cbn [existsb]. rewrite orb_false_r. apply teq_neq. congruence.
Qed.
Lemma st_switch : forall c cs, plain c = true -> forallb (fun p => optOk (fst p) && forallb stOk (snd p)) cs = true -> (forall p, In p cs -> Lst (snd p)) -> Stm (SSwitch c cs).
Proof.
  intros c cs P OK H r _. enter.
  - change (flat_map _ cs) with (flat_map oneCase cs). apply ts_seqt, ts_seqt. apply ts_seqv; [apply (ts_expr rs); [exact P|comp]|]. apply ts_seqt.
    eapply ts_N; [reflexivity|comp| |].
    + cbn [rule alts seqs]. yes. apply ts_seqt. apply skip_semi; [rewrite <- app_assoc; apply case_not_semi; discriminate|].
      apply ts_seqv; [apply ts_recover, ts_cases; [exact OK|exact H|reflexivity]|apply ts_tok].
    + reflexivity.
  - reflexivity.
Qed.
Lemma st_switchC : forall q c cs, plain c = true -> forallb (fun p => optOk (fst p) && forallb stOk (snd p)) cs = true -> (forall p, In p cs -> Lst (snd p)) -> Stm (SSwitchC q c cs).
Proof.
  intros q c cs P OK H r _. enter.
  - change (flat_map _ cs) with (flat_map oneCase cs). apply ts_seqt, ts_seqt. apply ts_seqv; [apply (ts_expr rs); [exact P|comp]|]. apply ts_seqt.
    eapply ts_N; [reflexivity|comp| |].
    + cbn [rule alts seqs]. no. yes. apply ts_seqt. apply skip_semi; [rewrite <- app_assoc; apply case_not_semi; discriminate|].
      apply ts_seqv; [apply ts_cases; [exact OK|exact H|reflexivity]|]. apply ts_seqt, ts_term.
    + reflexivity.
  - reflexivity.
Qed.

(** declare *)
Lemma st_declare : forall ds a, ds <> [] -> stOk a = true -> simple a = true -> Stm a -> Stm (SDeclare ds a).
Proof.
  intros ds a N OK SI H r FO. enter.
  - apply ts_seqt, ts_seqt. apply ts_seq; [apply ts_declares, N|]. apply ts_seqt.
    eapply (ts_body rs); [reflexivity|reflexivity|intros; reflexivity|comp|exact OK|exact SI|exact H|exact FO].
  - cbn [nodeOf readWord rev]. rewrite rev_app_distr. cbn [rev app]. rewrite rev_app_distr. cbn [rev app]. rewrite rev_involutive.
    cbn [app]. rewrite pick_tok, pick_app_tok. rewrite (pick_inter _ getSc WSc) by (intros; split; reflexivity). reflexivity.
Qed.
Lemma st_declareC : forall q ds l, ds <> [] -> Lst l -> Stm (SDeclareC q ds l).
Proof.
  intros q ds l N H r FO. enter.
  - apply ts_seqt, ts_seqt. apply ts_seq; [apply ts_declares, N|]. apply ts_seqt.
    eapply ts_colon; [reflexivity|reflexivity|intros; reflexivity|comp|reflexivity|exact H].
  - cbn [nodeOf readWord rev]. rewrite rev_app_distr. cbn [rev app]. rewrite rev_app_distr. cbn [rev app]. rewrite rev_involutive.
    cbn [app]. rewrite pick_tok, pick_app_tok. rewrite (pick_inter _ getSc WSc) by (intros; split; reflexivity). reflexivity.
Qed.
End T.
