(** C13, whole documents. *)
From Verif Require Import LexCutSpec LexCut5 LexCut7 ComplProofs3 LexFun5.
Open Scope nat_scope.

Section Cut.
Variable cc : CharClass.
Hypothesis OK : ascii_ok cc.

Lemma spaceOK_of : blanksNotNames cc -> spaceOK cc.
Proof.
  intros H c Hs. unfold LexCut2.hereC. destruct (H c Hs) as [-> ->]. cbn. destruct (N.eqb_spec c 95) as [->|]; [|reflexivity].
  rewrite (ok_space _ OK) in Hs by lia. discriminate.
Qed.

Lemma lexAll_runs content : forall fuel l0 toks nls last, lexAll cc fuel content l0 = Some (Done toks nls last) ->
  exists l, runs cc content l0 toks l.
Proof.
  induction fuel as [|f IH]; intros l0 toks nls last; [discriminate|]. cbn [lexAll].
  destruct (nextToken cc content l0) as [[[l' t] nl]|] eqn:EN; [|discriminate].
  destruct (isEOF (t_kind t)) eqn:Ee.
  - intros E. injection E as <- <- <-. exists l0. constructor.
  - destruct (lexAll cc f content l') as [[ts nn la|]|] eqn:EL; try discriminate.
    intros E. injection E as <- <- <-. destruct (IH _ _ _ _ EL) as (l & R). exists l.
    eapply r_cons; eauto. intros K. rewrite K in Ee. discriminate.
Qed.

Lemma halt_document A x y l0 f f' toks nls last toks' nls' last' : blanksNotNames cc -> initial l0 ->
  lexAll cc f (A ++ x) l0 = Some (Done toks nls last) -> endsWithHalt toks -> endsBehind A toks ->
  lexAll cc f' (A ++ y) l0 = Some (Done toks' nls' last') -> toks' = toks.
Proof.
  intros HB Hi H1 HE (pre & t & Ep & He) H2. destruct (lexAll_runs _ _ _ _ _ _ H1) as (l & R).
  apply handsOut_runs in R. pose proof (handsOut_end cc OK _ _ _ _ Hi R _ _ Ep) as Hp.
  assert (R2 : handsOut cc (A ++ y) l0 toks l) by (eapply halt_independent; eauto; [now apply spaceOK_of|lia]).
  destruct (lexAll_suffix _ _ _ _ _ R2 _ _ _ _ H2) as (g & ts2 & nls2 & -> & HL).
  rewrite (eof_stop cc _ _ _ _ _ _ (halt_stops cc OK _ _ _ _ Hi R2 HE) HL). apply app_nil_r.
Qed.

Lemma runs_fuel content l0 toks l : runs cc content l0 toks l ->
  (forall l' t nl, nextToken cc content l = Some (l', t, nl) -> t_kind t = T_EOF) ->
  forall f, List.length toks < f -> lexAll cc f content l0 <> Some OutOfFuel.
Proof.
  intros R HS. induction R as [lz|lz l1 t nl ts l EN K R IH]; intros f Hf; (destruct f as [|f]; [cbn in Hf; lia|]); cbn [lexAll].
  - destruct (nextToken cc content lz) as [[[l' t] nl]|] eqn:EN; [|discriminate]. rewrite (HS _ _ _ eq_refl). discriminate.
  - rewrite EN. destruct (isEOF (t_kind t)); [discriminate|]. cbn in Hf. specialize (IH HS f ltac:(lia)).
    destruct (lexAll cc f content l1) as [[? ? ?|]|]; congruence.
Qed.

Lemma halt_document_ends A x y l0 f toks nls last : blanksNotNames cc -> initial l0 ->
  lexAll cc f (A ++ x) l0 = Some (Done toks nls last) -> endsWithHalt toks -> endsBehind A toks ->
  forall f', List.length toks < f' -> lexAll cc f' (A ++ y) l0 <> Some OutOfFuel.
Proof.
  intros HB Hi H1 HE (pre & t & Ep & He). destruct (lexAll_runs _ _ _ _ _ _ H1) as (l & R).
  apply handsOut_runs in R. pose proof (handsOut_end cc OK _ _ _ _ Hi R _ _ Ep) as Hp.
  assert (R2 : handsOut cc (A ++ y) l0 toks l) by (eapply halt_independent; eauto; [now apply spaceOK_of|lia]).
  apply (runs_fuel _ _ _ l); [now apply handsOut_runs|]. exact (halt_stops cc OK _ _ _ _ Hi R2 HE).
Qed.
Lemma halt_tokens A x y l0 toks l : blanksNotNames cc -> initial l0 ->
  handsOut cc (A ++ x) l0 toks l -> endsWithHalt toks -> endsBehind A toks -> handsOut cc (A ++ y) l0 toks l.
Proof.
  intros HB Hi R HE (pre & t & Ep & He). pose proof (handsOut_end cc OK _ _ _ _ Hi R _ _ Ep) as Hp.
  eapply halt_independent; eauto; [now apply spaceOK_of|lia].
Qed.
End Cut.
