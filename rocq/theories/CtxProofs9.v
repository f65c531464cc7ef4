(** Proofs for C56: text that contains no code (proof file). *)
From Verif Require Import CtxSpec ComplProofs ComplProofs3 LexRun3 CtxProofs CtxProofs3 CtxProofs4 PropLex2.
Open Scope nat_scope.

Lemma lexAll_mono cc content : forall f l r, lexAll cc f content l = Some r -> r <> OutOfFuel -> forall g, f <= g -> lexAll cc g content l = Some r.
Proof.
  induction f as [|f IH]; intros l r H N g Hg; [cbn in H; injection H as <-; contradiction|]. destruct g as [|g]; [lia|]. cbn [lexAll] in *.
  destruct (nextToken cc content l) as [[[l' t] nl]|]; [|discriminate]. destruct (isEOF (t_kind t)); [exact H|].
  destruct (lexAll cc f content l') as [[ts nn la|]|] eqn:EL; try discriminate.
  - rewrite (IH _ _ EL ltac:(discriminate) g) by lia. exact H.
  - injection H as <-. contradiction.
Qed.
Lemma lexAll_same cc content f g l a b c a' b' c' : lexAll cc f content l = Some (Done a b c) -> lexAll cc g content l = Some (Done a' b' c') -> a = a'.
Proof.
  intros H1 H2. destruct (le_ge_dec f g) as [H|H].
  - rewrite (lexAll_mono cc content f l _ H1 ltac:(discriminate) g H) in H2. now injection H2.
  - rewrite (lexAll_mono cc content g l _ H2 ltac:(discriminate) f H) in H1. now injection H1.
Qed.

Lemma html_nothing cc (OK : ascii_ok cc) env fuel inClass text following c : ~ contains (str "<?") text ->
  complete cc env fuel false inClass text following = Ok c -> c_valid c = false.
Proof.
  intros HN H. change (fullText false text) with text in *. assert (EF : fullText false text = text) by reflexivity.
  destruct text as [|x s]; [cbn in H; injection H as <-; reflexivity|].
  destruct (C14_document cc (x :: s) OK ltac:(discriminate) HN) as (tok & nls & last & HL & HK & HS).
  destruct (lexAll cc fuel (x :: s) initHtml) as [[ts nn la|]|] eqn:EL; unfold complete in H; rewrite EF, EL in H; try discriminate.
  pose proof (lexAll_same _ _ _ _ _ _ _ _ _ _ _ EL HL) as ->.
  apply (nothing_text cc OK env fuel false inClass (x :: s) following [tok] nn la c); rewrite ?EF.
  - exact EL.
  - unfold covers, pieces. cbn [map List.concat snd]. rewrite HS, app_nil_r. reflexivity.
  - unfold pieces. cbn [map]. rewrite HK. apply (on_dead inClass [] T_INLINE_HTML _ []); [cbn; tauto|constructor].
  - unfold complete. rewrite ?EF, EL. exact H.
Qed.
