(** Proofs for C56 (proof file). *)
From Verif Require Import CtxSpec ComplProofs ComplProofs3 LexRun3.
Open Scope nat_scope.

Section C.
Variable cc : CharClass.
Variable env : Env.
Variable code : qstring.

(** A position in the stream: the tokens to its left, nearest first, and those behind. *)
Definition mk (L suf : list Token) : TA :=
  {| ta_code := code; ta_stream := rev L ++ suf; ta_pos := Z.of_nat (List.length L) - 1 |}.

Lemma newTA_mk toks : newTA code toks = mk (rev toks) [].
Proof. unfold newTA, mk. rewrite rev_involutive, app_nil_r, rev_length. reflexivity. Qed.
Lemma pop_mk t L suf : popTok (mk (t :: L) suf) = mk L (t :: suf).
Proof.
  unfold popTok, mk, setPos. cbn [ta_pos ta_code ta_stream List.length rev].
  replace (0 <=? Z.of_nat (S (List.length L)) - 1)%Z with true by (symmetry; apply Z.leb_le; lia).
  rewrite <- app_assoc. cbn [app]. f_equal. lia.
Qed.
Lemma stream_mk L suf i : (0 <= i)%Z -> streamAt (mk L suf) (ta_pos (mk L suf) - i) =
  match nth_error L (Z.to_nat i) with Some t => Ok t | None => Bad end.
Proof.
  intros Hi. unfold streamAt. cbn [ta_pos ta_stream mk].
  destruct (Z.ltb_spec (Z.of_nat (List.length L) - 1 - i) 0) as [H|H].
  - replace (nth_error L (Z.to_nat i)) with (@None Token); [reflexivity|]. symmetry. apply nth_error_None. lia.
  - rewrite nth_error_app1 by (rewrite rev_length; lia).
    assert (Hlt : Z.to_nat i < List.length L) by lia.
    destruct (nth_error L (Z.to_nat i)) as [t|] eqn:E; [|apply nth_error_None in E; lia].
    rewrite <- (rev_involutive L) in E. rewrite (nth_error_nth' (rev L) t) by (rewrite rev_length; lia).
    rewrite rev_nth by lia. replace (List.length L - S (Z.to_nat (Z.of_nat (List.length L) - 1 - i))) with (Z.to_nat i) by lia.
    rewrite rev_involutive in E. rewrite (nth_error_nth L (Z.to_nat i) t E). reflexivity.
Qed.
Lemma stream_mk' L suf r : (r <= 0)%Z -> streamAt (mk L suf) (ta_pos (mk L suf) + r) =
  match nth_error L (Z.to_nat (- r)) with Some t => Ok t | None => Bad end.
Proof. intros H. rewrite <- (stream_mk L suf (- r)) by lia. f_equal. lia. Qed.
Lemma typeAt_mk L suf r : (r <= 0)%Z -> typeAt (mk L suf) r =
  match nth_error L (Z.to_nat (- r)) with Some t => t_kind t | None => T_INVALID end.
Proof. intros H. unfold typeAt. rewrite stream_mk' by exact H. destruct (nth_error L (Z.to_nat (- r))); reflexivity. Qed.
Lemma tokAt_mk L suf r : (r <= 0)%Z -> tokAt (mk L suf) r = match nth_error L (Z.to_nat (- r)) with Some t => Ok t | None => Bad end.
Proof. intros H. unfold tokAt. apply stream_mk'. exact H. Qed.
Lemma stringAt_mk L suf r : (r <= 0)%Z -> stringAt (mk L suf) r =
  match nth_error L (Z.to_nat (- r)) with Some t => Ok (symbol code t) | None => Bad end.
Proof. intros H. unfold stringAt. rewrite tokAt_mk by exact H. destruct (nth_error L (Z.to_nat (- r))); reflexivity. Qed.
Lemma type_mk t L suf : type (mk (t :: L) suf) = Ok (t_kind t).
Proof.
  unfold type. replace (ta_pos (mk (t :: L) suf) =? -1)%Z with false by (symmetry; apply Z.eqb_neq; cbn [ta_pos mk List.length]; lia).
  replace (ta_pos (mk (t :: L) suf)) with (ta_pos (mk (t :: L) suf) - 0)%Z by lia. rewrite stream_mk by lia. reflexivity.
Qed.

(** prependedBy without skipping of blanks *)
Lemma prep_match ks : forall L suf i, map t_kind (firstn (List.length ks) (skipn (S i) L)) = ks ->
  prepLoop (mk L suf) ks false (Z.of_nat (S i)) = Ok (Z.of_nat (S i + List.length ks)).
Proof.
  induction ks as [|k ks IH]; intros L suf i H.
  - cbn [prepLoop List.length]. rewrite Nat.add_0_r. reflexivity.
  - cbn [prepLoop cbind]. rewrite stream_mk by lia. rewrite Nat2Z.id.
    destruct (nth_error L (S i)) as [t|] eqn:E1.
    + pose proof E1 as E2. apply nth_error_split in E2. destruct E2 as (a & b & -> & Hl).
      rewrite skipn_app, (skipn_all2 a), Hl, Nat.sub_diag in H by lia. cbn [skipn app List.length firstn map] in H. injection H as Hk H.
      cbn [cbind]. rewrite Hk, is_refl. replace (Z.of_nat (S i) + 1)%Z with (Z.of_nat (S (S i))) by lia.
      rewrite IH; [f_equal; cbn [List.length]; lia|].
      rewrite skipn_app, (skipn_all2 a), Hl by lia. replace (S (S i) - S i) with 1 by lia. exact H.
    + apply nth_error_None in E1. rewrite skipn_all2 in H by lia. discriminate.
Qed.
Lemma prep_only ks : forall L suf i p, prepLoop (mk L suf) ks false (Z.of_nat (S i)) = Ok p -> p <> (-1)%Z ->
  map t_kind (firstn (List.length ks) (skipn (S i) L)) = ks.
Proof.
  induction ks as [|k ks IH]; intros L suf i p; [reflexivity|].
  cbn [prepLoop cbind]. rewrite stream_mk by lia. rewrite Nat2Z.id.
  destruct (nth_error L (S i)) as [t|] eqn:E1; [|discriminate]. cbn [cbind]. destruct (isP (t_kind t) k) as [<-|]; [|intros H N; injection H as <-; contradiction].
  replace (Z.of_nat (S i) + 1)%Z with (Z.of_nat (S (S i))) by lia. intros H N. specialize (IH _ _ _ _ H N).
  apply nth_error_split in E1. destruct E1 as (a & b & -> & Hl). rewrite skipn_app, (skipn_all2 a), Hl, Nat.sub_diag in * by lia. cbn [skipn app List.length firstn map].
  f_equal. replace (S (S i) - S i) with 1 in IH by lia. rewrite (skipn_all2 a) in IH by lia. exact IH.
Qed.
Lemma prepended_match ks t L suf : map t_kind (firstn (List.length ks) L) = ks ->
  exists p, prependedBy (mk (t :: L) suf) ks false = Ok p /\ p <> (-1)%Z.
Proof.
  intros H. unfold prependedBy. exists (Z.of_nat (1 + List.length ks)). split; [|lia].
  assert (List.length ks <= List.length L). { rewrite <- H at 1. rewrite map_length. rewrite firstn_length; lia. }
  destruct (Z.ltb_spec (ta_pos (mk (t :: L) suf)) (Z.of_nat (List.length ks) - 1)) as [A|A]; [cbn [ta_pos mk List.length] in A; lia|].
  change 1%Z with (Z.of_nat 1). apply (prep_match ks (t :: L) suf 0). exact H.
Qed.
Lemma prepended_only ks t L suf p : prependedBy (mk (t :: L) suf) ks false = Ok p -> p <> (-1)%Z -> map t_kind (firstn (List.length ks) L) = ks.
Proof.
  unfold prependedBy. destruct (_ <? _)%Z; [intros H N; injection H as <-; contradiction|]. change 1%Z with (Z.of_nat 1). intros H N.
  exact (prep_only ks (t :: L) suf 0 p H N).
Qed.

(** The start of the constructor. *)
Definition rest (fuel : nat) (inClass lws : bool) (following : qstring) (ta : TA) : CRes Ctx :=
  r <~ bigSwitch cc fuel inClass lws code following ta ;;
  let '(ta, c, early) := r in
  if early : bool then Ok c else afterSwitch cc env fuel ta c.
Definition noComment (t : Token) : Prop := eqs (mid code (t_end t + 1) 2) (str "/*") = false.
Lemma start_blank fuel inClass following ws t L : t_kind ws = T_WHITESPACE -> noComment ws ->
  completeTokens cc env fuel inClass code following (rev (ws :: t :: L)) = rest fuel inClass true following (mk (t :: L) [ws]).
Proof.
  intros K N. unfold completeTokens. rewrite newTA_mk, rev_involutive. rewrite tokAt_mk by lia. cbn [Z.to_nat Z.opp nth_error cbind].
  rewrite type_mk. cbn [cbind]. rewrite K, is_refl, pop_mk, type_mk. cbn [cbind]. unfold noComment in N. rewrite N. cbn [negb andb]. reflexivity.
Qed.
Lemma start_tight fuel inClass following t L : t_kind t <> T_WHITESPACE -> noComment t ->
  ~ In (t_kind t) [T_EXTENDS; T_IMPLEMENTS; T_NEW; T_THROW] ->
  completeTokens cc env fuel inClass code following (rev (t :: L)) = rest fuel inClass false following (mk (t :: L) []).
Proof.
  intros K N I. unfold completeTokens. rewrite newTA_mk, rev_involutive. rewrite tokAt_mk by lia. cbn [Z.to_nat Z.opp nth_error cbind].
  rewrite type_mk. cbn [cbind]. rewrite (is_neq _ _ K), type_mk. cbn [cbind]. unfold noComment in N. rewrite N. cbn [negb andb].
  replace (isIn (t_kind t) [T_EXTENDS; T_IMPLEMENTS; T_NEW; T_THROW]) with false; [reflexivity|]. symmetry. unfold isIn. apply not_true_is_false. intros H.
  apply existsb_exists in H. destruct H as (k & Hk & E). apply kind_inj in E. subst k. contradiction.
Qed.
Lemma start_word fuel inClass following t L c : In (t_kind t) [T_EXTENDS; T_IMPLEMENTS; T_NEW; T_THROW] ->
  completeTokens cc env fuel inClass code following (rev (t :: L)) = Ok c -> c_valid c = false.
Proof.
  intros I. unfold completeTokens. rewrite newTA_mk, rev_involutive. rewrite tokAt_mk by lia. cbn [Z.to_nat Z.opp nth_error cbind].
  rewrite type_mk. cbn [cbind]. rewrite (is_neq (t_kind t) T_WHITESPACE) by (intros K; rewrite K in I; cbn in I; intuition discriminate). rewrite type_mk. cbn [cbind].
  destruct (eqs _ _); [intros H; injection H as <-; reflexivity|]. cbn [negb andb].
  replace (isIn (t_kind t) [T_EXTENDS; T_IMPLEMENTS; T_NEW; T_THROW]) with true; [intros H; injection H as <-; reflexivity|].
  symmetry. unfold isIn. apply existsb_exists. exists (t_kind t). split; [exact I|apply is_refl].
Qed.
End C.
