(** Proofs for C56: whole texts (proof file). *)
From Verif Require Import CtxSpec ComplProofs ComplProofs3 LexRun3 CtxProofs CtxProofs2 CtxProofs3.
Open Scope nat_scope.

Lemma symbol_len doc t : (0 <= t_begin t)%Z -> (t_begin t <= t_end t + 1)%Z -> (Z.of_nat (List.length (symbol doc t)) <= t_end t - t_begin t + 1)%Z.
Proof.
  intros A B. unfold symbol, mid. destruct (Z.ltb_spec (t_end t - t_begin t + 1) 0); [lia|]. rewrite firstn_length. lia.
Qed.
Lemma concat_len doc : forall pre from t, contiguous from (pre ++ [t]) -> (forall u, In u (pre ++ [t]) -> (0 <= t_begin u /\ t_begin u <= t_end u + 1)%Z) ->
  (Z.of_nat (List.length (List.concat (map (symbol doc) (pre ++ [t])))) <= t_end t + 1 - from)%Z.
Proof.
  induction pre as [|u pre IH]; intros from t HC HB.
  - cbn [app map List.concat contiguous] in *. rewrite app_nil_r. destruct HC as [<- _]. destruct (HB t (or_introl eq_refl)). pose proof (symbol_len doc t). lia.
  - cbn [app map List.concat contiguous] in *. rewrite app_length. destruct HC as [<- HC]. destruct (HB u (or_introl eq_refl)).
    pose proof (symbol_len doc u). specialize (IH _ t HC (fun x Hx => HB x (or_intror Hx))). lia.
Qed.

Section T.
Variable cc : CharClass.
Hypothesis OK : ascii_ok cc.
Lemma covers_noComment doc fuel toks nls last : lexAll cc fuel doc initHtml = Some (Done toks nls last) -> covers doc (pieces doc toks) ->
  forall t, nth_error (rev toks) 0 = Some t -> noComment doc t.
Proof.
  intros HL HC t Ht. destruct (lossless cc OK doc initHtml fuel toks nls last (or_introl eq_refl) HL) as [HCo _].
  destruct (rev toks) as [|x r] eqn:E; [discriminate|]. injection Ht as ->. apply (f_equal (@rev Token)) in E. rewrite rev_involutive in E. cbn in E. subst toks.
  assert (HB : forall u, In u (rev r ++ [t]) -> (0 <= t_begin u /\ t_begin u <= t_end u + 1)%Z).
  { intros u Hu. apply in_split in Hu. destruct Hu as (a & b & E). destruct (in_bounds cc OK doc initHtml fuel _ nls last (or_introl eq_refl) HL a u b E) as [H _]. lia. }
  pose proof (concat_len doc _ _ _ HCo HB) as H.
  assert (E : List.concat (map (symbol doc) (rev r ++ [t])) = doc). { rewrite <- HC at 2. unfold pieces. rewrite map_map. reflexivity. }
  rewrite E in H. unfold noComment, mid. cbn [Z.ltb Z.compare]. rewrite skipn_all2 by lia. reflexivity.
Qed.

Lemma complete_tokens env fuel addTag inClass text following toks nls last c :
  lexAll cc fuel (fullText addTag text) initHtml = Some (Done toks nls last) -> complete cc env fuel addTag inClass text following = Ok c ->
  fullText addTag text = [] \/ completeTokens cc env fuel inClass (fullText addTag text) following toks = Ok c.
Proof. intros HL H. unfold complete in H. destruct (fullText addTag text) as [|x s]; [left; reflexivity|]. right. rewrite HL in H. exact H. Qed.

Lemma offers_text env fuel addTag inClass text following toks nls last op forb :
  let doc := fullText addTag text in
  lexAll cc fuel doc initHtml = Some (Done toks nls last) -> covers doc (pieces doc toks) -> offers inClass (pieces doc toks) op forb ->
  exists c, complete cc env fuel addTag inClass text following = Ok c /\ c_valid c = true /\ c_op c = op /\ forall n, In n (c_forbid c) <-> In n forb.
Proof.
  intros doc HL HC HO. unfold complete. fold doc. destruct doc as [|x s] eqn:ED.
  { exfalso. destruct fuel as [|f]; [discriminate|]. cbn in HL. injection HL as <- _ _. clear - HO. unfold pieces in HO. cbn in HO. remember [] as l eqn:El. destruct HO; destruct pre; discriminate. }
  rewrite <- ED in *. rewrite HL.
  assert (NE : doc <> []) by (rewrite ED; discriminate).
  destruct (completeTokens_ok cc OK doc env fuel inClass following toks nls last NE HL) as [c Hc]. exists c. split; [exact Hc|].
  rewrite <- (rev_involutive toks) in Hc.
  apply (offers_l cc env doc inClass (pieces doc toks) op forb fuel following (rev toks) c HO); [|exact (covers_noComment doc fuel toks nls last HL HC)|exact Hc].
  unfold pieces. rewrite <- map_rev. reflexivity.
Qed.
Lemma nothing_text env fuel addTag inClass text following toks nls last c :
  let doc := fullText addTag text in
  lexAll cc fuel doc initHtml = Some (Done toks nls last) -> covers doc (pieces doc toks) -> offersNothing inClass (pieces doc toks) ->
  complete cc env fuel addTag inClass text following = Ok c -> c_valid c = false.
Proof.
  intros doc HL HC HO. unfold complete. fold doc. destruct doc as [|x s] eqn:ED; [intros H; injection H as <-; reflexivity|].
  rewrite <- ED in *. rewrite HL. intros Hc. rewrite <- (rev_involutive toks) in Hc.
  apply (nothing_l cc env doc inClass (pieces doc toks) fuel following (rev toks) c HO); [|exact (covers_noComment doc fuel toks nls last HL HC)|exact Hc].
  unfold pieces. rewrite <- map_rev. reflexivity.
Qed.
End T.
