(** Proofs for C13, concluded. *)
From Verif Require Import LexModel LexInv LexSpec LexSpec2 LexHandlers LexHandlers2 LexRun LexRun2 LexRun3 LexFun LexFun5 LexCut LexCut2 LexCut3 LexCut4 LexCut5 LexCut6.
Open Scope nat_scope.

Section Cut.
Variable cc : CharClass.
Hypothesis OK : ascii_ok cc.

Lemma nth_skipn (l : list N) p k : nth_error (skipn p l) k = nth_error l (p + k).
Proof. revert p; induction l as [|c l IH]; intros [|p]; cbn; auto. destruct k; reflexivity. Qed.
Lemma skipn_cut (u x : list N) p : p <= List.length u -> skipn p (u ++ 59%N :: x) = skipn p u ++ 59%N :: x.
Proof. intros H. rewrite skipn_app. replace (p - List.length u) with 0 by lia. reflexivity. Qed.
Lemma firstn_cut (u x : list N) p : p <= List.length u -> firstn p (u ++ 59%N :: x) = firstn p u.
Proof. intros H. rewrite firstn_app. replace (p - List.length u) with 0 by lia. cbn. apply app_nil_r. Qed.

Section Two.
Variables (u x y : list N).
Notation X := (u ++ 59%N :: x).
Notation Y := (u ++ 59%N :: y).

Lemma step_cut l l1 t nl : LInv cc X l -> idOK cc (lx_id l) -> lastOK cc u -> lx_pos l < List.length u ->
  nextToken cc X l = Some (l1, t, nl) -> t_kind t <> T_EOF -> lx_pos l1 <= List.length u ->
  (t_kind t = T_YIELD -> farEnough cc u (lx_pos l1)) ->
  ((topIs (lx_st l) DefaultState \/ topIs (lx_st l) StringVariableCurly) -> t_kind t = T_DOUBLE_QUOTE -> forall i,
     dqLoop cc (34%N :: rev (firstn (lx_pos l) X)) (skipn 1 (skipn (lx_pos l) X)) 1 = Some (i, true) -> lx_pos l + i < List.length u) ->
  nextToken cc Y l = Some (l1, t, nl).
Proof.
  intros HI HO HL Hp E K Hp1 HY HD. destruct (nextToken_inv cc _ _ _ _ _ E K) as (o & HS).
  pose proof (tokenStep_kind cc _ _ _ _ _ _ HS K) as Hk. pose proof (tokenStep_pos cc _ _ _ _ _ _ HS) as Hpos.
  apply (tokenStep_next cc _ _ _ _ _ o). destruct HS as (H1 & H2 & H3 & H4 & H5 & H6 & H7).
  split; [rewrite app_length; cbn; lia|]. split; [|split; [rewrite app_length; cbn; lia|auto]].
  rewrite skipn_cut, firstn_cut in * by lia.
  assert (Lu : List.length (skipn (lx_pos l) u) = List.length u - lx_pos l) by apply skipn_length.
  apply (handler_stable cc OK) with (x := x).
  - intros E0. rewrite E0 in Lu. cbn in Lu. lia.
  - exact (inv_id _ _ _ _ _ HI).
  - exact HO.
  - intros a c Ea. apply (HL (firstn (lx_pos l) u ++ a) c). rewrite <- app_assoc, <- Ea, firstn_skipn. reflexivity.
  - exact H2.
  - lia.
  - intros Hy. destruct (HY ltac:(congruence)) as (k & c & A & B & C & D). exists (k - lx_pos l), c. rewrite nth_skipn.
    split; [lia|]. split; [lia|]. split; [|exact D]. replace (lx_pos l + (k - lx_pos l)) with k by lia. exact C.
  - intros Ht Hq i Hi. specialize (HD Ht ltac:(congruence) i Hi). lia.
Qed.

Lemma runs_cut l0 : initial l0 -> lastOK cc u -> forall ts l m, reachable cc X l0 l -> idOK cc (lx_id l) -> runs cc X l ts m -> lx_pos m <= List.length u ->
  (forall a t b la lb nl, ts = a ++ t :: b -> runs cc X l a la -> nextToken cc X la = Some (lb, t, nl) -> runs cc X lb b m ->
     lx_pos la < List.length u /\ (t_kind t = T_YIELD -> farEnough cc u (lx_pos lb)) /\
     ((topIs (lx_st la) DefaultState \/ topIs (lx_st la) StringVariableCurly) -> t_kind t = T_DOUBLE_QUOTE -> forall i,
       dqLoop cc (34%N :: rev (firstn (lx_pos la) X)) (skipn 1 (skipn (lx_pos la) X)) 1 = Some (i, true) -> lx_pos la + i < List.length u)) ->
  runs cc Y l ts m.
Proof.
  intros Hi HL. induction ts as [|t ts IH]; intros l m HR HO R Hm HC.
  - inversion R; subst. constructor.
  - inversion R as [|? l1 ? nl ? ? E K R1]; subst.
    destruct (HC [] t ts l l1 nl eq_refl (r_nil cc _ _) E R1) as (C1 & C2 & C3).
    pose proof (runs_mono cc _ _ _ _ R1) as Hm1.
    pose proof (reachable_inv cc OK X l0 l Hi HR) as HI.
    apply (r_cons cc _ _ l1 _ nl); [|exact K|].
    + apply step_cut; auto. lia.
    + apply IH; auto.
      * eapply reach_step; eauto.
      * eapply (runs_idOK cc X l [t] l1); [exact HO|]. econstructor; eauto. constructor.
      * intros a t' b la lb nl' Eq Ra Et Rb. apply (HC (t :: a) t' b la lb nl'); auto; [rewrite Eq; reflexivity|]. econstructor; eauto.
Qed.

(** A filler token does not start at the semicolon. *)
Lemma filler_before l l1 t nl : nextToken cc X l = Some (l1, t, nl) -> isFiller (t_kind t) = true -> lx_pos l <= List.length u -> lx_pos l < List.length u.
Proof.
  intros E Hf Hp. assert (K : t_kind t <> T_EOF) by (intros K; rewrite K in Hf; discriminate).
  destruct (Nat.eq_dec (lx_pos l) (List.length u)) as [Ep|]; [exfalso|lia].
  destruct (nextToken_inv cc _ _ _ _ _ E K) as (o & HS). pose proof (tokenStep_kind cc _ _ _ _ _ _ HS K) as Hk.
  destruct HS as (_ & H2 & _). rewrite skipn_cut in H2 by lia. rewrite Ep, skipn_all in H2. cbn [app] in H2. rewrite Hk in Hf.
  destruct (handler_source cc _ _ _ _ _ _ H2) as [[_ HS]|[_ HP]]; [|destruct (o_tok o); discriminate].
  destruct HS as [A B C|A B C|A B C|A B|A B|A B|A B C|A]; try discriminate.
  - rewrite (semi_space cc OK) in A. discriminate.
  - rewrite C in Hf. discriminate.
  - rewrite (semi_identStart cc OK) in B. discriminate.
  - destruct (o_tok o); discriminate.
Qed.
End Two.

Lemma semi_default st id b r : (topIs st DefaultState \/ topIs st StringVariableCurly) -> handler cc st id b (59%N :: r) = simple st id T_SEMICOLON 1.
Proof.
  intros Ht. assert (H : lexDefault cc st id b (59%N :: r) = simple st id T_SEMICOLON 1).
  { unfold lexDefault. cbn [peek]. destruct st as [|s q]; [destruct Ht as [[z Hz]|[z Hz]]; discriminate|]. cbn [stateAt nth_error].
    rewrite (semi_space cc OK), (semi_digit cc OK). cbn [mOr mAnd N.eqb Pos.eqb].
    replace (processVariable cc (59%N :: r)) with (Some (@None nat)) by reflexivity. cbn [mOr mAnd N.eqb Pos.eqb]. reflexivity. }
  destruct Ht as [[q ->]|[q ->]]; exact H.
Qed.

Lemma blanks_filler w : blanks w -> Forall (fun t => isFiller (t_kind t) = true) w.
Proof. intros H. eapply Forall_impl; [|exact H]. intros t [->|[->| ->]]; reflexivity. Qed.

Theorem halt_independent A x0 y0 l0 toks l : spaceOK cc -> initial l0 ->
  handsOut cc (A ++ x0) l0 toks l -> endsWithHalt toks -> lx_pos l = List.length A ->
  handsOut cc (A ++ y0) l0 toks l.
Proof.
  intros HSP Hi HO HE Hpos. apply handsOut_runs in HO. apply handsOut_runs.
  destruct HE as (pre & h & w1 & lp & w2 & rp & w3 & semi & E & Hh & Hlp & Hrp & Hs & Hw1 & Hw2 & Hw3).
  assert (E' : toks = pre ++ (h :: w1 ++ lp :: w2) ++ (rp :: w3) ++ [semi]).
  { rewrite E. cbn. f_equal. f_equal. rewrite <- app_assoc. reflexivity. }
  rewrite E' in HO. rewrite E'. clear E toks E'.
  apply runs_app in HO as (lh & R1 & HO). apply runs_app in HO as (lr & R2 & HO). apply runs_app in HO as (m & R3 & HO).
  inversion HO as [|? l' ? nls ? ? ES KS RS]; subst. inversion RS; subst. clear HO RS.
  (* the semicolon *)
  destruct (nextToken_inv cc _ _ _ _ _ ES KS) as (o & HS). pose proof (tokenStep_kind cc _ _ _ _ _ _ HS KS) as Hk. pose proof (tokenStep_pos cc _ _ _ _ _ _ HS) as Hps.
  pose proof HS as HS0. destruct HS as (H1 & H2 & _). destruct (skipn_lt _ _ H1) as (a & r & Er). rewrite Er in H2.
  destruct (semi_source cc _ _ _ _ _ _ H2 ltac:(congruence)) as (Htop & -> & Hlen). rewrite Hlen in Hps.
  assert (HA : exists u, A = u ++ [59%N] /\ lx_pos m = List.length u).
  { destruct (exists_last (l := A)) as (u & c & ->). { intros ->. cbn in Hpos. lia. }
    rewrite app_length in Hpos. cbn in Hpos. exists u. split; [|lia]. f_equal. f_equal.
    apply skipn_peek in Er. rewrite <- app_assoc in Er. rewrite nth_error_app2 in Er by lia. replace (lx_pos m - List.length u) with 0 in Er by lia. cbn in Er. congruence. }
  destruct HA as (u & -> & Hm). rewrite <- !app_assoc in *. cbn [app] in *.
  (* the character before it *)
  assert (HF : Forall (fun t => isFiller (t_kind t) = true) (rp :: w3)) by (constructor; [rewrite Hrp; reflexivity|now apply blanks_filler]).
  assert (HL : lastOK cc u).
  { destruct (exists_last (l := rp :: w3) ltac:(discriminate)) as (q & tp & Eq). rewrite Eq in R3, HF. apply runs_app in R3 as (mp & R3a & R3b).
    inversion R3b as [|? m' ? nlp ? ? EP KP RP]; subst. inversion RP; subst. apply Forall_app in HF as [_ HF]. inversion HF as [|? ? HFp _]; subst.
    destruct (nextToken_inv cc _ _ _ _ _ EP KP) as (op & HSp). pose proof (tokenStep_kind cc _ _ _ _ _ _ HSp KP) as Hkp. pose proof (tokenStep_pos cc _ _ _ _ _ _ HSp) as Hpp.
    destruct HSp as (G1 & G2 & _). destruct (skipn_lt _ _ G1) as (ap & rr & Erp). rewrite Erp in G2.
    assert (Hsk : skipn (o_len op) (ap :: rr) = 59%N :: x0).
    { rewrite <- Erp, skipn_add, <- Hpp, Hm, skipn_cut by lia. rewrite skipn_all. reflexivity. }
    destruct (filler_last cc OK _ _ _ _ _ _ _ HSP G2 ltac:(congruence) Hsk) as [Hpl Hlast].
    intros a c Ea. apply Hlast. rewrite <- Erp, nth_skipn. rewrite Ea in Hm. rewrite app_length in Hm. cbn in Hm.
    replace (lx_pos mp + (o_len op - 1)) with (List.length a) by lia. rewrite Ea, <- app_assoc. cbn [app]. rewrite nth_error_app2 by lia. rewrite Nat.sub_diag. reflexivity. }
  assert (HR0 : reachable cc (u ++ 59%N :: x0) l0 l0) by constructor.
  assert (HI0 : idOK cc (lx_id l0)) by (destruct Hi as [-> | ->]; constructor).
  pose proof (runs_reach cc _ _ _ _ _ HR0 R1) as HRh. pose proof (runs_idOK cc _ _ _ _ HI0 R1) as HIh.
  pose proof (runs_reach cc _ _ _ _ _ HRh R2) as HRr. pose proof (runs_idOK cc _ _ _ _ HIh R2) as HIr.
  pose proof (runs_mono cc _ _ _ _ R3) as M3. pose proof (runs_mono cc _ _ _ _ R2) as M2.
  (* the start of ")" *)
  assert (Hr : lx_pos lr < List.length u).
  { inversion R3 as [|? lr1 ? nlr ? ? EP KP RP]; subst. inversion HF; subst. eapply (filler_before u x0); eauto. lia. }
  (* the halt token *)
  inversion R2 as [|? lh1 ? nlh ? ? EH KH RH]; subst. destruct (halt_token cc _ _ _ _ _ EH Hh) as (Hh15 & ch & Hch & Hsp).
  pose proof (runs_mono cc _ _ _ _ RH) as MH. rewrite nth_error_app1 in Hch by lia.
  (* the three parts *)
  change (runs cc (u ++ 59%N :: y0) l0 (pre ++ ((h :: w1 ++ lp :: w2) ++ (rp :: w3) ++ [semi])) l).
  apply runs_app. exists lh. split; [|apply runs_app; exists lr; split; [|apply runs_app; exists m; split]].
  - apply (runs_cut u x0 y0 l0); auto; [lia|]. intros a t b la lb nl Eq Ra Et Rb.
    assert (Kt : t_kind t <> T_EOF).
    { intros Kt. rewrite Eq in R1. apply runs_app in R1 as (z & _ & Rz). inversion Rz; congruence. }
    pose proof (runs_mono cc _ _ _ _ Rb) as Mb. destruct (nextToken_inv cc _ _ _ _ _ Et Kt) as (ot & Hot). pose proof (tokenStep_pos cc _ _ _ _ _ _ Hot) as Hpt.
    split; [lia|]. split.
    + intros _. exists (lx_pos lh), ch. repeat split; auto; lia.
    + intros Ht Hq i Hdq.
      assert (Rall : runs cc (u ++ 59%N :: x0) lb (b ++ h :: w1 ++ lp :: w2) lr) by (apply runs_app; exists lh; split; assumption).
      pose proof (dq_before cc OK _ la lb t nl b h _ lr (reachable_inv cc OK _ l0 la Hi (runs_reach cc _ _ _ _ _ HR0 Ra)) Et Hq Ht Rall Hh lh Rb i Hdq). lia.
  - apply (runs_cut u x0 y0 l0); auto; [lia|]. intros a t b la lb nl Eq Ra Et Rb.
    assert (Kt : t_kind t <> T_YIELD /\ t_kind t <> T_DOUBLE_QUOTE).
    { assert (HIn : In t (h :: w1 ++ lp :: w2)) by (rewrite Eq; apply in_or_app; right; left; reflexivity).
      destruct HIn as [<-|HIn]; [rewrite Hh; split; discriminate|]. apply in_app_or in HIn as [HIn|[<-|HIn]].
      - unfold blanks in Hw1. rewrite Forall_forall in Hw1. destruct (Hw1 t HIn) as [->|[->| ->]]; split; discriminate.
      - rewrite Hlp; split; discriminate.
      - unfold blanks in Hw2. rewrite Forall_forall in Hw2. destruct (Hw2 t HIn) as [->|[->| ->]]; split; discriminate. }
    assert (Kt2 : t_kind t <> T_EOF).
    { intros Kt2. rewrite Eq in R2. apply runs_app in R2 as (z & _ & Rz). inversion Rz; congruence. }
    pose proof (runs_mono cc _ _ _ _ Rb) as Mb. destruct (nextToken_inv cc _ _ _ _ _ Et Kt2) as (ot & Hot). pose proof (tokenStep_pos cc _ _ _ _ _ _ Hot) as Hpt.
    split; [lia|]. split; [intros ?; tauto|intros _ ?; tauto].
  - apply (runs_cut u x0 y0 l0); auto; [lia|]. intros a t b la lb nl Eq Ra Et Rb.
    assert (Hft : isFiller (t_kind t) = true) by (rewrite Forall_forall in HF; apply HF; rewrite Eq; apply in_or_app; right; left; reflexivity).
    assert (Kt2 : t_kind t <> T_EOF) by (intros K; rewrite K in Hft; discriminate).
    pose proof (runs_mono cc _ _ _ _ Rb) as Mb. destruct (nextToken_inv cc _ _ _ _ _ Et Kt2) as (ot & Hot). pose proof (tokenStep_pos cc _ _ _ _ _ _ Hot) as Hpt.
    split; [eapply (filler_before u x0); eauto; lia|]. split; intros Hx; [rewrite Hx in Hft; discriminate|intros Hx2; rewrite Hx2 in Hft; discriminate].
  - apply (r_cons cc _ _ l _ nls); [|exact KS|constructor]. apply (tokenStep_next cc _ _ _ _ _ o).
    destruct HS0 as (G1 & G2 & G3 & G4 & G5 & G6 & G7). split; [rewrite app_length; cbn; lia|].
    split; [|split; [rewrite app_length; cbn; lia|auto]].
    rewrite skipn_cut, firstn_cut in * by lia. rewrite Hm, skipn_all in *. cbn [app] in *. rewrite (semi_default _ _ _ y0 Htop). rewrite (semi_default _ _ _ x0 Htop) in G2. exact G2.
Qed.
End Cut.
