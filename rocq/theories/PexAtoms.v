(** Literals, strings, arrays, new, isset, empty, clone, exit, eval, include, list, ++, --, yield, instanceof. *)
From Coq Require Import List Bool NArith ZArith Lia Arith.
From Verif Require Import Chars LexModel ParseModel ParseSpec ParseProofs PexSpec PexProofs PexProofs2 PexProofs4 PexPath PexPath2.
Import ListNotations.
Open Scope nat_scope.

Section Atoms.
Variable rs : Gen.
Context {Fs : Functions} {FsR : FunctionsRead rs}.
Notation Good := (Good rs).
Notation Reads := (Reads rs).
Notation Takes := (Takes rs).
Notation Refuses := (Refuses rs).
Notation goodPart := (goodPart rs).
Notation goodSeg := (goodSeg rs).
Ltac yes := apply takes_alt_l; [vm_compute; reflexivity|].
Ltac no := apply takes_alt_r; [vm_compute; reflexivity|].

Lemma reads_takes : forall l w e r vs, l <= 21 -> starts l w -> Takes (rule (ntOf l)) w r vs -> readNode (ntOf l) vs = VEx e -> Reads l w e false r.
Proof.
  intros l w e r vs L S0 T RN. apply reads_intro; [exact L|exact S0|]. intros s R V. destruct (T s R V) as (ts & s' & RU & RD & A1 & A2 & A3 & A4).
  exists ts, s'. split; [exact RU|]. split; [now rewrite RD|]. repeat split; try assumption; discriminate.
Qed.
Lemma good_takes : forall l w e, l <= 21 -> starts l w -> (forall r, stops l r -> exists vs, Takes (rule (ntOf l)) w r vs /\ readNode (ntOf l) vs = VEx e) -> Good l w e false.
Proof. intros l w e L S0 H. split; [exact S0|]. intros r ST. destruct (H r ST) as (vs & T & RN). eapply reads_takes; eassumption. Qed.
Lemma takes_good : forall l w e iv r, Good l w e iv -> stops l r -> Takes (IN (ntOf l)) w r [VEx e].
Proof.
  intros l w e iv r [_ G] ST s R V. destruct (G r ST s R V) as (t & s' & RU & RD & P1 & P2 & P3 & P4 & _).
  exists [t], s'. split; [exact RU|]. split; [cbn [map]; now rewrite RD|]. repeat split; assumption.
Qed.
Lemma stop_neq : forall l r k, stops l r -> mem k (cont l) = true -> hd T_EOF r <> k.
Proof. intros l r k ST M E. unfold stops in ST. rewrite E in ST. congruence. Qed.
Ltac neq := eapply stop_neq; [eassumption|vm_compute; reflexivity].
(** A variable, as the grammar has it. *)
Definition goodVar (p : part) : Prop := fst p <> [] /\ In (hd T_EOF (fst p)) [T_VARIABLE; T_STRING] /\ forall r, endsPath r -> Takes (IN n_variable) (fst p) r [VEx (snd p)].

(** ** Tests at the beginning of expressions and variables *)
Lemma test_part : forall l i w e iv r, Good l w e iv -> (forall c a, i <> ICond c a) ->
  forallb (fun k => nullable i || mem k (first i)) (heads l) = true -> test i (at_ (w ++ r)) = true.
Proof.
  intros l i w e iv r [[N I0] _] NC F. pose proof (forallb_In _ _ _ _ F I0) as H. cbv beta in H.
  replace (test i (at_ (w ++ r))) with (enters i (at_ (w ++ r))) by (destruct i; try reflexivity; exfalso; eapply NC; reflexivity).
  unfold enters. rewrite (yytoken_hd (at_ (w ++ r)) (w ++ r) eq_refl), hd_app by exact N. exact H.
Qed.
Lemma test_var : forall i p r, goodVar p -> (forall c a, i <> ICond c a) ->
  forallb (fun k => nullable i || mem k (first i)) [T_VARIABLE; T_STRING] = true -> test i (at_ (fst p ++ r)) = true.
Proof.
  intros i p r (N & I0 & _) NC F. pose proof (forallb_In _ _ _ _ F I0) as H. cbv beta in H.
  replace (test i (at_ (fst p ++ r))) with (enters i (at_ (fst p ++ r))) by (destruct i; try reflexivity; exfalso; eapply NC; reflexivity).
  unfold enters. rewrite (yytoken_hd (at_ (fst p ++ r)) (fst p ++ r) eq_refl), hd_app by exact N. exact H.
Qed.
Lemma test_stop : forall l i r, stops l r -> (forall c a, i <> ICond c a) -> nullable i = false -> N.ldiff (first i) (cont l) = 0%N -> test i (at_ r) = false.
Proof.
  intros l i r ST NC N0 D.
  replace (test i (at_ r)) with (enters i (at_ r)) by (destruct i; try reflexivity; exfalso; eapply NC; reflexivity).
  eapply no_enter; [reflexivity|exact ST|exact N0|exact D].
Qed.

(** ** Lists with commas *)
Definition cell := (list Tok * val)%type.
Fixpoint cellVals (l : list cell) : list val :=
  match l with [] => [] | [p] => [snd p] | p :: r => snd p :: VTok T_COMMA :: cellVals r end.
Lemma cells_hd : forall (p : cell) l r, fst p <> [] -> hd T_EOF (commas (map fst (p :: l)) ++ r) = hd T_EOF (fst p).
Proof.
  intros p l r N. destruct l as [|q l]; cbn [map commas]; [now apply hd_app|]. rewrite <- app_assoc. now apply hd_app.
Qed.
Lemma takes_cells : forall i brk l r, l <> [] -> hd T_EOF r <> T_COMMA ->
  (forall p r', In p l -> (exists r2, r' = T_COMMA :: r2) \/ r' = r -> Takes i (fst p) r' [snd p]) ->
  (forall b, brk = Some b -> forall p, In p l -> fst p <> [] /\ hd T_EOF (fst p) <> b) ->
  Takes (IList i T_COMMA brk) (commas (map fst l)) r (cellVals l).
Proof.
  intros i brk l r. induction l as [|p l IH]; intros N NC EL HB; [congruence|]. intros s R V.
  destruct l as [|q l].
  - cbn [map commas] in R. destruct (EL p r (or_introl eq_refl) (or_intror eq_refl) s R V) as (ts & s' & RU & RD & C).
    exists ts, s'. split; [|split; [exact RD|exact C]]. apply Runs_list_stop; [exact RU|]. rewrite (yytoken_hd _ _ (proj1 C)). now apply teq_neq.
  - change (commas (map fst (p :: q :: l))) with (fst p ++ T_COMMA :: commas (map fst (q :: l))) in R.
    rewrite <- app_assoc in R. cbn [app] in R.
    destruct (EL p (T_COMMA :: commas (map fst (q :: l)) ++ r) (or_introl eq_refl) (or_introl (ex_intro _ _ eq_refl)) s R V) as (ts & s1 & RU & RD & A1 & A2 & A3 & A4).
    destruct (yylex_rest _ _ _ A1) as (Y1 & Y2 & Y3 & Y4 & _).
    assert (EL' : forall p r', In p (q :: l) -> (exists r2, r' = T_COMMA :: r2) \/ r' = r -> Takes i (fst p) r' [snd p]) by (intros p0 r' I0; apply EL; now right).
    assert (HB' : forall b, brk = Some b -> forall p, In p (q :: l) -> fst p <> [] /\ hd T_EOF (fst p) <> b) by (intros b B p0 I0; apply (HB b B); now right).
    destruct (IH ltac:(discriminate) NC EL' HB' (yylex s1) Y1 ltac:(congruence)) as (ts2 & s2 & RU2 & RD2 & B1 & B2 & B3 & B4).
    exists (ts ++ Leaf T_COMMA (pos s1) :: ts2), s2. split; [|split].
    + refine (Runs_list_go rs _ _ brk _ _ _ _ RU _ _ RU2).
      * rewrite (yytoken_cons _ _ _ A1). reflexivity.
      * unfold breaks. destruct brk as [b|]; [|reflexivity]. rewrite (yytoken_hd _ _ Y1). destruct (HB b eq_refl q (or_intror (or_introl eq_refl))) as [NQ HQ].
        apply teq_neq. rewrite cells_hd by exact NQ. exact HQ.
    + rewrite map_app, RD. cbn [map read]. rewrite RD2. reflexivity.
    + repeat split; congruence.
Qed.
(** The same with a comma at the end. *)
Fixpoint cellEnds (l : list cell) : list val := match l with [] => [] | p :: r => snd p :: VTok T_COMMA :: cellEnds r end.
Lemma takes_cells_end : forall i b l r, l <> [] ->
  (forall p r', In p l -> (exists r2, r' = T_COMMA :: r2) -> Takes i (fst p) r' [snd p]) ->
  (forall p, In p l -> fst p <> [] /\ hd T_EOF (fst p) <> b) ->
  Takes (IList i T_COMMA (Some b)) (commas (map fst l) ++ [T_COMMA]) (b :: r) (cellEnds l).
Proof.
  intros i b l r. induction l as [|p l IH]; intros N EL HB; [congruence|]. intros s R V.
  destruct l as [|q l].
  - cbn [map commas] in R. rewrite <- app_assoc in R. cbn [app] in R.
    destruct (EL p (T_COMMA :: b :: r) (or_introl eq_refl) (ex_intro _ _ eq_refl) s R V) as (ts & s1 & RU & RD & A1 & A2 & A3 & A4).
    destruct (yylex_rest _ _ _ A1) as (Y1 & Y2 & Y3 & Y4 & _).
    exists (ts ++ [Leaf T_COMMA (pos s1)]), (yylex s1). split; [|split].
    + apply Runs_list_break; [exact RU|rewrite (yytoken_cons _ _ _ A1); reflexivity|]. unfold breaks. rewrite (yytoken_cons _ _ _ Y1). apply teq_refl.
    + rewrite map_app, RD. reflexivity.
    + repeat split; congruence.
  - change (commas (map fst (p :: q :: l))) with (fst p ++ T_COMMA :: commas (map fst (q :: l))) in R.
    replace (((fst p ++ T_COMMA :: commas (map fst (q :: l))) ++ [T_COMMA]) ++ b :: r) with (fst p ++ T_COMMA :: (commas (map fst (q :: l)) ++ [T_COMMA]) ++ b :: r) in R
      by (rewrite <- !app_assoc; reflexivity).
    destruct (EL p _ (or_introl eq_refl) (ex_intro _ _ eq_refl) s R V) as (ts & s1 & RU & RD & A1 & A2 & A3 & A4).
    destruct (yylex_rest _ _ _ A1) as (Y1 & Y2 & Y3 & Y4 & _).
    assert (EL' : forall p r', In p (q :: l) -> (exists r2, r' = T_COMMA :: r2) -> Takes i (fst p) r' [snd p]) by (intros p0 r' I0; apply EL; now right).
    assert (HB' : forall p, In p (q :: l) -> fst p <> [] /\ hd T_EOF (fst p) <> b) by (intros p0 I0; apply HB; now right).
    destruct (IH ltac:(discriminate) EL' HB' (yylex s1) Y1 ltac:(congruence)) as (ts2 & s2 & RU2 & RD2 & B1 & B2 & B3 & B4).
    exists (ts ++ Leaf T_COMMA (pos s1) :: ts2), s2. split; [|split].
    + refine (Runs_list_go rs _ _ (Some b) _ _ _ _ RU _ _ RU2).
      * rewrite (yytoken_cons _ _ _ A1). reflexivity.
      * unfold breaks. rewrite (yytoken_hd _ _ Y1). destruct (HB q (or_intror (or_introl eq_refl))) as [NQ HQ].
        apply teq_neq. rewrite <- app_assoc, cells_hd by exact NQ. exact HQ.
    + rewrite map_app, RD. cbn [map read]. rewrite RD2. reflexivity.
    + repeat split; congruence.
Qed.

(** ** Level 21: what stands behind the rollback *)
Lemma takes_scalar : forall w r v, test (IRollback (seqs [IN n_variable; IAct (ASetIsVariable true)]) (IN n_scalar)) (at_ (w ++ r)) = true ->
  enters (rule n_variable) (at_ (w ++ r)) = false ->
  test (ICond CIife (IN n_iifeSyntax)) (at_ (w ++ r)) = false -> test (IT T_LPAREN) (at_ (w ++ r)) = false -> test (IT T_BACKTICK) (at_ (w ++ r)) = false ->
  Takes (IN n_scalar) w r [v] -> Takes (rule n_varExpressionNormal) w r [v].
Proof.
  intros w r v E1 E2 E3 E4 E5 T. cbn [rule alts]. apply takes_alt_r; [exact E3|]. apply takes_alt_r; [exact E4|]. apply takes_alt_r; [exact E5|].
  apply takes_alt_l; [exact E1|]. apply takes_catch; [|exact T]. cbn [seqs]. apply refuses_seq_l, refuses_N_no, E2.
Qed.
Ltac nav := first [yes|no; nav].
Lemma lit_takes : forall k r, hd T_EOF r <> T_LBRACKET -> exists vs, Takes (rule n_commonScalar) (litText k) r vs /\ readNode n_commonScalar vs = VEx (ELit k).
Proof.
  intros k r NB.
  assert (SX : Takes (IStar (IN n_stringIndexSpecifier)) [] r []).
  { apply takes_star_stop. replace (first (IN n_stringIndexSpecifier)) with (setOf [T_LBRACKET]) by (vm_compute; reflexivity).
    rewrite mem_setOf. cbn [existsb]. apply orb_false_iff. split; [|reflexivity]. now apply teq_neq. }
  destruct k; cbn [litText].
  1: exists [VTok T_DNUMBER]. 2: exists [VTok T_CONSTANT_ENCAPSED_STRING]. 3: exists [VTok T_LINE]. 4: exists [VTok T_DIR]. 5: exists [VTok T_FILE].
  6: exists [VTok T_CLASS_C]. 7: exists [VTok T_TRAIT_C]. 8: exists [VTok T_METHOD_C]. 9: exists [VTok T_FUNC_C]. 10: exists [VTok T_NAMESPACE_C].
  11: exists [VTok T_START_NOWDOC; VTok T_STRING; VTok T_END_NOWDOC].
  all: split; [|reflexivity]; cbn [rule alts].
  1, 3-10: nav; apply takes_tok.
  - nav. cbn [seqs]. apply (takes_seq rs _ _ [T_CONSTANT_ENCAPSED_STRING] [] r [VTok T_CONSTANT_ENCAPSED_STRING] []); [apply takes_tok|exact SX].
  - nav. cbn [seqs]. apply (takes_seq rs _ _ [T_START_NOWDOC] [T_STRING; T_END_NOWDOC] r [VTok T_START_NOWDOC] [VTok T_STRING; VTok T_END_NOWDOC]); [apply takes_tok|].
    apply (takes_seq rs _ _ [T_STRING] [T_END_NOWDOC] r [VTok T_STRING] [VTok T_END_NOWDOC]); apply takes_tok.
Qed.
Lemma lit_good : forall k, Good 21 (litText k) (ELit k) false.
Proof.
  intros k. apply good_takes; [lia|split; [destruct k; discriminate|destruct k; cbn; tauto]|]. intros r ST. exists [VEx (ELit k)].
  split; [|reflexivity]. change (ntOf 21) with n_varExpressionNormal.
  destruct (lit_takes k r ltac:(neq)) as (vs & T & RN).
  apply takes_scalar; [destruct k; vm_compute; reflexivity..|].
  apply (takes_N rs _ _ _ [VEx (ELit k)]); [destruct k; vm_compute; reflexivity| |reflexivity]. cbn [rule alts].
  apply takes_alt_l; [destruct k; vm_compute; reflexivity|].
  apply (takes_N rs _ _ _ vs); [destruct k; vm_compute; reflexivity|exact T|exact RN].
Qed.
End Atoms.
