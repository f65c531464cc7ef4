(** Proofs for C72: the uses of a whole piece (proof file). *)
From Coq Require Import List Bool Arith Lia.
From Verif Require Import PhpTypes MergeModel VarModel VarSpec VarProofs VarProofs2 VarProofs3 OccModel OccSpec OccProofs OccProofs2 OccProofs3 OccProofs4 OccProofs5.
Import ListNotations.
Open Scope nat_scope.

Lemma lastOf_In {A} (l : list A) a : lastOf l = Some a -> In a l.
Proof. induction l as [|b l IH]; [discriminate|]. destruct l as [|b' l]; [intros [= <-]; now left|]. intros H. right. now apply IH. Qed.
Lemma lastOf_some {A} (l : list A) : l <> [] -> exists a, lastOf l = Some a.
Proof. induction l as [|b l IH]; [congruence|]. intros _. destruct l as [|b' l]; [exists b; reflexivity|]. apply IH. discriminate. Qed.
Lemma named_In x l e : In e (named x l) <-> In e l /\ en e = x.
Proof. unfold named. rewrite filter_In, Nat.eqb_eq. reflexivity. Qed.

Section Uses.
Variable top : scope.
Variable isSuper : nat -> bool.
Notation resolve := (resolve top isSuper).

(** A scope: what it declares, and where. *)
Definition Fit (c : scope) (D : nat -> nat -> Prop) (Gl : nat -> Prop) : Prop :=
  (forall x p, Known c x p <-> exists q, q <= p /\ D x q) /\
  (forall e, In e (own c ++ imps c) -> isVar e = true /\ D (en e) (ep e) /\ (ea e = true -> Gl (en e))).

Lemma superglobal_In x p e : superglobal top isSuper x p = Some e -> Super isSuper top x p e.
Proof.
  unfold superglobal. intros H. apply find_some in H as [H1 H2]. apply andb_true_iff in H2 as [H2 H3].
  unfold inScopeBefore in H1. unfold Super. destruct (before (S p) (named x (own top))) as [|a l] eqn:E.
  - apply (proj1 (before_In _ _ _)) in H1 as [H1 H4]. apply (proj1 (named_In _ _ _)) in H1 as [H1 H5]. split; [exact H2|]. split; [exact H3|]. split; [exact H5|]. split; [lia|].
    right. split; [exact H1|]. intros e' He' En. destruct (Nat.le_gt_cases (ep e') p) as [HL|HL]; [|exact HL]. exfalso.
    assert (HI : In e' (before (S p) (named x (own top)))) by (apply before_In; split; [now apply named_In|lia]). rewrite E in HI. exact HI.
  - rewrite <- E in H1. apply (proj1 (before_In _ _ _)) in H1 as [H1 H4]. apply (proj1 (named_In _ _ _)) in H1 as [H1 H5].
    split; [exact H2|]. split; [exact H3|]. split; [exact H5|]. split; [lia|auto].
Qed.
Lemma superglobal_none x p : superglobal top isSuper x p = None -> forall e, ~ Super isSuper top x p e.
Proof.
  unfold superglobal. intros H e (H1 & H2 & H3 & H4 & H5).
  assert (HI : In e (inScopeBefore x (S p) top)).
  { unfold inScopeBefore. destruct H5 as [H5|[H5 H6]].
    - assert (HI : In e (before (S p) (named x (own top)))) by (apply before_In; split; [now apply named_In|lia]).
      destruct (before (S p) (named x (own top))); [destruct HI|exact HI].
    - destruct (before (S p) (named x (own top))) as [|a l] eqn:E; [apply before_In; split; [now apply named_In|lia]|]. exfalso.
      assert (HA : In a (before (S p) (named x (own top)))) by (rewrite E; now left). apply (proj1 (before_In _ _ _)) in HA as [HA HB]. apply (proj1 (named_In _ _ _)) in HA as [HA HC].
      specialize (H6 a HA HC). lia. }
  pose proof (find_none _ _ H e HI) as HN. cbv beta in HN. rewrite H1, H2 in HN. discriminate.
Qed.

Lemma find_In x p c e : findVariable x p c = Some e -> In e (own c ++ imps c) /\ en e = x /\ ep e <= p.
Proof.
  unfold findVariable. intros H. apply lastOf_In in H. apply filter_In in H as [H _]. unfold inScopeBefore in H. rewrite in_app_iff.
  destruct (before (S p) (named x (own c))) as [|a l] eqn:E; [|rewrite <- E in H]; apply (proj1 (before_In _ _ _)) in H as [H HL]; apply (proj1 (named_In _ _ _)) in H as [H HN]; (split; [auto|split; [exact HN|lia]]).
Qed.
Lemma find_known x p c : (forall e, In e (own c ++ imps c) -> isVar e = true) -> Known c x p -> exists e, findVariable x p c = Some e.
Proof.
  intros HV (e & He & HN & HP). unfold findVariable. apply lastOf_some.
  assert (HI : exists a, In a (inScopeBefore x (S p) c)).
  { unfold inScopeBefore. destruct (before (S p) (named x (own c))) as [|a l] eqn:E; [|exists a; now left]. exists e.
    apply in_app_iff in He as [He|He]; [|apply before_In; split; [now apply named_In|lia]]. exfalso.
    assert (HA : In e (before (S p) (named x (own c)))) by (apply before_In; split; [now apply named_In|lia]). rewrite E in HA. exact HA. }
  destruct HI as (a & Ha). assert (HF : In a (filter isVar (inScopeBefore x (S p) c))).
  { apply filter_In. split; [exact Ha|]. apply HV. unfold inScopeBefore in Ha. rewrite in_app_iff.
    destruct (before (S p) (named x (own c))) as [|b l] eqn:E; [|rewrite <- E in Ha]; apply (proj1 (before_In _ _ _)) in Ha as [Ha _]; apply (proj1 (named_In _ _ _)) in Ha as [Ha _]; auto. }
  intros E. rewrite E in HF. exact HF.
Qed.

Lemma resolve_unknown cls c D Gl x p : Fit c D Gl -> x <> this -> (resolve cls c x p = Unknown <-> (~ exists q, q <= p /\ D x q) /\ forall e, ~ Super isSuper top x p e).
Proof.
  intros [HK HD] Hx. unfold OccModel.resolve. rewrite (proj2 (Nat.eqb_neq x this) Hx). rewrite <- HK. destruct (findVariable x p c) as [e|] eqn:EF.
  - split; [discriminate|]. intros [H _]. destruct H. apply find_In in EF as (A & B & C). exists e. auto.
  - assert (HN : ~ Known c x p). { intros H. apply find_known in H as (e & H); [congruence|]. intros e He. apply HD, He. }
    destruct (superglobal top isSuper x p) as [e|] eqn:ES.
    + split; [discriminate|]. intros [_ H]. destruct (H e). now apply superglobal_In.
    + split; [|reflexivity]. intros _. split; [exact HN|now apply superglobal_none].
Qed.
Lemma resolve_declared cls c D Gl x p e : Fit c D Gl -> x <> this -> resolve cls c x p = Declared e ->
  en e = x /\ ep e <= p /\ (In e (own c ++ imps c) \/ (~ exists q, q <= p /\ D x q) /\ Super isSuper top x p e).
Proof.
  intros [HK HD] Hx. unfold OccModel.resolve. rewrite (proj2 (Nat.eqb_neq x this) Hx). destruct (findVariable x p c) as [e'|] eqn:EF.
  - intros [= ->]. apply find_In in EF as (A & B & C). auto.
  - destruct (superglobal top isSuper x p) as [e'|] eqn:ES; [|discriminate]. intros [= ->]. apply superglobal_In in ES. pose proof ES as (_ & _ & A & B & _).
    split; [exact A|]. split; [exact B|]. right. split; [|exact ES]. rewrite <- HK. intros H. apply find_known in H as (a & H); [congruence|]. intros a Ha. apply HD, Ha.
Qed.
Lemma resolve_known cls c D Gl x p : Fit c D Gl -> x <> this -> (exists q, q <= p /\ D x q) -> exists e, resolve cls c x p = Declared e /\ In e (own c ++ imps c).
Proof.
  intros [HK HD] Hx H. apply HK in H. apply find_known in H as (e & H); [|intros e He; apply HD, He]. exists e. unfold OccModel.resolve. rewrite (proj2 (Nat.eqb_neq x this) Hx), H.
  split; [reflexivity|]. now apply find_In in H.
Qed.
End Uses.

Lemma scopeAt_Fit c ps b : scopeAt c ps b -> Fit c (fun x q => (exists t, In (q, x, t) ps) \/ exists h, GivesAt b x q h) (fun x => exists q, GivesAt b x q ByGlobal).
Proof.
  intros [H1 H2]. split; [|exact H2]. intros x p. rewrite H1. unfold isParam, givenBy. split.
  - intros [(q & t & A & B)|(q & h & A & B)]; exists q; eauto.
  - intros (q & A & [(t & B)|(h & B)]); [left|right]; eauto.
Qed.

Lemma okay_body k ps us b : okay k -> Inside k (Fun ps us b) -> okay b.
Proof.
  intros HK HI. remember (Fun ps us b) as f eqn:Ef. revert Ef. induction HI as [ps' us' b'|ps' us' b' f HI IH|k1 k2 f HP HI IH]; intros Ef.
  - injection Ef as -> -> ->. destruct HK as (V' & N' & G' & g & HK). cbn [ok] in HK. cbv zeta in HK. do 4 eexists. exact HK.
  - apply IH; [|exact Ef]. destruct HK as (V' & N' & G' & g & HK). cbn [ok] in HK. cbv zeta in HK. do 4 eexists. exact HK.
  - apply IH; [|exact Ef]. eapply okay_part; eauto.
Qed.
Lemma statements_body k ps us b : statements k -> Inside k (Fun ps us b) -> statements b.
Proof.
  intros HK HI. remember (Fun ps us b) as f eqn:Ef. revert Ef. induction HI as [ps' us' b'|ps' us' b' f HI IH|k1 k2 f HP HI IH]; intros Ef.
  - injection Ef as -> -> ->. exact (proj2 HK).
  - apply IH; [exact (proj2 HK)|exact Ef].
  - apply IH; [|exact Ef]. eapply statements_part; eauto.
Qed.

Section Whole.
Variable T : st -> nd -> ty.
Variable F : st -> nd -> ty.
Notation visit := (visit T F).

Lemma main_Fit V N G s n : ok V N G (cft s) n -> Env V N G s -> (forall x, Gives n x -> N x) -> begins s n -> orderly n ->
  Fit (cur (visit n s)) (fun x q => (exists e, In e (imps (cur s)) /\ en e = x /\ ep e = q) \/ exists h, GivesAt n x q h) (fun x => (exists e, In e (imps (cur s)) /\ en e = x /\ ea e = true) \/ exists q, GivesAt n x q ByGlobal).
Proof.
  intros HO HE HN [HB1 HB2] HOr. set (Gl := fun x => exists q, GivesAt n x q ByGlobal).
  assert (HInv : Inv Gl (cur s)).
  { split; [rewrite HB1; constructor|]. apply Forall_forall. intros e He. now apply HB2. }
  assert (HFit : Fits Gl (GivesAt n) s).
  { split; [intros x q H; exists q; exact H|]. intros x q H. split; [exact (HOr x q H)|]. intros e He. exact (proj2 (HB2 e He) _ _ _ H). }
  pose proof (visit_good2 T F n _ _ G Gl s HO HE HN HInv HFit) as [P1 P2 P3 P4].
  specialize (P4 Gl (proj1 HFit) HInv). split.
  - intros x p. rewrite P1. unfold Known. rewrite HB1. cbn [app]. split.
    + intros [(e & A & B & C)|(q & h & A & B)]; [exists (ep e); split; [exact C|]; left; exists e; auto|exists q; eauto].
    + intros (q & A & [(e & B & C & D)|(h & B)]); [left; exists e; subst; auto|right; eauto].
  - intros e He. rewrite P2 in He. apply in_app_iff in He as [He|He].
    + destruct P4 as [P4 _]. rewrite Forall_forall in P4. destruct (P4 e He) as [Q1 Q2]. split; [exact Q1|]. split; [|intros Ha; right; exact (Q2 Ha)].
      destruct (P3 e He) as [(e0 & H0 & _)|H]; [rewrite HB1 in H0; destruct H0|]. auto.
    + destruct (HB2 e He) as (A & B). split; [exact A|]. split; [left; eauto|]. intros Ha. left. eauto.
Qed.

Variable isSuper : nat -> bool.
Variable home : nat -> nat.
Variables V G : nat -> Prop.
Variable n : nd.
Variable s : st.
Hypothesis HP : proper V G n s.
Let H1 := pr_outer _ _ _ _ HP.
Let H2 := pr_globals _ _ _ _ HP.
Let H3 := pr_cur _ _ _ _ HP.
Let H4 := pr_top _ _ _ _ HP.
Let HO := pr_ok _ _ _ _ HP.
Let HS := pr_statements _ _ _ _ HP.
Let HT := pr_tidy _ _ _ _ HP.
Let HB := pr_begins _ _ _ _ HP.
Let s' := visit n s.
Let top := topOf s'.
Let HE : Env V (fun x => declared (cur s) x \/ Gives n x) G s := {| e_outer := H1; e_cur := fun x H => or_introl H; e_glob := H2; e_sk := H3; e_top := H4 |}.
Let HN : forall x, Gives n x -> declared (cur s) x \/ Gives n x := fun x H => or_intror H.

Lemma main_closes : exists new, closed s' = closed s ++ new /\ Match n new.
Proof using HP. exact (closes T F n V _ G s HO HE HN HS (proj2 HT)). Qed.

Lemma uses_sound x p t : In {| up := p; ux := x; ut := t |} (usesOf T F isSuper home n s) ->
  exists b D Gl c cls, ScopeIn s n b D Gl cls /\ Fit c D Gl /\
    ((Occurs b x p /\ t = OccModel.resolve top isSuper cls c x p /\ forall e, t = Declared e -> homeOf home e <> p) \/
     (GivesAt b x p ByGlobal /\ exists e, t = Declared e /\ In e (own top ++ imps top) /\ en e = x /\ isVar e = true)).
Proof using HP.
  intros HU. destruct main_closes as (new & EC & M). unfold usesOf in HU. cbv zeta in HU. fold s' in HU. rewrite EC, skipn_app, skipn_all, Nat.sub_diag in HU. cbn [app skipn] in HU. fold top in HU.
  change (match outer s with c :: _ => _ | [] => false end) with (inClass s) in HU. set (cls := inClass s) in HU.
  destruct (walk_sound top isSuper home n new [] cls (cur s') {| fl := false; rs := new; out := [] |} M (eq_sym (app_nil_r _))) as [_ HSt].
  apply HSt in HU as [[]|HU].
  assert (HG : forall k, (exists y q e r, GivesAt k y q ByGlobal /\ filter isVar (inScope y top) = e :: r /\ {| up := p; ux := x; ut := t |} = {| up := q; ux := y; ut := Declared e |}) ->
     GivesAt k x p ByGlobal /\ exists e, t = Declared e /\ In e (own top ++ imps top) /\ en e = x /\ isVar e = true).
  { intros k (y & q & e & r & A & B & C). injection C as -> -> ->. split; [exact A|]. exists e. split; [reflexivity|].
    assert (HI : In e (filter isVar (inScope y top))) by (rewrite B; now left). apply filter_In in HI as [HI HV]. rewrite in_app_iff.
    unfold inScope in HI. destruct (named y (own top)) as [|a l] eqn:E; [|rewrite <- E in HI]; apply (proj1 (named_In _ _ _)) in HI as [HI HNm]; auto. }
  destruct HU as [HU|(ps & us & b & c' & HI & SC & HU)].
  - eexists n, _, _, (cur s'), cls.
    split; [apply In_piece|]. split; [exact (main_Fit _ _ _ _ _ HO HE HN HB (proj1 HT))|].
    destruct HU as [(y & q & A & B & C)|HU]; [|right; now apply HG]. left. unfold useAt in B. injection B as -> -> ->. auto.
  - eexists b, _, _, c', false. split; [exact (In_function s n ps us b HI)|]. split; [exact (scopeAt_Fit _ _ _ SC)|].
    destruct HU as [(y & q & A & B & C)|HU]; [|right; now apply HG]. left. unfold useAt in B. injection B as -> -> ->. auto.
Qed.

Lemma uses_complete b D Gl cls : ScopeIn s n b D Gl cls -> exists c, Fit c D Gl /\ In c (cur s' :: closed s') /\
  forall x p, Occurs b x p -> Sure top isSuper home cls c x p \/ (NotThere top isSuper home cls c x p /\ Free b x p) ->
  In {| up := p; ux := x; ut := OccModel.resolve top isSuper cls c x p |} (usesOf T F isSuper home n s).
Proof using HP.
  intros HI. destruct main_closes as (new & EC & M). unfold usesOf. cbv zeta. fold s'. rewrite EC, skipn_app, skipn_all, Nat.sub_diag. cbn [app skipn]. fold top.
  change (match outer s with c :: _ => _ | [] => false end) with (inClass s).
  assert (HK : okay n) by (do 4 eexists; exact HO).
  destruct HI as [|ps us b HI].
  - exists (cur s'). split; [exact (main_Fit _ _ _ _ _ HO HE HN HB (proj1 HT))|]. split; [now left|].
    intros x p HOc [HSu|[HNT HF]]; [now apply walk_sure|]. apply (proj1 (walk_free top isSuper home n HS HK (inClass s) (cur s') x p HOc HNT HF)). reflexivity.
  - destruct (walk_inside top isSuper home n ps us b new [] (inClass s) (cur s') {| fl := false; rs := new; out := [] |} HI M (eq_sym (app_nil_r _))) as (c' & u' & HIn & SC & Hfl & HW).
    exists c'. split; [exact (scopeAt_Fit _ _ _ SC)|]. split; [right; apply in_app_iff; auto|].
    pose proof (statements_body _ _ _ _ HS HI) as HSb. pose proof (okay_body _ _ _ _ HK HI) as HKb.
    intros x p HOc [HSu|[HNT HF]]; apply HW; [now apply walk_sure|]. now apply (proj1 (walk_free top isSuper home b HSb HKb false c' x p HOc HNT HF)).
Qed.

Lemma uses_unknown x p : x <> this -> In {| up := p; ux := x; ut := Unknown |} (usesOf T F isSuper home n s) ->
  exists b D A m, ScopeIn s n b D A m /\ Occurs b x p /\ (forall q, D x q -> p < q) /\ forall e, ~ Super isSuper top x p e.
Proof using HP.
  intros Hx HU. apply uses_sound in HU as (b & D & A & c & cls & HI & HF & HU). exists b, D, A, cls. split; [exact HI|].
  destruct HU as [(HOc & ER & _)|(_ & e & E & _)]; [|discriminate]. split; [exact HOc|]. symmetry in ER.
  apply (resolve_unknown top isSuper cls c D A x p HF Hx) in ER as [E1 E2]. split; [|exact E2].
  intros q HD. destruct (Nat.le_gt_cases q p) as [HL|HL]; [|exact HL]. destruct E1. eauto.
Qed.
Lemma uses_marked b D A m x p : ScopeIn s n b D A m -> x <> this -> Occurs b x p -> ~ Hidden b x p -> (forall q, D x q -> p < q) -> (forall e, ~ Super isSuper top x p e) ->
  In {| up := p; ux := x; ut := Unknown |} (usesOf T F isSuper home n s).
Proof using HP.
  intros HI Hx HOc HH HD HSu. assert (HG : ~ exists h, GivesAt b x p h).
  { intros (h & Hh). assert (HDp : D x p) by (destruct HI; right; eauto). specialize (HD p HDp). lia. }
  destruct (uses_complete b D A m HI) as (c & HF & _ & HU). set (cls := m) in *.
  assert (ER : OccModel.resolve top isSuper cls c x p = Unknown).
  { apply (resolve_unknown top isSuper cls c D A x p HF Hx). split; [|exact HSu]. intros (q & HL & Hq). specialize (HD q Hq). lia. }
  specialize (HU x p HOc). rewrite ER in HU. apply HU. right. split; [|split; assumption]. intros e E. rewrite ER in E. discriminate.
Qed.
Lemma uses_declared x p e : x <> this -> In {| up := p; ux := x; ut := Declared e |} (usesOf T F isSuper home n s) ->
  en e = x /\ exists b D A m, ScopeIn s n b D A m /\
    ((Occurs b x p /\ D x (ep e) /\ ep e <= p /\ (~ A x -> ep e < p)) \/
     (Occurs b x p /\ (forall q, D x q -> p < q) /\ Super isSuper top x p e) \/
     (GivesAt b x p ByGlobal /\ In e (own top ++ imps top) /\ isVar e = true)).
Proof using HP.
  intros Hx HU. apply uses_sound in HU as (b & D & A & c & cls & HI & HF & HU).
  destruct HU as [(HOc & ER & HNT)|(HG & e' & E & H5 & H6 & H7)].
  - symmetry in ER. apply (resolve_declared top isSuper cls c D A x p e HF Hx) in ER as (E1 & E2 & E3). split; [exact E1|]. exists b, D, A, cls. split; [exact HI|].
    destruct E3 as [E3|[E3 E4]].
    + left. destruct (proj2 HF e E3) as (_ & F1 & F2). rewrite E1 in F1, F2. split; [exact HOc|]. split; [exact F1|]. split; [exact E2|]. intros HA.
      specialize (HNT e eq_refl). unfold homeOf in HNT. destruct (ea e); [destruct HA; auto|]. lia.
    + right. left. split; [exact HOc|]. split; [|exact E4]. intros q HD. destruct (Nat.le_gt_cases q p) as [HL|HL]; [|exact HL]. destruct E3. eauto.
  - injection E as <-. split; [exact H6|]. exists b, D, A, cls. split; [exact HI|]. right. right. auto.
Qed.
Lemma uses_connected b D A m x p q : ScopeIn s n b D A m -> x <> this -> Occurs b x p -> q < p -> D x q -> ~ D x p -> ~ A x ->
  exists e, In {| up := p; ux := x; ut := Declared e |} (usesOf T F isSuper home n s) /\ en e = x /\ D x (ep e) /\ ep e < p.
Proof using HP.
  intros HI Hx HOc HL HD HN' HA. destruct (uses_complete b D A m HI) as (c & HF & _ & HU). set (cls := m) in *.
  destruct (resolve_known top isSuper cls c D A x p HF Hx) as (e & ER & He); [exists q; split; [lia|exact HD]|].
  destruct (resolve_declared top isSuper cls c D A x p e HF Hx ER) as (E1 & E2 & _). destruct (proj2 HF e He) as (_ & F1 & F2). rewrite E1 in F1, F2.
  assert (HLt : ep e < p) by (destruct (Nat.eq_dec (ep e) p) as [E|E]; [rewrite E in F1; contradiction|lia]).
  exists e. split; [|auto]. specialize (HU x p HOc). rewrite ER in HU. apply HU. left. left. exists e. split; [exact ER|]. unfold homeOf. destruct (ea e); [destruct HA; auto|exact HLt].
Qed.

(** No occurrence is lost: it is a use of the declaration found, or that declaration is there. *)
Lemma uses_covered b D A m x p : ScopeIn s n b D A m -> x <> this -> Occurs b x p -> (exists q, q <= p /\ D x q) -> ~ A x ->
  (exists e, In {| up := p; ux := x; ut := Declared e |} (usesOf T F isSuper home n s) /\ en e = x /\ ep e < p) \/
  (exists e c, In c (cur s' :: closed s') /\ In e (own c ++ imps c) /\ en e = x /\ ep e = p).
Proof using HP.
  intros HI Hx HOc HD HA. destruct (uses_complete b D A m HI) as (c & HF & Hc & HU).
  destruct (resolve_known top isSuper m c D A x p HF Hx HD) as (e & ER & He).
  destruct (resolve_declared top isSuper m c D A x p e HF Hx ER) as (E1 & E2 & _). destruct (proj2 HF e He) as (_ & _ & F2). rewrite E1 in F2.
  destruct (Nat.eq_dec (ep e) p) as [E|E]; [right; exists e, c; auto|]. left.
  exists e. split; [|split; [exact E1|lia]]. specialize (HU x p HOc). rewrite ER in HU. apply HU. left. left. exists e. split; [exact ER|]. unfold homeOf. destruct (ea e); [destruct HA; auto|lia].
Qed.
Lemma resolve_this cls c p : OccModel.resolve top isSuper cls c this p =
  if cls then TheClass else match superglobal top isSuper this p with Some e => Declared e | None => Unknown end.
Proof using. unfold OccModel.resolve. change (Nat.eqb this this) with true. destruct cls; reflexivity. Qed.
Lemma uses_class x p : In {| up := p; ux := x; ut := TheClass |} (usesOf T F isSuper home n s) ->
  x = this /\ inClass s = true /\ Occurs n x p.
Proof using HP.
  intros HU. apply uses_sound in HU as (b & D & A & c & cls & HI & HF & HU). destruct HU as [(HOc & ER & _)|(_ & e & E & _)]; [|discriminate].
  destruct (Nat.eq_dec x this) as [->|Hx].
  - rewrite resolve_this in ER. split; [reflexivity|]. destruct HI as [|]; [|destruct (superglobal _ _ _ _); discriminate].
    split; [|exact HOc]. destruct (inClass s); [reflexivity|]. destruct (superglobal _ _ _ _); discriminate.
  - exfalso. unfold OccModel.resolve in ER. rewrite (proj2 (Nat.eqb_neq x this) Hx) in ER. destruct (findVariable x p c); [discriminate|]. destruct (superglobal _ _ _ _); discriminate.
Qed.
Lemma uses_this b D A m p : ScopeIn s n b D A m -> Occurs b this p -> (forall e, ~ Super isSuper top this p e) ->
  In {| up := p; ux := this; ut := if m then TheClass else Unknown |} (usesOf T F isSuper home n s).
Proof using HP.
  intros HI HOc HSu. destruct (uses_complete b D A m HI) as (c & HF & _ & HU). specialize (HU this p HOc). rewrite resolve_this in HU.
  destruct (superglobal top isSuper this p) as [e|] eqn:E; [apply superglobal_In in E; destruct (HSu e E)|]. apply HU. left. right. split; [reflexivity|].
  rewrite resolve_this, E. destruct m; discriminate.
Qed.
End Whole.
