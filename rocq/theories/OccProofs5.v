(** Proofs for C72: no use is missed (proof file). *)
From Coq Require Import List Bool Arith Lia.
From Verif Require Import PhpTypes MergeModel VarModel VarSpec VarProofs VarProofs2 VarProofs3 OccSpec OccProofs OccProofs2 OccModel OccProofs3 OccProofs4.
Import ListNotations.
Open Scope nat_scope.

Lemma statements_part n k : statements n -> Part n k -> statements k.
Proof.
  intros HS HP. inversion HP; subst; cbn [statements closureFree] in HS.
  - now apply (proj1 (all_In _ _) HS).
  - apply free_statements. now apply (proj1 (all_In _ _) HS).
  - now apply free_statements.
  - now apply free_statements.
  - apply free_statements. now apply (proj1 (all_In _ _) HS).
  - now apply free_statements.
  - now apply free_statements.
  - now apply free_statements.
  - destruct HS as (_ & _ & H & _). now apply free_statements.
  - tauto.
  - subst. exact I.
  - exact HS.
Qed.

Definition okay (n : nd) : Prop := exists V N G g, ok V N G g n.
Lemma okay_part n k : okay n -> Part n k -> okay k.
Proof.
  intros (V & N & G & g & HO) HP. inversion HP; subst; cbn [ok] in HO.
  - exists V, N, G, g. now apply (proj1 (all_In _ _) HO).
  - exists V, N, G, g. now apply (proj1 (all_In _ _) (proj2 HO)).
  - exists V, N, G, g. tauto.
  - exists V, N, G, g. tauto.
  - exists V, N, G, (calling c g). now apply (proj1 (all_In _ _) (proj1 HO)).
  - exists V, N, G, g. tauto.
  - exists V, N, G, g. tauto.
  - exists V, N, G, g. tauto.
  - exists V, N, G, g. tauto.
  - exists V, N, G, g. tauto.
  - exists V, N, G, g. tauto.
  - exists V, N, G, g. tauto.
Qed.

Section Uses.
Variable top : scope.
Variable isSuper : nat -> bool.
Variable home : nat -> nat.
Notation walk := (walk top isSuper home).
Notation resolve := (resolve top isSuper).
Notation homeOf := (homeOf home).
Notation occurs := (OccModel.occurs top isSuper home).
Notation useAt := (useAt top isSuper).

Lemma fold_in (W : nd -> ust -> ust) (P : ust -> Prop) l ev :
  (forall k u, In k l -> P u -> P (W k u)) -> (forall k u, In k l -> In ev (out u) -> In ev (out (W k u))) ->
  forall u, P u -> In ev (out u) \/ (exists k, In k l /\ forall u, P u -> In ev (out (W k u))) -> In ev (out (fold_left (fun u k => W k u) l u)).
Proof.
  induction l as [|k l IH]; intros HP HM u HU H; cbn [fold_left].
  - destruct H as [H|(k & [] & _)]. exact H.
  - apply IH.
    + intros k' u' Hk. apply HP. now right.
    + intros k' u' Hk. apply HM. now right.
    + apply HP; [now left|exact HU].
    + destruct H as [H|(k' & [<-|Hk] & H)]; [left; apply HM; [now left|exact H]|left; now apply H|right; eauto].
Qed.

Lemma walk_mono n : forall cls c u ev, In ev (out u) -> In ev (out (walk cls c n u)).
Proof.
  induction n as [|l IH|b ss l IH|l r IHl IHr|c l IH|n IH|e v1 v2 b IHe IH1 IH2 IHb|p x v IH|p x|t p x b IH|ps us b IH] using nd_ind'; intros cls cc u ev H; cbn [OccModel.walk].
  - exact H.
  - rewrite Forall_forall in IH. apply (fold_in (fun k u => walk cls cc k u) (fun _ => True)); auto.
  - cbv zeta. rewrite Forall_forall in IH. set (u1 := match ss with [] => u | _ => setFl false u end). set (u2 := match b with BName p x _ => occurs cls cc p x u1 | BOther => u1 end).
    assert (H2 : In ev (out u2)).
    { assert (H1 : In ev (out u1)) by (unfold u1; destruct ss; exact H). unfold u2. destruct b; [now apply occurs_mono|exact H1]. }
    assert (H3 : In ev (out (fold_left (fun u k => match k with Call _ _ => walk cls cc k u | _ => setFl false (walk cls cc k u) end) l u2))).
    { apply (fold_in (fun k u => match k with Call _ _ => walk cls cc k u | _ => setFl false (walk cls cc k u) end) (fun _ => True)); auto.
      intros k u' Hk Hu. specialize (IH k Hk cls cc u' ev Hu). destruct k; exact IH. }
    destruct ss; exact H3.
  - cbn [setFl out]. apply IHr. cbn [setFl out]. now apply IHl.
  - rewrite Forall_forall in IH. apply (fold_in (fun k u => setFl false (walk cls cc k u)) (fun _ => True)); auto. intros k u' Hk Hu. cbn [setFl out]. now apply IH.
  - now apply IH.
  - cbv zeta. apply IHb. cbn [setFl out]. destruct v2 as [v|]; [apply (IH2 v eq_refl); cbn [setFl out]|]; apply IH1; cbn [setFl out]; now apply IHe.
  - exact H.
  - destruct (filter _ _); [exact H|]. cbn [emit out]. apply in_app_iff. auto.
  - now apply IH.
  - cbv zeta. cbn [out]. now apply IH.
Qed.
Lemma walk_fl n : forall cls c u, fl u = false -> fl (walk cls c n u) = false.
Proof.
  assert (HL : forall (W : nd -> ust -> ust) l, (forall k u, In k l -> fl u = false -> fl (W k u) = false) -> forall u, fl u = false -> fl (fold_left (fun u k => W k u) l u) = false).
  { intros W l. induction l as [|k l IH]; intros HW u Hu; cbn [fold_left]; [exact Hu|]. apply IH; [intros k' u' Hk; apply HW; now right|]. apply HW; [now left|exact Hu]. }
  induction n as [|l IH|b ss l IH|l r IHl IHr|c l IH|n IH|e v1 v2 b IHe IH1 IH2 IHb|p x v IH|p x|t p x b IH|ps us b IH] using nd_ind'; intros cls cc u H; cbn [OccModel.walk]; try reflexivity; try exact H.
  - rewrite Forall_forall in IH. apply (HL (fun k u => walk cls cc k u)); auto.
  - cbv zeta. rewrite Forall_forall in IH. set (u1 := match ss with [] => u | _ => setFl false u end). set (u2 := match b with BName p x _ => occurs cls cc p x u1 | BOther => u1 end).
    assert (H2 : fl u2 = false).
    { assert (H1 : fl u1 = false) by (unfold u1; destruct ss; [exact H|reflexivity]). unfold u2. destruct b; [now rewrite occurs_fl|exact H1]. }
    destruct ss; [|exact H]. apply (HL (fun k u => match k with Call _ _ => walk cls cc k u | _ => setFl false (walk cls cc k u) end)); auto.
    intros k u' Hk Hu. specialize (IH k Hk cls cc u' Hu). destruct k; try reflexivity; exact IH.
  - apply (HL (fun k u => setFl false (walk cls cc k u))); auto.
  - now apply IH.
  - cbv zeta. now apply IHb.
  - destruct (filter _ _); exact H.
  - now apply IH.
Qed.

(** Found before this place, or [$this]. *)
Definition Sure (cls : bool) (c : scope) (x p : nat) : Prop :=
  (exists e, resolve cls c x p = Declared e /\ homeOf e < p) \/ (x = this /\ forall e, resolve cls c x p = Declared e -> homeOf e <> p).
Definition NotThere (cls : bool) (c : scope) (x p : nat) : Prop := forall e, resolve cls c x p = Declared e -> homeOf e <> p.

Lemma occurs_emits cls c x p u : Sure cls c x p \/ (NotThere cls c x p /\ fl u = false) -> In (useAt cls c x p) (out (occurs cls c p x u)).
Proof.
  intros H. unfold OccModel.occurs. cbv zeta. fold (useAt cls c x p).
  assert (HT : match resolve cls c x p with Declared e => Nat.eqb (homeOf e) p | _ => false end = false).
  { destruct (resolve cls c x p) as [| |e] eqn:E; try reflexivity. apply Nat.eqb_neq. destruct H as [[(e' & E' & H)|[_ H]]|[H _]]; [|now apply H|now apply (H e)].
    rewrite E in E'. injection E' as <-. lia. }
  rewrite HT. cbn [negb]. rewrite andb_true_r.
  assert (HC : negb (fl u) || Nat.eqb x this || match resolve cls c x p with Declared e => homeOf e <? p | _ => false end = true).
  { destruct H as [[(e & E & H)|[-> _]]|[_ ->]]; [|now rewrite Nat.eqb_refl, orb_true_r|reflexivity]. rewrite E. apply Nat.ltb_lt in H. rewrite H. apply orb_true_r. }
  rewrite HC. cbn [emit out]. apply in_app_iff. right. now left.
Qed.

Lemma walk_sure n : statements n -> forall cls c x p u, Occurs n x p -> Sure cls c x p -> In (useAt cls c x p) (out (walk cls c n u)).
Proof.
  induction n as [|l IH|b ss l IH|l r IHl IHr|c l IH|n IH|e v1 v2 b IHe IH1 IH2 IHb|p x v IH|p x|t p x b IH|ps us b IH] using nd_ind'; intros HS cls cc y q u HO HY; cbn [OccModel.walk];
    try (apply occurs_none in HO; [destruct HO|exact I]).
  - apply occurs_op in HO as (k & Hk & HO). rewrite Forall_forall in IH. apply (fold_in (fun k u => walk cls cc k u) (fun _ => True)); auto; [intros; now apply walk_mono|].
    right. exists k. split; [exact Hk|]. intros u' _. apply (IH k Hk); auto. eapply statements_part; [exact HS|now constructor].
  - cbv zeta. rewrite Forall_forall in IH. set (u1 := match ss with [] => u | _ => setFl false u end). set (u2 := match b with BName p x _ => occurs cls cc p x u1 | BOther => u1 end).
    assert (H3 : In (useAt cls cc y q) (out (fold_left (fun u k => match k with Call _ _ => walk cls cc k u | _ => setFl false (walk cls cc k u) end) l u2))).
    { apply (fold_in (fun k u => match k with Call _ _ => walk cls cc k u | _ => setFl false (walk cls cc k u) end) (fun _ => True)); auto.
      - intros k u' Hk Hu. pose proof (walk_mono k cls cc u' _ Hu) as HM. destruct k; exact HM.
      - apply occurs_var in HO as [(i & ->)|(k & Hk & HO)].
        + left. unfold u2. apply occurs_emits. auto.
        + right. exists k. split; [exact Hk|]. intros u' _. assert (HM : In (useAt cls cc y q) (out (walk cls cc k u'))) by (apply (IH k Hk); auto; eapply statements_part; [exact HS|now constructor]). destruct k; exact HM. }
    destruct ss; exact H3.
  - cbn [setFl out]. apply occurs_assign in HO as [HO|HO].
    + apply walk_mono. cbn [setFl out]. apply IHl; auto. eapply statements_part; [exact HS|constructor].
    + apply IHr; auto. eapply statements_part; [exact HS|constructor].
  - apply occurs_call in HO as (k & Hk & HO). rewrite Forall_forall in IH. apply (fold_in (fun k u => setFl false (walk cls cc k u)) (fun _ => True)); auto; [intros; now apply walk_mono|].
    right. exists k. split; [exact Hk|]. intros u' _. apply (IH k Hk); auto. eapply statements_part; [exact HS|now constructor].
  - apply (proj1 (occurs_elem _ _ _)) in HO. apply IH; auto. eapply statements_part; [exact HS|constructor].
  - cbv zeta. assert (SP : forall k, Part (Foreach e v1 v2 b) k -> statements k) by (intros k; now apply statements_part).
    apply occurs_each in HO as [HO|[HO|[(v & -> & HO)|HO]]].
    + apply walk_mono. cbn [setFl out]. assert (H1 : In (useAt cls cc y q) (out (walk cls cc e (setFl false u)))) by (apply IHe; auto; apply SP; constructor).
      destruct v2 as [v|]; [apply walk_mono; cbn [setFl out]|]; apply walk_mono; cbn [setFl out]; exact H1.
    + apply walk_mono. cbn [setFl out]. assert (H1 : In (useAt cls cc y q) (out (walk cls cc v1 (setFl false (walk cls cc e (setFl false u)))))) by (apply IH1; auto; apply SP; constructor).
      destruct v2 as [v|]; [apply walk_mono|]; exact H1.
    + apply walk_mono. cbn [setFl out]. apply (IH2 v eq_refl); auto. apply SP. constructor.
    + apply IHb; auto. apply SP. constructor.
  - cbn [statements closureFree] in HS. subst v. apply (proj1 (occurs_static _ _ _ _ _)) in HO. apply occurs_none in HO; [destruct HO|exact I].
  - apply (proj1 (occurs_catch _ _ _ _ _ _)) in HO. apply IH; auto.
Qed.

Definition Free (n : nd) (x p : nat) : Prop := ~ Hidden n x p /\ ~ exists h, GivesAt n x p h.
Lemma Free_part n k x p : Free n x p -> Part n k -> Free k x p.
Proof. intros [A B] HP. split; [intros H; apply A; eapply H_part; eauto|]. intros (h & H). apply B. exists h. eapply GA_part; eauto. Qed.

Lemma walk_free n : statements n -> okay n -> forall cls c x p,  Occurs n x p -> NotThere cls c x p -> Free n x p ->
  (forall u, fl u = false -> In (useAt cls c x p) (out (walk cls c n u))) /\
  (single n -> ~ Indexed n x p -> ~ TargetAt n x p -> forall u, In (useAt cls c x p) (out (walk cls c n u))).
Proof.
  induction n as [|l IH|b ss l IH|l r IHl IHr|c l IH|n IH|e v1 v2 b IHe IH1 IH2 IHb|p x v IH|p x|t p x b IH|ps us b IH] using nd_ind'; intros HS HK cls cc y q HO HT HF;
    try (apply occurs_none in HO; [destruct HO|exact I]).
  - apply occurs_op in HO as (k & Hk & HO). rewrite Forall_forall in IH.
    assert (HKk := IH k Hk (statements_part _ _ HS (P_op l k Hk)) (okay_part _ _ HK (P_op l k Hk)) cls cc y q HO HT (Free_part _ _ _ _ HF (P_op l k Hk))). destruct HKk as [H1 H2]. split.
    + intros u Hu. cbn [OccModel.walk]. apply (fold_in (fun k u => walk cls cc k u) (fun u => fl u = false)); auto; [intros; now apply walk_fl|intros; now apply walk_mono|]. right. eauto.
    + intros HSi HX HTa u. cbn [single] in HSi. destruct l as [|k1 [|k2 l]]; try contradiction. destruct Hk as [<-|[]]. cbn [OccModel.walk fold_left]. apply H2; auto.
      * intros H. apply HX. eapply X_op; [now left|exact H].
      * intros H. apply HTa. now apply targetAt_one.
  - rewrite Forall_forall in IH.
    assert (PK : forall k, In k l -> Occurs k y q -> forall u, fl u = false -> In (useAt cls cc y q) (out (walk cls cc k u))).
    { intros k Hk HOk. assert (HP : Part (Var b ss l) k) by now constructor. apply (proj1 (IH k Hk (statements_part _ _ HS HP) (okay_part _ _ HK HP) cls cc y q HOk HT (Free_part _ _ _ _ HF HP))). }
    assert (MAIN : forall u, match ss with [] => fl u = false | _ => True end -> In (useAt cls cc y q) (out (walk cls cc (Var b ss l) u))).
    { intros u Hu. cbn [OccModel.walk]. cbv zeta. set (u1 := match ss with [] => u | _ => setFl false u end). set (u2 := match b with BName p x _ => occurs cls cc p x u1 | BOther => u1 end).
      assert (F1 : fl u1 = false) by (unfold u1; destruct ss; [exact Hu|reflexivity]).
      assert (F2 : fl u2 = false) by (unfold u2; destruct b; [now rewrite occurs_fl|exact F1]).
      assert (H3 : In (useAt cls cc y q) (out (fold_left (fun u k => match k with Call _ _ => walk cls cc k u | _ => setFl false (walk cls cc k u) end) l u2))).
      { apply (fold_in (fun k u => match k with Call _ _ => walk cls cc k u | _ => setFl false (walk cls cc k u) end) (fun u => fl u = false)); auto.
        - intros k u' Hk Hu'. pose proof (walk_fl k cls cc u' Hu') as HM. destruct k; try reflexivity; exact HM.
        - intros k u' Hk Hu'. pose proof (walk_mono k cls cc u' _ Hu') as HM. destruct k; exact HM.
        - apply occurs_var in HO as [(i & ->)|(k & Hk & HO)].
          + left. unfold u2. apply occurs_emits. auto.
          + right. exists k. split; [exact Hk|]. intros u' Hu'. pose proof (PK k Hk HO u' Hu') as HM. destruct k; exact HM. }
      destruct ss; exact H3. }
    split.
    + intros u Hu. apply MAIN. destruct ss; [exact Hu|exact I].
    + intros HSi HX HTa u. destruct ss as [|s ss]; [|now apply MAIN]. exfalso. apply occurs_var in HO as [(i & ->)|(k & Hk & HO)].
      * apply HTa. apply targetAt_var. split; eauto.
      * apply HX. eapply X_var; eauto.
  - split; [|intros []]. intros u Hu. cbn [OccModel.walk setFl out]. destruct HK as (V & N & G & g & HK0). pose proof HK0 as HK1. cbn [ok] in HK1. destruct HK1 as (HSi & _ & _).
    assert (HK : okay (Assign l r)) by (exists V, N, G, g; exact HK0).
    apply occurs_assign in HO as [HO|HO].
    + apply walk_mono. cbn [setFl out]. destruct (IHl (statements_part _ _ HS (P_left l r)) (okay_part _ _ HK (P_left l r)) cls cc y q HO HT (Free_part _ _ _ _ HF (P_left l r))) as [_ H2].
      apply H2; [exact HSi| |].
      * intros H. apply (proj1 HF). now constructor.
      * intros H. apply (proj2 HF). exists ByAssignment. now constructor.
    + apply (proj1 (IHr (statements_part _ _ HS (P_right l r)) (okay_part _ _ HK (P_right l r)) cls cc y q HO HT (Free_part _ _ _ _ HF (P_right l r)))). reflexivity.
  - split; [|intros []]. intros u Hu. cbn [OccModel.walk]. apply occurs_call in HO as (k & Hk & HO). rewrite Forall_forall in IH.
    apply (fold_in (fun k u => setFl false (walk cls cc k u)) (fun u => fl u = false)); auto; [intros; now apply walk_mono|].
    right. exists k. split; [exact Hk|]. assert (HP : Part (Call c l) k) by now constructor.
    apply (proj1 (IH k Hk (statements_part _ _ HS HP) (okay_part _ _ HK HP) cls cc y q HO HT (Free_part _ _ _ _ HF HP))).
  - split; [|intros []]. intros u Hu. cbn [OccModel.walk]. apply (proj1 (occurs_elem _ _ _)) in HO. assert (HP : Part (Elem n) n) by constructor.
    apply (proj1 (IH (statements_part _ _ HS HP) (okay_part _ _ HK HP) cls cc y q HO HT (Free_part _ _ _ _ HF HP))). exact Hu.
  - split; [|intros []]. intros u Hu. cbn [OccModel.walk]. cbv zeta.
    assert (SP : forall k, Part (Foreach e v1 v2 b) k -> statements k /\ okay k /\ Free k y q).
    { intros k HP. split; [eapply statements_part; eauto|]. split; [eapply okay_part; eauto|eapply Free_part; eauto]. }
    apply occurs_each in HO as [HO|[HO|[(v & -> & HO)|HO]]].
    + apply walk_mono. cbn [setFl out]. destruct (SP e (P_each _ _ _ _)) as (A & B & C).
      assert (H1 : In (useAt cls cc y q) (out (walk cls cc e (setFl false u)))) by (apply (proj1 (IHe A B cls cc y q HO HT C)); reflexivity).
      destruct v2 as [v|]; [apply walk_mono; cbn [setFl out]|]; apply walk_mono; cbn [setFl out]; exact H1.
    + apply walk_mono. cbn [setFl out]. destruct (SP v1 (P_each1 _ _ _ _)) as (A & B & C).
      assert (H1 : In (useAt cls cc y q) (out (walk cls cc v1 (setFl false (walk cls cc e (setFl false u)))))) by (apply (proj1 (IH1 A B cls cc y q HO HT C)); reflexivity).
      destruct v2 as [v|]; [apply walk_mono|]; exact H1.
    + apply walk_mono. cbn [setFl out]. destruct (SP v (P_each2 _ _ _ _)) as (A & B & C). apply (proj1 (IH2 v eq_refl A B cls cc y q HO HT C)). reflexivity.
    + destruct (SP b (P_body _ _ _ _)) as (A & B & C). apply (proj1 (IHb A B cls cc y q HO HT C)). reflexivity.
  - cbn [statements closureFree] in HS. subst v. apply (proj1 (occurs_static _ _ _ _ _)) in HO. apply occurs_none in HO; [destruct HO|exact I].
  - split; [|intros []]. intros u Hu. cbn [OccModel.walk]. apply (proj1 (occurs_catch _ _ _ _ _ _)) in HO. assert (HP : Part (Catch t p x b) b) by constructor.
    apply (proj1 (IH (statements_part _ _ HS HP) (okay_part _ _ HK HP) cls cc y q HO HT (Free_part _ _ _ _ HF HP))). reflexivity.
Qed.

(** Each function of a piece is walked through, with its own scope. *)
Lemma walk_inside n : forall ps us b new r cls c u, Inside n (Fun ps us b) -> Match n new -> rs u = new ++ r ->
  exists c' u', In c' new /\ scopeAt c' ps b /\ fl u' = false /\ forall ev, In ev (out (walk false c' b u')) -> In ev (out (walk cls c n u)).
Proof.
  induction n as [|l IH|b ss l IH|l r IHl IHr|c l IH|n IH|e v1 v2 b IHe IH1 IH2 IHb|p x v IH|p x|t p x b IH|ps us b IH] using nd_ind'; intros ps' us' b' new rest cls cc u HI M HR;
    try (apply match_free in M as [_ HC]; [|exact I]; destruct (free_inside _ HC _ HI)).
  - apply match_op in M as (news & -> & MF). apply inside_op in HI as (k & Hk & HI). cbn [OccModel.walk].
    revert news u MF HR. induction l as [|k1 l IHl]; intros news u MF HR; [destruct Hk|].
    inversion IH as [|? ? Hk1 Hl]; subst. inversion MF as [|? nk ? ns M1 M2]; subst. cbn [List.concat fold_left] in *. rewrite <- app_assoc in HR.
    pose proof (walk_sound top isSuper home k1 nk _ cls cc u M1 HR) as [R1 _].
    assert (MO : forall ev u0, In ev (out u0) -> In ev (out (fold_left (fun u k => walk cls cc k u) l u0))).
    { intros ev u0 H. apply (fold_in (fun k u => walk cls cc k u) (fun _ => True)); auto. intros. now apply walk_mono. }
    destruct Hk as [<-|Hk].
    + destruct (Hk1 ps' us' b' nk _ cls cc u HI M1 HR) as (c' & u' & A & B & C & D). exists c', u'. split; [apply in_app_iff; auto|]. split; [exact B|]. split; [exact C|]. auto.
    + destruct (IHl Hl Hk ns (walk cls cc k1 u) M2 R1) as (c' & u' & A & B). exists c', u'. split; [apply in_app_iff; auto|exact B].
  - apply match_each in M as (C1 & C2 & C3 & MB). apply inside_each in HI as [H|[H|[(v & -> & H)|H]]]; [destruct (free_inside _ C1 _ H)|destruct (free_inside _ C2 _ H)|destruct (free_inside _ C3 _ H)|].
    cbn [OccModel.walk]. cbv zeta.
    assert (K : forall k u', closureFree k -> rs (walk cls cc k (setFl false u')) = rs u').
    { intros k u' HC. exact (proj1 (walk_sound top isSuper home k [] (rs u') cls cc (setFl false u') (M_free k HC) eq_refl)). }
    eapply IHb; [exact H|exact MB|]. cbn [setFl rs]. destruct v2 as [v|]; rewrite !K by assumption; exact HR.
  - apply match_catch in M. apply (proj1 (inside_catch _ _ _ _ _)) in HI. cbn [OccModel.walk]. eapply IH; [exact HI|exact M|exact HR].
  - apply match_fun in M as (-> & nb & c & -> & MB & SC). cbn [OccModel.walk]. cbv zeta. cbn [out].
    assert (EN : nth (funs b) (rs u) cc = c).
    { rewrite HR, <- app_assoc, <- (proj2 (match_length b) nb MB). rewrite app_nth2 by lia. now rewrite Nat.sub_diag. }
    rewrite EN. apply inside_fun in HI as [E|HI].
    + injection E as -> -> ->. exists c, (setFl false u). split; [apply in_app_iff; right; now left|]. split; [exact SC|]. split; [reflexivity|auto].
    + rewrite <- app_assoc in HR. destruct (IH ps' us' b' nb ([c] ++ rest) false c (setFl false u) HI MB HR) as (c' & u' & A & B). exists c', u'. split; [apply in_app_iff; auto|exact B].
Qed.
End Uses.
