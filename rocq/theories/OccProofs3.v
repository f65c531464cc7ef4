(** Proofs for C72: the scopes of functions (proof file). *)
From Coq Require Import List Bool Arith Lia.
From Verif Require Import PhpTypes MergeModel VarModel VarSpec VarProofs VarProofs2 VarProofs3 OccSpec OccProofs OccProofs2 OccModel.
Import ListNotations.
Open Scope nat_scope.

(** The scopes of the functions in a piece, in the order they are closed. *)
Inductive Match : nd -> list scope -> Prop :=
| M_free n : closureFree n -> Match n []
| M_op l news : Forall2 Match l news -> Match (Op l) (List.concat news)
| M_each e v1 v2 b new : closureFree e -> closureFree v1 -> match v2 with Some v => closureFree v | None => True end -> Match b new -> Match (Foreach e v1 v2 b) new
| M_catch t p x b new : Match b new -> Match (Catch t p x b) new
| M_fun ps b new c : Match b new -> scopeAt c ps b -> Match (Fun ps [] b) (new ++ [c]).

Lemma free_inside n : closureFree n -> forall f, ~ Inside n f.
Proof.
  assert (HL : forall l, Forall (fun n => closureFree n -> forall f, ~ Inside n f) l -> all closureFree l -> forall k f, In k l -> ~ Inside k f).
  { intros l H1 H2 k f Hk. rewrite Forall_forall in H1. apply (H1 k Hk). now apply (proj1 (all_In _ _) H2). }
  induction n as [|l IH|b ss l IH|l r IHl IHr|c l IH|n IH|e v1 v2 b IHe IH1 IH2 IHb|p x v IH|p x|t p x b IH|ps us b IH] using nd_ind'; cbn [closureFree]; intros HC f HI; try contradiction.
  - inversion HI as [| |n k g HP]; subst. inversion HP.
  - apply inside_op in HI as (k & H1 & H2). exact (HL l IH HC k f H1 H2).
  - apply inside_var in HI as (k & H1 & H2). exact (HL l IH HC k f H1 H2).
  - apply inside_assign in HI as [H|H]; destruct HC as [C1 C2]; [exact (IHl C1 f H)|exact (IHr C2 f H)].
  - apply inside_call in HI as (k & H1 & H2). exact (HL l IH HC k f H1 H2).
  - apply (proj1 (inside_elem _ _)) in HI. exact (IH HC f HI).
  - destruct HC as (C1 & C2 & C3 & C4). apply inside_each in HI as [H|[H|[(v & -> & H)|H]]]; [exact (IHe C1 f H)|exact (IH1 C2 f H)|exact (IH2 v eq_refl C3 f H)|exact (IHb C4 f H)].
  - subst v. apply (proj1 (inside_static _ _ _ _)) in HI. inversion HI as [| |n k g HP]; subst. inversion HP.
  - inversion HI as [| |n k g HP]; subst. inversion HP.
  - apply (proj1 (inside_catch _ _ _ _ _)) in HI. exact (IH HC f HI).
Qed.
Lemma free_statements n : closureFree n -> statements n.
Proof.
  induction n as [|l IH|b ss l IH|l r IHl IHr|c l IH|n IH|e v1 v2 b IHe IH1 IH2 IHb|p x v IH|p x|t p x b IH|ps us b IH] using nd_ind'; intros H; try exact H.
  - cbn [statements]. apply all_In. intros k Hk. rewrite Forall_forall in IH. apply IH; [exact Hk|]. now apply (proj1 (all_In _ _) H).
  - destruct H as (H1 & H2 & H3 & H4). cbn [statements]. auto.
  - cbn [statements]. apply IH. exact H.
  - destruct H.
Qed.
Lemma closed_free n V T' F' D s : closureFree n -> Res V D (Inside n) s (visit T' F' n s) -> closed (visit T' F' n s) = closed s.
Proof.
  intros HC [_ _ _ _ _ (new & E & A & _)]. rewrite E. destruct new as [|c new]; [apply app_nil_r|]. inversion A as [|? ? (f & H1 & _)]; subst.
  destruct (free_inside n HC f H1).
Qed.
Lemma parameters_In ps : forall k e, In e (parameters k ps) -> isVar e = true /\ ea e = false /\ exists t, In (ep e, en e, t) ps.
Proof.
  induction ps as [|[[p x] t] ps IH]; intros k e; cbn; [intros []|]. intros [<-|H]; [cbn; split; [reflexivity|]; split; [reflexivity|eauto]|].
  apply IH in H as (H1 & H2 & t' & H3). split; [exact H1|]. split; [exact H2|]. exists t'. auto.
Qed.
Lemma parameters_have ps : forall k p x t, In (p, x, t) ps -> exists e, In e (parameters k ps) /\ ep e = p /\ en e = x.
Proof.
  induction ps as [|[[p x] t] ps IH]; intros k q y u; cbn; [intros []|]. intros [[= -> -> ->]|H].
  - eexists. split; [left; reflexivity|]. auto.
  - apply (IH (S k)) in H as (e & H1 & H2). exists e. auto.
Qed.

Section Walk.
Variable T : st -> nd -> ty.
Variable F : st -> nd -> ty.
Notation visit := (visit T F).

Definition inner (n : nd) : Prop := forall ps us b, Inside n (Fun ps us b) -> orderly b /\ forall q x t y p h, In (q, x, t) ps -> GivesAt b y p h -> q <= p.

Lemma fun_scope V N G s ps b : ok V N G (cft s) (Fun ps [] b) -> Env V N G s -> inner (Fun ps [] b) ->
  scopeAt (cur (visit b (enter ps [] s))) ps b.
Proof.
  intros HO HE HI. destruct (fun_step T F V N G s ps [] b HO HE) as [HE0 _]. cbv zeta in HE0.
  cbn [ok] in HO. cbv zeta in HO. destruct (HI ps [] b (I_here _ _ _)) as [HOr HB].
  set (Gl := fun x => exists q, GivesAt b x q ByGlobal). set (s0 := enter ps [] s) in *.
  assert (Himps : imps (cur s0) = parameters (List.length (heap s)) ps) by (cbn; apply app_nil_r).
  assert (HInv : Inv Gl (cur s0)).
  { split; [constructor|]. rewrite Himps. apply Forall_forall. intros e He. now apply parameters_In in He. }
  assert (HFit : Fits Gl (GivesAt b) s0).
  { split; [intros x q H; exists q; exact H|]. intros x q H. split; [exact (HOr x q H)|]. rewrite Himps. intros e He.
    apply parameters_In in He as (_ & _ & t & Ht). exact (HB _ _ _ _ _ _ Ht H). }
  pose proof (visit_good2 T F b _ _ G Gl s0 HO HE0 (fun x H => or_intror (or_intror H)) HInv HFit) as [P1 P2 P3 P4].
  specialize (P4 Gl (proj1 HFit) HInv). split.
  - intros x p. rewrite P1. unfold givenBy. apply or_iff_compat_r. unfold Known. rewrite Himps. change (own (cur s0)) with (@nil entry). cbn [app]. split.
    + intros (e & He & <- & Hp). apply parameters_In in He as (_ & _ & t & Ht). exists (ep e), t. auto.
    + intros (q & t & Hq & Ht). apply (parameters_have _ (List.length (heap s))) in Ht as (e & H1 & H2 & H3). exists e. split; [exact H1|]. split; [exact H3|lia].
  - intros e He. rewrite P2, Himps in He. apply in_app_iff in He as [He|He].
    + destruct P4 as [P4 _]. rewrite Forall_forall in P4. destruct (P4 e He) as [Q1 Q2]. split; [exact Q1|]. split; [|exact Q2].
      destruct (P3 e He) as [(e0 & [] & _)|H]. auto.
    + apply parameters_In in He as (H1 & H2 & H3). split; [exact H1|]. split; [auto|]. congruence.
Qed.

Definition Closes (n : nd) : Prop := forall V N G s, ok V N G (cft s) n -> Env V N G s -> (forall x, Gives n x -> N x) -> statements n -> inner n ->
  exists new, closed (visit n s) = closed s ++ new /\ Match n new.
Lemma closes_free n V N G s : ok V N G (cft s) n -> Env V N G s -> (forall x, Gives n x -> N x) -> closureFree n -> exists new, closed (visit n s) = closed s ++ new /\ Match n new.
Proof.
  intros HO HE HN HC. exists []. split; [|now constructor]. rewrite app_nil_r. eapply closed_free; [exact HC|]. eapply (visit_good T F n V N G); auto.
Qed.
Lemma fold_closes l : Forall Closes l -> forall V N G s, all (ok V N G (cft s)) l -> Env V N G s ->
  (forall x, (exists k, In k l /\ Gives k x) -> N x) -> all statements l -> (forall k, In k l -> inner k) ->
  exists news, closed (fold_left (fun s k => visit k s) l s) = closed s ++ List.concat news /\ Forall2 Match l news.
Proof.
  induction 1 as [|k l Hk _ IH]; intros V N G s HO HE HN HS HI; cbn [fold_left].
  - exists []. cbn. split; [now rewrite app_nil_r|constructor].
  - destruct HO as [HO1 HO2], HS as [HS1 HS2].
    assert (HN1 : forall x, Gives k x -> N x) by (intros x HX; apply HN; exists k; split; [now left|exact HX]).
    pose proof (visit_good T F k V N G s HO1 HE HN1) as HR.
    destruct (Hk V N G s HO1 HE HN1 HS1 (HI k (or_introl eq_refl))) as (new & E1 & M1).
    assert (HE1 : Env V N G (visit k s)) by (eapply Env_step; eauto).
    destruct (IH V N G (visit k s)) as (news & E2 & M2); auto.
    { now rewrite (r_cft _ _ _ _ _ HR). }
    { intros x (k' & H1 & H2). apply HN. exists k'. split; [now right|exact H2]. }
    { intros k' H1. apply HI. now right. }
    exists (new :: news). split; [|now constructor]. rewrite E2, E1. cbn [List.concat]. now rewrite app_assoc.
Qed.
Lemma inner_part n k : Part n k -> inner n -> inner k.
Proof. intros HP HI ps us b H. apply (HI ps us b). eapply I_part; eauto. Qed.

Lemma closes n : Closes n.
Proof.
  induction n as [|l IH|b ss l IH|l r IHl IHr|c l IH|n IH|e v1 v2 b IHe IH1 IH2 IHb|p x v IH|p x|t p x b IH|ps us b IH] using nd_ind'; intros V N G s HO HE HN HS HI;
    try (eapply closes_free; eauto; fail).
  - destruct (fold_closes l IH V N G s HO HE) as (news & E & M); auto.
    { intros x H. apply HN. now apply gives_op. }
    { intros k Hk. eapply inner_part; [|exact HI]. now constructor. }
    exists (List.concat news). split; [exact E|now constructor].
  - pose proof HO as HO0. cbn [ok] in HO. destruct HO as (HO1 & HP1 & HO2 & HO3 & HO4). destruct HS as (S1 & S2 & S3 & S4).
    assert (HNe : forall x, Gives e x -> N x) by (intros x HX; apply HN, gives_each; auto).
    assert (HN1 : forall x, Gives v1 x -> N x) by (intros x HX; apply HN, gives_each; tauto).
    assert (HNb : forall x, Gives b x -> N x) by (intros x HX; apply HN, gives_each; tauto).
    cbn [VarModel.visit]. cbv zeta.
    pose proof (visit_good T F e V N G s HO1 HE HNe) as Re. pose proof (r_cft _ _ _ _ _ Re) as Ce.
    assert (Ee : Env V N G (visit e s)) by (eapply Env_step; eauto). set (sa := visit e s) in *.
    assert (R1 : Res V (Gives v1) (Inside v1) sa (visit v1 sa)) by (apply (visit_good T F v1 V N G); auto; now rewrite Ce). pose proof (r_cft _ _ _ _ _ R1) as C1.
    assert (E1 : Env V N G (visit v1 sa)) by (eapply Env_step; eauto). set (sb := visit v1 sa) in *.
    assert (K0 : closed sb = closed s).
    { unfold sb. rewrite (closed_free v1 V T F _ sa S2 R1). exact (closed_free e V T F _ s S1 Re). }
    assert (AG : forall v s0, closureFree v -> place V v -> ok V N G (cft s0) v -> Env V N G s0 -> (forall x, Gives v x \/ IsVar v x -> N x) ->
       let s1 := pushed (fun s => let s' := visit v s in declareFound (last s') s') s0 in closed s1 = closed s0 /\ Env V N G s1 /\ cft s1 = cft s0).
    { intros v s0 A1 A2 A3 A4 A5 s1. assert (RR : Res V (fun x => Gives v x \/ IsVar v x) (Inside v) s0 s1).
      { apply Res_pushed. apply (place_good T F v V N G (setFnd fresh s0) last); auto; [apply visit_good|eapply Env_ext; [| |exact A4]; reflexivity]. }
      split; [|split; [eapply Env_step; eauto|exact (r_cft _ _ _ _ _ RR)]].
      destruct RR as [_ _ _ _ _ (new & E & A & _)]. rewrite E. destruct new as [|c new]; [apply app_nil_r|]. inversion A as [|? ? (f & H1 & _)]; subst.
      destruct (free_inside v A1 f H1). }
    destruct v2 as [v|].
    + destruct HO4 as [HP2 HO4]. assert (HN2 : forall x, Gives v x \/ IsVar v x -> N x).
      { intros x HX. apply HN, gives_each. destruct HX as [HX|HX]; [right; right; left; eauto|]. do 4 right. left. eauto. }
      assert (R2 : Res V (Gives v) (Inside v) sb (visit v sb)) by (apply (visit_good T F v V N G); auto; now rewrite C1, Ce). pose proof (r_cft _ _ _ _ _ R2) as C2.
      assert (E2 : Env V N G (visit v sb)) by (eapply Env_step; eauto).
      assert (K2 : closed (visit v sb) = closed s) by (rewrite (closed_free v V T F _ sb S3 R2); exact K0). set (sc := visit v sb) in *.
      assert (Ob : ok V N G (cft sc) b) by now rewrite C2, C1, Ce.
      destruct (IHb V N G sc Ob E2 HNb S4) as (new & K3 & M); [eapply inner_part; [apply P_body|exact HI]|].
      pose proof (visit_good T F b V N G sc Ob E2 HNb) as Rb. pose proof (r_cft _ _ _ _ _ Rb) as Cb.
      assert (Eb : Env V N G (visit b sc)) by (eapply Env_step; eauto). set (sd := visit b sc) in *. set (se := setLast (F sd e) sd).
      assert (Es : Env V N G se) by (eapply Env_ext; [| |exact Eb]; reflexivity).
      destruct (AG v se) as (K4 & E4 & C4); auto. { change (cft se) with (cft sd). now rewrite Cb, C2, C1, Ce. }
      cbv zeta in K4, E4, C4. set (sf := pushed _ se) in *.
      destruct (AG v1 sf) as (K5 & _ & _); auto. { rewrite C4. change (cft se) with (cft sd). now rewrite Cb, C2, C1, Ce. }
      { intros x HX. apply HN, gives_each. tauto. }
      exists new. split; [|now constructor]. cbv zeta in K5. rewrite K5, K4. change (closed se) with (closed sd). now rewrite K3, K2.
    + assert (Ob : ok V N G (cft sb) b) by now rewrite C1, Ce.
      destruct (IHb V N G sb Ob E1 HNb S4) as (new & K3 & M); [eapply inner_part; [apply P_body|exact HI]|].
      pose proof (visit_good T F b V N G sb Ob E1 HNb) as Rb. pose proof (r_cft _ _ _ _ _ Rb) as Cb.
      assert (Eb : Env V N G (visit b sb)) by (eapply Env_step; eauto). set (sd := visit b sb) in *. set (se := setLast (F sd e) sd).
      assert (Es : Env V N G se) by (eapply Env_ext; [| |exact Eb]; reflexivity).
      destruct (AG v1 se) as (K5 & _ & _); auto. { change (cft se) with (cft sd). now rewrite Cb, C1, Ce. }
      { intros x HX. apply HN, gives_each. tauto. }
      exists new. split; [|now constructor]. cbv zeta in K5. rewrite K5. change (closed se) with (closed sd). now rewrite K3, K0.
  - cbn [ok] in HO. cbn [statements] in HS.
    destruct (IH V N G s HO HE) as (new & E & M); auto; [intros y HY; apply HN, gives_catch; auto|eapply inner_part; [apply P_catch|exact HI]|].
    exists new. split; [|now constructor]. cbn [VarModel.visit]. cbv zeta. destruct t; cbn; exact E.
  - destruct HS as [-> HS]. destruct (fun_step T F V N G s ps [] b HO HE) as [HE0 EO]. cbv zeta in HE0.
    pose proof (fun_scope V N G s ps b HO HE HI) as SC.
    cbn [ok] in HO. cbv zeta in HO.
    destruct (IH _ _ G (enter ps [] s) HO HE0) as (new & E & M); auto.
    { intros ps' us' b' H. apply (HI ps' us' b'). now constructor. }
    exists (new ++ [cur (visit b (enter ps [] s))]). split; [|now constructor]. cbn [VarModel.visit]. unfold leave. rewrite EO. cbn. rewrite E. cbn. now rewrite app_assoc.
Qed.
End Walk.
