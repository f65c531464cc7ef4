(** Proofs for C67, continued (proof file). *)
From Coq Require Import List Bool Arith Lia.
From Verif Require Import PhpTypes MergeModel VarModel VarSpec VarProofs VarProofs2 PropertySpec PropertyProofs PropertyProofs2.
Import ListNotations.
Open Scope nat_scope.

Lemma givesP_op l x : GivesP (Op l) x <-> exists k, In k l /\ GivesP k x.
Proof.
  split.
  - intros H. inversion H as [| | | | |n k y HP HG E1 E2]; subst. inversion HP; subst. eauto.
  - intros (k & H1 & H2). apply (H_part _ k); [constructor; exact H1|exact H2].
Qed.
Lemma givesP_var b ss l x : GivesP (Var b ss l) x <-> exists k, In k l /\ GivesP k x.
Proof.
  split.
  - intros H. inversion H as [| | | | |n k y HP HG E1 E2]; subst. inversion HP; subst. eauto.
  - intros (k & H1 & H2). apply (H_part _ k); [constructor; exact H1|exact H2].
Qed.
Lemma givesP_assign l r x : GivesP (Assign l r) x <-> (GivesP l x \/ GivesP r x) \/ TargetP l x.
Proof.
  split.
  - intros H. inversion H as [l' r' y HT| | | | |n k y HP HG E1 E2]; subst; [auto|]. inversion HP; subst; auto.
  - intros [[H|H]|H]; [eapply H_part; [apply P_left|exact H]|eapply H_part; [apply P_right|exact H]|now constructor].
Qed.
Lemma givesP_call c l x : GivesP (Call c l) x <->
  (exists k, In k l /\ GivesP k x) \/ exists i a, nth_error l i = Some a /\ nth i (refs c) false = true /\ IsProp a x.
Proof.
  split.
  - intros H. inversion H as [|c' args i a y H1 H2 H3| | | |n k y HP HG E1 E2]; subst; [right; eauto|]. inversion HP; subst. eauto.
  - intros [(k & H1 & H2)|(i & a & H1 & H2 & H3)]; [apply (H_part _ k); [constructor; exact H1|exact H2]|eapply H_ref; eassumption].
Qed.
Lemma givesP_elem k x : GivesP (Elem k) x <-> GivesP k x \/ IsProp k x.
Proof.
  split.
  - intros H. inversion H as [| |n y HV| | |n j y HP HG E1 E2]; subst; [auto|]. inversion HP; subst. auto.
  - intros [H|H]; [eapply H_part; [apply P_elem|exact H]|now constructor].
Qed.
Lemma givesP_static p x v y : GivesP (StaticVar p x v) y <-> GivesP v y.
Proof.
  split.
  - intros H. inversion H as [| | | | |n j z HP HG E1 E2]; subst. inversion HP; subst. auto.
  - intros H. eapply H_part; [apply P_static|exact H].
Qed.
Lemma givesP_catch t p x b y : GivesP (Catch t p x b) y <-> GivesP b y.
Proof.
  split.
  - intros H. inversion H as [| | | | |n j z HP HG E1 E2]; subst. inversion HP; subst. auto.
  - intros H. eapply H_part; [apply P_catch|exact H].
Qed.
Lemma givesP_each e v1 v2 b x : GivesP (Foreach e v1 v2 b) x <->
  GivesP e x \/ GivesP v1 x \/ (exists v, v2 = Some v /\ GivesP v x) \/ GivesP b x \/ (exists v, v2 = Some v /\ IsProp v x) \/ IsProp v1 x.
Proof.
  split.
  - intros H. inversion H as [| | |e' v1' v2' b' y HV|e' v1' v2' b' y HV|n j z HP HG E1 E2]; subst; [tauto|eauto 10|]. inversion HP; subst; eauto 10.
  - intros [H|[H|[(v & -> & H)|[H|[(v & -> & H)|H]]]]].
    + eapply H_part; [apply P_each|exact H].
    + eapply H_part; [apply P_each1|exact H].
    + eapply H_part; [apply P_each2|exact H].
    + eapply H_part; [apply P_body|exact H].
    + now apply H_each2.
    + now apply H_each1.
Qed.
Lemma givesP_leaf n x : (forall k, ~ Part n k) -> match n with Assign _ _ | Call _ _ | Elem _ | Foreach _ _ _ _ => False | _ => True end -> ~ GivesP n x.
Proof. intros HP HN H. inversion H as [| | | | |m j z HPa HG E1 E2]; subst; try contradiction. now apply HP in HPa. Qed.

Section Walk.
Variable T : st -> nd -> ty.
Variable F : st -> nd -> ty.
Notation visit := (visit T F).
Notation visit_mv := (visit_mv T F).
Definition GoodP (n : nd) : Prop := forall s, okP (cft s) n -> PR (GivesP n) (Mentions n) s (visit n s).

Lemma singleP_found l : singleP l -> forall g, okP g l -> exists b ss parts, Forall notThis ss /\ called b ss = false /\
  (forall s, fnd (visit l s) = fnd (foundVariable b ss s)) /\ (forall x, IsProp (Var b ss parts) x <-> TargetP l x).
Proof.
  induction l as [|l IH|b ss l IH|l r IHl IHr|c l IH|n IH|e v1 v2 b IHe IH1 IH2 IHb|p x v IH|p x|t p x b IH|ps us b IH] using nd_ind'; intros HS g HO; try contradiction.
  - destruct l as [|k [|k' l]]; try contradiction. inversion IH as [|? ? Hk _]; subst. destruct HO as [HO _].
    destruct (Hk HS g HO) as (b & ss & parts & H1 & H2 & H3 & H4). exists b, ss, parts. split; [exact H1|]. split; [exact H2|]. split; [exact H3|].
    intros x. rewrite H4. split; intros H; [apply (TP_op [] k), H|]. inversion H as [? ? HP|l' n' x' HT E1]; subst; [inversion HP|].
    destruct l' as [|a [|b' l']]; cbn in E1; try discriminate. now injection E1 as ->.
  - exists b, ss, l. destruct HO as [HO _]. split; [exact HO|]. split; [exact HS|]. split; [intros s; apply fnd_var|].
    intros x. split; [apply TP_prop|]. intros H. now inversion H.
Qed.
Lemma placeP_good n s (t : st -> ty) : GoodP n -> placeP n -> okP (cft s) n -> fnd s = fresh ->
  PR (fun x => GivesP n x \/ IsProp n x) (Mentions n) s (declareFound (t (visit n s)) (visit n s)).
Proof.
  intros HG HP HO HF.
  assert (HMf : Mv (Mentions n) (visit n s) (declareFound (t (visit n s)) (visit n s))).
  { apply Mv_declareFound. destruct (visit_came T F n s) as [E|(E1 & E2 & E3)]; [intros x; rewrite E, HF; discriminate|]. apply E3. now rewrite HF. }
  apply (PR_trans _ _ _ _ (visit n s)); [apply visit_mv|exact HMf|now apply HG|].
  destruct n as [|l|b ss l| | | | | | | |]; try contradiction.
  - apply PR_none; [intros x H; inversion H|]. unfold declareFound. rewrite (fnd_elems T F l HP). rewrite HF. reflexivity.
  - destruct HP as [HP1 HP2]. destruct HO as [HO1 HO2]. apply PR_found; auto. exists s. split; [exact HF|apply fnd_var].
Qed.
Lemma foldP n l : (forall k, In k l -> Part n k) -> Forall GoodP l -> forall s, all (okP (cft s)) l ->
  PR (fun x => exists k, In k l /\ GivesP k x) (Mentions n) s (fold_left (fun s k => visit k s) l s).
Proof.
  intros HP HF. revert HP. induction HF as [|k l Hk HF IH]; intros HP s HO; cbn [fold_left].
  - apply PR_none; [intros x (k & [] & _)|reflexivity].
  - destruct HO as [HO1 HO2]. assert (HPk : Part n k) by (apply HP; now left). assert (HPl : forall j, In j l -> Part n j) by (intros j Hj; apply HP; now right).
    eapply PR_iff; [|intros x H; exact H|apply (PR_trans (GivesP k) (fun x => exists k, In k l /\ GivesP k x) (Mentions n) s (visit k s))].
    + intros x. split; [intros [H|(j & H1 & H2)]; [exists k; cbn; auto|exists j; cbn; auto]|]. intros (j & [<-|H1] & H2); eauto.
    + eapply mv_part; [exact HPk|apply visit_mv].
    + apply mv_fold; [exact HPl|]. apply Forall_forall. intros j _. apply visit_mv.
    + eapply PR_iff; [intros x; reflexivity| |now apply Hk]. intros x H. eapply M_part; eassumption.
    + apply IH; [exact HPl|]. now rewrite (m_cft _ _ _ (visit_mv k s)).
Qed.
Lemma mv_arg n k i s : Part n k -> Mv (Mentions n) s (pushed (fun s => afterArg i (visit k s)) s).
Proof.
  intros HP. pose proof (mv_args T F n [k]) as H. apply (H (fun j Hj => match Hj with or_introl E => eq_ind k (Part n) HP j E | or_intror K => False_ind _ K end)).
  constructor; [apply visit_mv|constructor].
Qed.
Lemma argsP c l : Forall GoodP l -> forall n i s, (forall k, In k l -> Part n k) ->
  all (okP (cft s)) l -> (forall j a, nth_error l j = Some a -> refAt (cft s) (i + j) = nth (i + j) (refs c) false) ->
  (forall j a, nth_error l j = Some a -> nth (i + j) (refs c) false = true -> placeP a) ->
  PR (fun x => (exists k, In k l /\ GivesP k x) \/ exists j a, nth_error l j = Some a /\ nth (i + j) (refs c) false = true /\ IsProp a x) (Mentions n) s
    (snd (fold_left (fun is k => (S (fst is), pushed (fun s => afterArg (fst is) (visit k s)) (snd is))) l (i, s))).
Proof.
  induction 1 as [|k l Hk HF IH]; intros n i s HP HO HR HL; cbn [fold_left fst snd].
  - apply PR_none; [intros x [(k & [] & _)|([|j] & a & H & _)]; discriminate|reflexivity].
  - destruct HO as [HO1 HO2]. assert (HPk : Part n k) by (apply HP; now left). assert (HPl : forall j, In j l -> Part n j) by (intros j Hj; apply HP; now right).
    set (s1 := pushed (fun s => afterArg i (visit k s)) s). assert (HM1 : Mv (Mentions n) s s1) by now apply mv_arg.
    pose proof (m_cft _ _ _ HM1) as C1.
    eapply PR_iff; [|intros x H; exact H|apply (PR_trans (fun x => GivesP k x \/ (nth i (refs c) false = true /\ IsProp k x))
      (fun x => (exists k, In k l /\ GivesP k x) \/ exists j a, nth_error l j = Some a /\ nth (S i + j) (refs c) false = true /\ IsProp a x) (Mentions n) s s1)].
    + intros x. split.
      * intros [[H|[H1 H2]]|[(j & H1 & H2)|(j & a & H1 & H2 & H3)]].
        -- left. exists k. cbn. auto.
        -- right. exists 0, k. rewrite Nat.add_0_r. auto.
        -- left. exists j. cbn. auto.
        -- right. exists (S j), a. rewrite Nat.add_succ_r. auto.
      * intros [(j & [<-|H1] & H2)|([|j] & a & H1 & H2 & H3)]; [auto|eauto| |].
        -- injection H1 as <-. rewrite Nat.add_0_r in H2. auto.
        -- right. right. exists j, a. rewrite Nat.add_succ_r in H2. auto.
    + exact HM1.
    + apply mv_args; [exact HPl|]. apply Forall_forall. intros j _. apply visit_mv.
    + pose proof (HR 0 k eq_refl) as HR0. pose proof (HL 0 k eq_refl) as HL0. rewrite Nat.add_0_r in HR0, HL0.
      eapply (PR_ext _ _ (setFnd fresh s) s (afterArg i (visit k (setFnd fresh s)))); [reflexivity..|].
      unfold afterArg. rewrite (m_cft _ _ _ (visit_mv k (setFnd fresh s))). change (cft (setFnd fresh s)) with (cft s). rewrite HR0.
      destruct (nth i (refs c) false).
      * eapply PR_iff; [| |apply (placeP_good k (setFnd fresh s) (fun _ => Integral KNull)); auto].
        -- intros x. cbn. intuition.
        -- intros x H. eapply M_part; eassumption.
      * eapply PR_iff; [| |apply (Hk (setFnd fresh s)); exact HO1]; [|intros x H; eapply M_part; eassumption]. intros x. split; [auto|]. intros [H|[H _]]; [auto|discriminate].
    + apply IH; [exact HPl|now rewrite C1| |].
      * intros j a H. rewrite C1. specialize (HR (S j) a H). rewrite Nat.add_succ_r in HR. exact HR.
      * intros j a H. specialize (HL (S j) a H). rewrite Nat.add_succ_r in HL. exact HL.
Qed.

Lemma visit_prop n : GoodP n.
Proof.
  induction n as [|l IH|b ss l IH|l r IHl IHr|c l IH|n IH|e v1 v2 b IHe IH1 IH2 IHb|p x v IH|p x|t p x b IH|ps us b IH] using nd_ind'; intros s HO; cbn [VarModel.visit].
  - apply PR_none; [|reflexivity]. intros x. apply givesP_leaf; [intros k H; inversion H|exact I].
  - eapply PR_iff; [|intros x H; exact H|apply (foldP (Op l) l); [now constructor|exact IH|exact HO]]. intros x. symmetry. apply givesP_op.
  - destruct HO as [_ HO]. assert (EF : cft (foundVariable b ss s) = cft s /\ cur (foundVariable b ss s) = cur s /\ outer (foundVariable b ss s) = outer s)
      by (unfold foundVariable; destruct (find (fnd s)); auto). destruct EF as (E1 & E2 & E3).
    eapply (PR_ext _ _ (foundVariable b ss s)); [now symmetry|now symmetry|reflexivity|].
    eapply PR_iff; [|intros x H; exact H|apply (foldP (Var b ss l) l); [now constructor|exact IH|now rewrite E1]]. intros x. symmetry. apply givesP_var.
  - destruct HO as (HS & HO1 & HO2). eapply (PR_ext _ _ (setFnd fresh s) s (assigned (T s (Assign l r)) (visit r (visit l (setFnd fresh s))))); [reflexivity..|].
    set (s0 := setFnd fresh s). destruct (singleP_found l HS (cft s) HO1) as (b & ss & parts & H1 & H2 & H3 & H4).
    assert (HFd : fnd (visit r (visit l s0)) = fnd (foundVariable b ss s0)) by (rewrite fnd_kept; [apply H3|]; rewrite H3; reflexivity).
    assert (HM1 : Mv (Mentions (Assign l r)) s0 (visit l s0)) by (eapply mv_part; [apply P_left|apply visit_mv]).
    assert (HM2 : Mv (Mentions (Assign l r)) (visit l s0) (visit r (visit l s0))) by (eapply mv_part; [apply P_right|apply visit_mv]).
    eapply PR_iff; [|intros x H; exact H|apply (PR_trans (fun x => GivesP l x \/ GivesP r x) (IsProp (Var b ss parts)) (Mentions (Assign l r)) s0 (visit r (visit l s0)))].
    + intros x. rewrite givesP_assign, H4. reflexivity.
    + eapply Mv_trans; eassumption.
    + apply Mv_assigned. apply (foundIn_part _ l); [apply P_left|]. destruct (visit_came T F l s0) as [E|(E1 & E2 & E3)].
      * rewrite H3 in E. intros x. rewrite HFd, E. discriminate.
      * intros x. rewrite fnd_kept by exact E2. now apply E3.
    + apply (PR_trans _ _ _ _ (visit l s0)); [exact HM1|exact HM2| |].
      * eapply PR_iff; [intros x; reflexivity| |now apply IHl]. intros x H. eapply M_part; [apply P_left|exact H].
      * eapply PR_iff; [intros x; reflexivity| |apply IHr; now rewrite (m_cft _ _ _ HM1)]. intros x H. eapply M_part; [apply P_right|exact H].
    + apply PR_assigned; auto. exists s0. auto.
  - destruct HO as (HO1 & HO2 & HO3). set (s0 := setCft (calling c (cft s)) s).
    eapply (PR_ext _ _ s0 s (snd (fold_left _ l (0, s0)))); [reflexivity..|].
    eapply PR_iff; [|intros x H; exact H|apply (argsP c l IH (Call c l) 0 s0)]; auto; [|now constructor]. intros x. symmetry. apply givesP_call.
  - destruct HO as [HP HO]. eapply (PR_ext _ _ (setFnd fresh s) s (declareFound (Integral KMixed) (visit n (setFnd fresh s)))); [reflexivity..|].
    eapply PR_iff; [| |apply (placeP_good n (setFnd fresh s) (fun _ => Integral KMixed)); auto].
    + intros x. symmetry. apply givesP_elem.
    + intros x H. eapply M_part; [apply P_elem|exact H].
  - destruct HO as (HO1 & HP1 & HO2 & HO3 & HO4). cbn zeta. set (W := Foreach e v1 v2 b).
    assert (GO : forall k s0, Part W k -> GoodP k -> okP (cft s0) k -> PR (GivesP k) (Mentions W) s0 (visit k s0)).
    { intros k s0 HP HG HK. eapply PR_iff; [intros x; reflexivity| |now apply HG]. intros x H. eapply M_part; eassumption. }
    assert (MO : forall k s0, Part W k -> Mv (Mentions W) s0 (visit k s0)) by (intros k s0 HP; eapply mv_part; [exact HP|apply visit_mv]).
    assert (AG : forall k s0, Part W k -> GoodP k -> placeP k -> okP (cft s0) k ->
       PR (fun x => GivesP k x \/ IsProp k x) (Mentions W) s0 (pushed (fun s => let s' := visit k s in declareFound (last s') s') s0)).
    { intros k s0 HP HG HPl HK. eapply (PR_ext _ _ (setFnd fresh s0) s0 (declareFound (last (visit k (setFnd fresh s0))) (visit k (setFnd fresh s0)))); [reflexivity..|].
      apply (PR_iff (fun x => GivesP k x \/ IsProp k x) _ (Mentions k)); [intros x; reflexivity| |apply (placeP_good k (setFnd fresh s0) last); auto]. intros x H. eapply M_part; eassumption. }
    assert (MA : forall k s0, Part W k -> Mv (Mentions W) s0 (pushed (fun s => let s' := visit k s in declareFound (last s') s') s0)).
    { intros k s0 HP. apply Mv_pushed. cbn zeta. eapply Mv_trans; [eapply mv_part; [exact HP|apply visit_mv]|]. apply Mv_declareFound. eapply foundIn_part; [exact HP|apply pushed_found]. }
    pose proof (P_each e v1 v2 b : Part W e) as Pe. pose proof (P_each1 e v1 v2 b : Part W v1) as P1. pose proof (P_body e v1 v2 b : Part W b) as Pb.
    pose proof (MO e s Pe) as Me. pose proof (m_cft _ _ _ Me) as Ce. set (sa := visit e s) in *.
    pose proof (MO v1 sa P1) as M1. pose proof (m_cft _ _ _ M1) as C1. set (sb := visit v1 sa) in *.
    pose proof (GO e s Pe IHe HO1) as Ge. pose proof (GO v1 sa P1 IH1 ltac:(rewrite Ce; exact HO2)) as G1. fold sa in Ge. fold sb in G1.
    destruct v2 as [v|].
    + destruct HO4 as [HP2 HO4]. specialize (IH2 v eq_refl). pose proof (P_each2 e v1 v b : Part W v) as P2.
      pose proof (MO v sb P2) as M2. pose proof (m_cft _ _ _ M2) as C2. pose proof (GO v sb P2 IH2 ltac:(rewrite C1, Ce; exact HO4)) as G2. set (sc := visit v sb) in *.
      pose proof (MO b sc Pb) as Mb. pose proof (m_cft _ _ _ Mb) as Cb. pose proof (GO b sc Pb IHb ltac:(rewrite C2, C1, Ce; exact HO3)) as Gb. set (sd := visit b sc) in *.
      set (se := setLast (F sd e) sd).
      assert (Mb' : Mv (Mentions W) sc se) by (eapply Mv_trans; [exact Mb|apply Mv_same; reflexivity]).
      assert (Gb' : PR (GivesP b) (Mentions W) sc se) by (eapply (PR_ext _ _ sc sc sd); [reflexivity..|exact Gb]).
      pose proof (MA v se P2) as Mv'. pose proof (m_cft _ _ _ Mv') as Cv. pose proof (AG v se P2 IH2 HP2 ltac:(change (cft se) with (cft sd); rewrite Cb, C2, C1, Ce; exact HO4)) as Gv. set (sf := pushed _ se) in *.
      pose proof (MA v1 sf P1) as Ml. pose proof (AG v1 sf P1 IH1 HP1 ltac:(rewrite Cv; change (cft se) with (cft sd); rewrite Cb, C2, C1, Ce; exact HO2)) as Gl.
      pose proof (PR_trans _ _ _ _ _ _ Mv' Ml Gv Gl) as X1. pose proof (Mv_trans _ _ _ _ Mv' Ml) as Y1.
      pose proof (PR_trans _ _ _ _ _ _ Mb' Y1 Gb' X1) as X2. pose proof (Mv_trans _ _ _ _ Mb' Y1) as Y2.
      pose proof (PR_trans _ _ _ _ _ _ M2 Y2 G2 X2) as X3. pose proof (Mv_trans _ _ _ _ M2 Y2) as Y3.
      pose proof (PR_trans _ _ _ _ _ _ M1 Y3 G1 X3) as X4. pose proof (Mv_trans _ _ _ _ M1 Y3) as Y4.
      eapply PR_iff; [|intros x H; exact H|exact (PR_trans _ _ _ _ _ _ Me Y4 Ge X4)].
      intros x. unfold W. rewrite givesP_each. split; [intros [H|[H|[H|[H|[[H|H]|[H|H]]]]]]; eauto 10|].
      intros [H|[H|[(w & [= <-] & H)|[H|[(w & [= <-] & H)|H]]]]]; tauto.
    + pose proof (MO b sb Pb) as Mb. pose proof (m_cft _ _ _ Mb) as Cb. pose proof (GO b sb Pb IHb ltac:(rewrite C1, Ce; exact HO3)) as Gb. set (sd := visit b sb) in *.
      set (se := setLast (F sd e) sd).
      assert (Mb' : Mv (Mentions W) sb se) by (eapply Mv_trans; [exact Mb|apply Mv_same; reflexivity]).
      assert (Gb' : PR (GivesP b) (Mentions W) sb se) by (eapply (PR_ext _ _ sb sb sd); [reflexivity..|exact Gb]).
      pose proof (MA v1 se P1) as Ml. pose proof (AG v1 se P1 IH1 HP1 ltac:(change (cft se) with (cft sd); rewrite Cb, C1, Ce; exact HO2)) as Gl.
      pose proof (PR_trans _ _ _ _ _ _ Mb' Ml Gb' Gl) as X2. pose proof (Mv_trans _ _ _ _ Mb' Ml) as Y2.
      pose proof (PR_trans _ _ _ _ _ _ M1 Y2 G1 X2) as X4. pose proof (Mv_trans _ _ _ _ M1 Y2) as Y4.
      eapply PR_iff; [|intros x H; exact H|exact (PR_trans _ _ _ _ _ _ Me Y4 Ge X4)].
      intros x. unfold W. rewrite givesP_each. split; [intros [H|[H|[H|[H|H]]]]; eauto 10|].
      intros [H|[H|[(w & H1 & H)|[H|[(w & H1 & H)|H]]]]]; try discriminate; tauto.
  - cbn zeta. cbn in HO. eapply (PR_ext _ _ s s (visit v s)); [reflexivity..|].
    eapply PR_iff; [| |now apply IH]; [intros y; symmetry; apply givesP_static|]. intros y H. eapply M_part; [apply P_static|exact H].
  - apply PR_none; [|destruct (filter isVar _); reflexivity]. intros y. apply givesP_leaf; [intros k H; inversion H|exact I].
  - cbn zeta. cbn in HO. eapply (PR_ext _ _ s s (visit b s)); [reflexivity..|destruct t; reflexivity|].
    eapply PR_iff; [| |now apply IH]; [intros y; symmetry; apply givesP_catch|]. intros y H. eapply M_part; [apply P_catch|exact H].
  - intros c r EO HK HC. pose proof (visit_mv (Fun ps us b) s) as HM. pose proof (m_outer _ _ _ (visit_mv b (enter ps us s))) as HB.
    change (outer (enter ps us s)) with (cur s :: outer s) in HB. destruct (outer (visit b (enter ps us s))) as [|c' r'] eqn:EO'; [contradiction|]. destruct HB as (-> & _).
    exists c. unfold leave. rewrite EO'. cbn [outer setLast setOuter]. split; [exact EO|]. split; [auto|]. intros x H. exfalso. revert H. apply givesP_leaf; [intros k H; inversion H|exact I].
Qed.
End Walk.
