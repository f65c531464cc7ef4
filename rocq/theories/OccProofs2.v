(** Proofs for C72: the induction over the tree (proof file). *)
From Coq Require Import List Bool Arith Lia.
From Verif Require Import PhpTypes MergeModel VarModel VarSpec VarProofs VarProofs2 VarProofs3 OccSpec OccProofs.
Import ListNotations.
Open Scope nat_scope.

Section Walk.
Variable T : st -> nd -> ty.
Variable F : st -> nd -> ty.
Notation visit := (visit T F).

(** The conditions on a piece [D] in a state. *)
Definition Fits (Gl : nat -> Prop) (D : nat -> nat -> how -> Prop) (s : st) : Prop :=
  (forall x q, D x q ByGlobal -> Gl x) /\ (forall x q, D x q ByPlace -> ~ Gl x /\ forall e, In e (imps (cur s)) -> ep e <= q).
Lemma Fits_sub Gl (D D' : nat -> nat -> how -> Prop) s s' : Fits Gl D s -> (forall x q h, D' x q h -> D x q h) -> imps (cur s') = imps (cur s) -> Fits Gl D' s'.
Proof. intros [A B] H E. split; [intros x q HD; exact (A x q (H _ _ _ HD))|]. intros x q HD. rewrite E. exact (B x q (H _ _ _ HD)). Qed.

Definition Good2 (n : nd) : Prop := forall V N G Gl s,
  ok V N G (cft s) n -> Env V N G s -> (forall x, Gives n x -> N x) -> Inv Gl (cur s) -> Fits Gl (GivesAt n) s ->
  Pres (GivesAt n) s (visit n s).
(** What is needed to go on. *)
Definition Ready V N G Gl (s : st) : Prop := Env V N G s /\ Inv Gl (cur s).
Lemma Ready_step V N G Gl D D' I s s' : Ready V N G Gl s -> Res V D I s s' -> (forall x, D x -> N x) -> Pres D' s s' -> Fits Gl D' s -> Ready V N G Gl s'.
Proof.
  intros [HE HI] HR HN HP [HF _]. split; [eapply Env_step; eauto|]. exact (p_inv _ _ _ HP Gl HF HI).
Qed.
Lemma Ready_ext V N G Gl s s' : cur s' = cur s -> outer s' = outer s -> Ready V N G Gl s -> Ready V N G Gl s'.
Proof. intros E1 E2 [HE HI]. split; [eapply Env_ext; eauto|]. now rewrite E1. Qed.

Lemma visit_both n V N G Gl s : Good2 n -> ok V N G (cft s) n -> Ready V N G Gl s -> (forall x, Gives n x -> N x) -> Fits Gl (GivesAt n) s ->
  Pres (GivesAt n) s (visit n s) /\ Ready V N G Gl (visit n s) /\ cft (visit n s) = cft s.
Proof.
  intros HG HO HR HN HF. destruct HR as [HE HI].
  assert (HP : Pres (GivesAt n) s (visit n s)) by (apply (HG V N G Gl); auto).
  assert (HV : Res V (Gives n) (Inside n) s (visit n s)) by (apply (visit_good T F n V N G); auto).
  split; [exact HP|]. split; [|exact (r_cft _ _ _ _ _ HV)]. eapply Ready_step; eauto. split; auto.
Qed.

Lemma fold_both l : Forall Good2 l -> forall V N G Gl s, all (ok V N G (cft s)) l -> Ready V N G Gl s ->
  (forall x, (exists k, In k l /\ Gives k x) -> N x) -> Fits Gl (fun x q h => exists k, In k l /\ GivesAt k x q h) s ->
  Pres (fun x q h => exists k, In k l /\ GivesAt k x q h) s (fold_left (fun s k => visit k s) l s).
Proof.
  induction 1 as [|k l Hk _ IH]; intros V N G Gl s HO HR HN HF; cbn [fold_left].
  - apply Pres_same; [intros x q h (k & [] & _)|reflexivity].
  - destruct HO as [HO1 HO2].
    destruct (visit_both k V N G Gl s Hk HO1 HR) as (P1 & R1 & C1).
    { intros x HX. apply HN. exists k. split; [now left|exact HX]. }
    { eapply Fits_sub; [exact HF| |reflexivity]. intros x q h HD. exists k. split; [now left|exact HD]. }
    assert (P2 := IH V N G Gl (visit k s)). rewrite C1 in P2. specialize (P2 HO2 R1).
    eapply Pres_iff; [|eapply Pres_trans; [exact P1|apply P2]].
    + cbn. intros x q h. split; [intros [H|(k' & H1 & H2)]; eauto|]. intros (k' & [<-|H1] & H2); eauto.
    + intros x (k' & H1 & H2). apply HN. exists k'. split; [now right|exact H2].
    + eapply Fits_sub; [exact HF| |exact (p_imps _ _ _ P1)]. intros x q h (k' & H1 & H2). exists k'. split; [now right|exact H2].
Qed.

Lemma place_both n V N G Gl s (t : st -> ty) : Good2 n -> place V n -> ok V N G (cft s) n -> Ready V N G Gl s -> fnd s = fresh ->
  (forall x, Gives n x \/ IsVar n x -> N x) -> Fits Gl (fun x q h => GivesAt n x q h \/ (IsVarAt n x q /\ h = ByPlace)) s ->
  Pres (fun x q h => GivesAt n x q h \/ (IsVarAt n x q /\ h = ByPlace)) s (declareFound (t (visit n s)) (visit n s)).
Proof.
  intros HG HP HO HR HFr HN HF.
  destruct (visit_both n V N G Gl s HG HO HR) as (P1 & [E1 I1] & C1).
  { intros x HX. apply HN. auto. }
  { eapply Fits_sub; [exact HF| |reflexivity]. intros x q h H. now left. }
  eapply Pres_trans; [exact P1|].
  destruct n as [|l|b ss l| | | | | | | |]; cbn [place] in HP; try contradiction.
  - unfold declareFound. rewrite (fnd_elems T F l HP), HFr. cbn. apply Pres_same; [|reflexivity]. intros x q h [H _]. inversion H.
  - apply Pres_iff with (D := fun x q h => namesAt b ss x q /\ h = ByPlace); [intros x q h; rewrite (namesAt_isVarAt b ss l); tauto|].
    apply (Pres_declareFound V N G Gl _ b ss s); auto; [apply fnd_var| | |].
    + intros x [-> (p & i & ->)]. tauto.
    + intros p x i -> ->. tauto.
    + intros x p HX. destruct HF as [_ HF]. destruct (HF x p) as [H1 H2]; [right; split; [now apply namesAt_isVarAt|reflexivity]|].
      split; [exact H1|]. rewrite (p_imps _ _ _ P1). exact H2.
Qed.

Lemma isVarAt_isVar n x p : IsVarAt n x p -> IsVar n x.
Proof. intros H. inversion H; subst. constructor. Qed.
Lemma args_both c l : Forall Good2 l -> forall V N G Gl i s,
  all (ok V N G (cft s)) l ->
  (forall j a, nth_error l j = Some a -> refAt (cft s) (i + j) = nth (i + j) (refs c) false) ->
  (forall j a, nth_error l j = Some a -> nth (i + j) (refs c) false = true -> place V a) ->
  Ready V N G Gl s ->
  (forall x, (exists k, In k l /\ Gives k x) \/ (exists j a, nth_error l j = Some a /\ nth (i + j) (refs c) false = true /\ IsVar a x) -> N x) ->
  let D x q h := (exists k, In k l /\ GivesAt k x q h) \/ (exists j a, nth_error l j = Some a /\ nth (i + j) (refs c) false = true /\ IsVarAt a x q /\ h = ByPlace) in
  Fits Gl D s ->
  Pres D s (snd (fold_left (fun is k => (S (fst is), pushed (fun s => afterArg (fst is) (visit k s)) (snd is))) l (i, s))).
Proof.
  induction 1 as [|k l Hk _ IH]; intros V N G Gl i s HO HA HP HR HN D HF; cbn [fold_left fst snd].
  - apply Pres_same; [|reflexivity]. intros x q h [(k & [] & _)|(j & a & H & _)]; destruct j; discriminate.
  - destruct HO as [HO1 HO2].
    set (s1 := pushed (fun s => afterArg i (visit k s)) s).
    pose proof (HA 0 k eq_refl) as HA0. rewrite Nat.add_0_r in HA0.
    assert (HN0 : forall x, Gives k x -> N x) by (intros x HX; apply HN; left; exists k; split; [now left|exact HX]).
    assert (HN1 : forall x, nth i (refs c) false = true -> IsVar k x -> N x).
    { intros x ER HX. apply HN. right. exists 0, k. rewrite Nat.add_0_r. auto. }
    assert (RR : Res V (fun x => Gives k x \/ (nth i (refs c) false = true /\ IsVar k x)) (Inside k) s s1 /\ Pres (fun x q h => GivesAt k x q h \/ (nth i (refs c) false = true /\ IsVarAt k x q /\ h = ByPlace)) s s1).
    { assert (R0 : Ready V N G Gl (setFnd fresh s)) by (eapply Ready_ext; [| |exact HR]; reflexivity).
      assert (C0 : cft (visit k (setFnd fresh s)) = cft s) by exact (r_cft _ _ _ _ _ (visit_good T F k V N G (setFnd fresh s) HO1 (proj1 R0) HN0)).
      assert (F0 : Fits Gl (fun x q h => GivesAt k x q h \/ (nth i (refs c) false = true /\ IsVarAt k x q /\ h = ByPlace)) (setFnd fresh s)).
      { eapply Fits_sub; [exact HF| |reflexivity]. intros x q h [H|[H1 H2]]; [left; exists k; split; [now left|exact H]|].
        right. exists 0, k. rewrite Nat.add_0_r. auto. }
      split.
      - apply Res_pushed. unfold afterArg. rewrite C0, HA0. destruct (nth i (refs c) false) eqn:ER.
        + eapply Res_iff; [| |apply (place_good T F k V N G (setFnd fresh s) (fun _ => Integral KNull)); auto].
          * intros x. tauto.
          * tauto.
          * apply visit_good.
          * apply (HP 0 k eq_refl). now rewrite Nat.add_0_r.
          * exact (proj1 R0).
          * intros x [HX|HX]; auto.
        + eapply Res_iff; [| |apply (visit_good T F k V N G (setFnd fresh s) HO1 (proj1 R0) HN0)]; [|tauto]. intros x. split; [auto|]. intros [H|[H _]]; [exact H|discriminate].
      - apply (Pres_ext _ (setFnd fresh s) s (afterArg i (visit k (setFnd fresh s)))); [reflexivity|reflexivity|]. unfold afterArg. rewrite C0, HA0. destruct (nth i (refs c) false) eqn:ER.
        + eapply Pres_iff; [|apply (place_both k V N G Gl (setFnd fresh s) (fun _ => Integral KNull)); auto].
          * intros x q h. tauto.
          * apply (HP 0 k eq_refl). now rewrite Nat.add_0_r.
          * intros x [HX|HX]; auto.
          * eapply Fits_sub; [exact F0| |reflexivity]. intros x q h [H|H]; auto.
        + eapply Pres_iff; [|apply (Hk V N G Gl (setFnd fresh s) HO1 (proj1 R0) HN0 (proj2 R0))].
          * intros x q h. split; [auto|]. intros [H|[H _]]; [exact H|discriminate].
          * eapply Fits_sub; [exact F0| |reflexivity]. intros x q h H. now left. }
    destruct RR as [RR1 PP1].
    assert (FF : Fits Gl (fun x q h => GivesAt k x q h \/ (nth i (refs c) false = true /\ IsVarAt k x q /\ h = ByPlace)) s).
    { eapply Fits_sub; [exact HF| |reflexivity]. intros x q h [H|[H1 H2]]; [left; exists k; split; [now left|exact H]|].
      right. exists 0, k. rewrite Nat.add_0_r. auto. }
    assert (R1 : Ready V N G Gl s1).
    { eapply Ready_step; [exact HR|exact RR1| |exact PP1|exact FF]. intros x [HX|[HX1 HX2]]; auto. }
    pose proof (r_cft _ _ _ _ _ RR1) as EC.
    assert (HR2 := IH V N G Gl (S i) s1). rewrite EC in HR2. cbv zeta in HR2.
    assert (HS : forall j, i + S j = S i + j) by (intros; lia).
    eapply Pres_iff; [|eapply Pres_trans; [exact PP1|apply HR2; auto]].
    + cbn beta. unfold D. intros x q h. split.
      * intros [[H|(H1 & H2 & H3)]|[(k' & H1 & H2)|(j & a & H1 & H2 & H3)]].
        -- left. exists k. split; [now left|exact H].
        -- right. exists 0, k. rewrite Nat.add_0_r. auto.
        -- left. exists k'. split; [now right|exact H2].
        -- right. exists (S j), a. rewrite HS. auto.
      * intros [(k' & [<-|H1] & H2)|(j & a & H1 & H2 & H3)]; [auto|eauto|]. destruct j as [|j].
        -- rewrite Nat.add_0_r in H2. cbn in H1. injection H1 as ->. auto.
        -- right. right. exists j, a. rewrite HS in H2. auto.
    + intros j a Hj. specialize (HA (S j) a Hj). now rewrite HS in HA.
    + intros j a Hj. specialize (HP (S j) a Hj). now rewrite HS in HP.
    + intros x [(k' & H1 & H2)|(j & a & H1 & H2 & H3)]; apply HN.
      * left. exists k'. split; [now right|exact H2].
      * right. exists (S j), a. rewrite HS. auto.
    + eapply Fits_sub; [exact HF| |exact (p_imps _ _ _ PP1)]. intros x q h [(k' & H1 & H2)|(j & a & H1 & H2 & H3)].
      * left. exists k'. split; [now right|exact H2].
      * right. exists (S j), a. rewrite HS. auto.
Qed.

(** Into a function and out again. *)
Lemma fun_step V N G s ps us b : ok V N G (cft s) (Fun ps us b) -> Env V N G s ->
  let N' x := In x (map (fun q => snd (fst q)) ps) \/ In x (map snd us) \/ Gives b x in
  Env (fun x => V x \/ N x) N' G (enter ps us s) /\ outer (visit b (enter ps us s)) = cur s :: outer s.
Proof.
  intros HO HE N'. cbn [ok] in HO. cbv zeta in HO. set (V' := fun x => V x \/ N x) in *. set (s0 := enter ps us s) in *. destruct HE as [E1 E2 E3 E4 E5].
  assert (HD0 : forall x, declared (cur s0) x -> In x (map (fun q => snd (fst q)) ps) \/ In x (map snd us)).
  { intros x (d & Hd & Ex). cbn in Hd. apply in_app_iff in Hd as [Hd|Hd].
    - left. rewrite <- (parameters_names (List.length (heap s)) ps). rewrite <- Ex. now apply in_map.
    - right. apply (lexical_names s). eauto. }
  assert (ETop : topOf s0 = topOf s) by (unfold topOf, s0, enter; cbn; destruct (outer s) as [|c o]; [reflexivity|apply last_indep]).
  assert (HE0 : Env V' N' G s0).
  { split.
    - intros x (c & [<-|HC] & HD); [right; auto|]. left. apply E1. exists c. auto.
    - intros x HX. apply HD0 in HX as [HX|HX]; unfold N'; auto.
    - intros x HX. destruct (E3 x HX) as (d & H1 & H2). exists d. rewrite ETop. auto.
    - reflexivity.
    - now rewrite ETop. }
  split; [exact HE0|].
  assert (HR : Res V' (Gives b) (Inside b) s0 (visit b s0)) by (apply (visit_good T F b V' N' G); auto; intros x HX; unfold N'; auto).
  destruct HR as [_ _ R3 _ _ _].
  destruct R3 as [R3|(c & r & add & R3 & HC & _)]; [exact R3|]. change (outer s0) with (cur s :: outer s) in R3. injection R3 as <- <-. congruence.
Qed.

Lemma visit_good2 n : Good2 n.
Proof.
  induction n as [|l IH|b ss l IH|l r IHl IHr|c l IH|n IH|e v1 v2 b IHe IH1 IH2 IHb|p x v IH|p x|t p x b IH|ps us b IH] using nd_ind'; intros V N G Gl s HO HE HN HI HF; cbn [VarModel.visit].
  - apply Pres_same; [apply givesAt_val|reflexivity].
  - eapply Pres_iff; [|apply (fold_both l IH V N G Gl s HO (conj HE HI))].
    + intros x q h. symmetry. apply givesAt_op.
    + intros x HX. apply HN. now apply gives_op.
    + eapply Fits_sub; [exact HF| |reflexivity]. intros x q h. apply givesAt_op.
  - cbn [ok] in HO. destruct HO as [HO1 HO2].
    assert (EF : cft (foundVariable b ss s) = cft s /\ cur (foundVariable b ss s) = cur s /\ outer (foundVariable b ss s) = outer s)
      by (unfold foundVariable; destruct (find (fnd s)); auto). destruct EF as (EF1 & EF2 & EF3).
    eapply Pres_iff; [|eapply (Pres_ext _ (foundVariable b ss s)); [symmetry; exact EF2|reflexivity|apply (fold_both l IH V N G Gl (foundVariable b ss s))]].
    + intros x q h. symmetry. apply givesAt_var.
    + now rewrite EF1.
    + eapply Ready_ext; [exact EF2|exact EF3|]. split; auto.
    + intros x HX. apply HN. now apply gives_var.
    + eapply Fits_sub; [exact HF| |now rewrite EF2]. intros x q h. apply givesAt_var.
  - cbn [ok] in HO. destruct HO as (HS & HO1 & HO2).
    eapply Pres_then with (b := pushed (fun s0 => assigned (T s (Assign l r)) (visit r (visit l s0))) s); [|reflexivity].
    set (s0 := setFnd fresh s). apply (Pres_ext _ s0 s (assigned (T s (Assign l r)) (visit r (visit l s0))) _); [reflexivity|reflexivity|].
    assert (R0 : Ready V N G Gl s0) by (eapply Ready_ext; [| |split; [exact HE|exact HI]]; reflexivity).
    assert (F0 : Fits Gl (GivesAt (Assign l r)) s0) by (eapply Fits_sub; [exact HF|auto|reflexivity]).
    destruct (visit_both l V N G Gl s0 IHl HO1 R0) as (P1 & R1 & C1).
    { intros x HX. apply HN, gives_assign. auto. }
    { eapply Fits_sub; [exact F0| |reflexivity]. intros x q h H. apply givesAt_assign. auto. }
    destruct (visit_both r V N G Gl (visit l s0) IHr) as (P2 & R2 & C2); [now rewrite C1|exact R1| | |].
    { intros x HX. apply HN, gives_assign. auto. }
    { eapply Fits_sub; [exact F0| |exact (p_imps _ _ _ P1)]. intros x q h H. apply givesAt_assign. auto. }
    destruct (single_foundAt T F l HS) as (b & ss & HFd & HT & HTh).
    assert (HFd2 : fnd (visit r (visit l s0)) = fnd (foundVariable b ss s0)).
    { rewrite fnd_kept; [apply HFd|]. rewrite HFd. reflexivity. }
    pose proof (Pres_assigned (T s (Assign l r)) b ss s0 _ eq_refl HFd2 HTh) as P3.
    eapply Pres_iff; [|eapply Pres_trans; [eapply Pres_trans; [exact P1|exact P2]|exact P3]].
    intros x q h. rewrite givesAt_assign, HT. tauto.
  - cbn [ok] in HO. destruct HO as (HO1 & HO2 & HO3).
    set (s0 := setCft (calling c (cft s)) s). assert (R0 : Ready V N G Gl s0) by (eapply Ready_ext; [| |split; [exact HE|exact HI]]; reflexivity).
    pose proof (args_both c l IH V N G Gl 0 s0 HO1 HO2 HO3 R0) as HR.
    eapply Pres_iff; [|eapply Pres_ext; [| |apply HR]]; [|reflexivity|reflexivity| |].
    + intros x q h. cbv beta. symmetry. apply givesAt_call.
    + intros x HX. apply HN. now apply gives_call.
    + eapply Fits_sub; [exact HF| |reflexivity]. intros x q h. apply givesAt_call.
  - cbn [ok] in HO. destruct HO as [HP HO].
    assert (R0 : Ready V N G Gl (setFnd fresh s)) by (eapply Ready_ext; [| |split; [exact HE|exact HI]]; reflexivity).
    eapply Pres_iff; [|eapply Pres_ext; [| |apply (place_both n V N G Gl (setFnd fresh s) (fun _ => Integral KMixed)); auto]]; [|reflexivity|reflexivity| |].
    + intros x q h. symmetry. apply givesAt_elem.
    + intros x HX. apply HN. now apply gives_elem.
    + eapply Fits_sub; [exact HF| |reflexivity]. intros x q h. apply givesAt_elem.
  - cbn [ok] in HO. destruct HO as (HO1 & HP1 & HO2 & HO3 & HO4). cbv zeta.
    assert (HNe : forall x, Gives e x -> N x) by (intros x HX; apply HN, gives_each; auto).
    assert (HN1 : forall x, Gives v1 x \/ IsVar v1 x -> N x) by (intros x HX; apply HN, gives_each; tauto).
    assert (HNb : forall x, Gives b x -> N x) by (intros x HX; apply HN, gives_each; tauto).
    assert (HF0 : forall (D' : nat -> nat -> how -> Prop) s', (forall x q h, D' x q h -> GivesAt (Foreach e v1 v2 b) x q h) -> imps (cur s') = imps (cur s) -> Fits Gl D' s').
    { intros D' s' H E. eapply Fits_sub; [exact HF|exact H|exact E]. }
    destruct (visit_both e V N G Gl s IHe HO1 (conj HE HI) HNe) as (Pe & Re & Ce).
    { apply HF0; [|reflexivity]. intros x q h H. apply givesAt_each. auto. }
    pose proof (p_imps _ _ _ Pe) as Je. set (sa := visit e s) in *.
    destruct (visit_both v1 V N G Gl sa IH1) as (P1 & R1 & C1); [now rewrite Ce|exact Re|auto| |].
    { apply HF0; [|exact Je]. intros x q h H. apply givesAt_each. auto. }
    pose proof (p_imps _ _ _ P1) as J1. rewrite Je in J1. set (sb := visit v1 sa) in *.
    assert (AG : forall v s0, Good2 v -> place V v -> ok V N G (cft s0) v -> Ready V N G Gl s0 -> (forall x, Gives v x \/ IsVar v x -> N x) ->
       imps (cur s0) = imps (cur s) -> (forall x q h, GivesAt v x q h \/ (IsVarAt v x q /\ h = ByPlace) -> GivesAt (Foreach e v1 v2 b) x q h) ->
       let s1 := pushed (fun s => let s' := visit v s in declareFound (last s') s') s0 in
       Pres (fun x q h => GivesAt v x q h \/ (IsVarAt v x q /\ h = ByPlace)) s0 s1 /\ Ready V N G Gl s1 /\ cft s1 = cft s0).
    { intros v s0 A1 A2 A3 A4 A5 A6 A7 s1.
      assert (R0 : Ready V N G Gl (setFnd fresh s0)) by (eapply Ready_ext; [| |exact A4]; reflexivity).
      assert (RR : Res V (fun x => Gives v x \/ IsVar v x) (Inside v) s0 s1).
      { apply Res_pushed. apply (place_good T F v V N G (setFnd fresh s0) last); auto; [apply visit_good|exact (proj1 R0)]. }
      assert (PP : Pres (fun x q h => GivesAt v x q h \/ (IsVarAt v x q /\ h = ByPlace)) s0 s1).
      { eapply Pres_ext; [| |apply (place_both v V N G Gl (setFnd fresh s0) last); auto]; reflexivity. }
      split; [exact PP|]. split; [|exact (r_cft _ _ _ _ _ RR)]. eapply Ready_step; [exact A4|exact RR|auto|exact PP|]. now apply HF0. }
    destruct v2 as [v|].
    + destruct HO4 as [HP2 HO4]. assert (HN2 : forall x, Gives v x \/ IsVar v x -> N x).
      { intros x HX. apply HN, gives_each. destruct HX as [HX|HX]; [right; right; left; eauto|]. do 4 right. left. eauto. }
      specialize (IH2 v eq_refl).
      destruct (visit_both v V N G Gl sb IH2) as (P2 & R2 & C2); [now rewrite C1, Ce|exact R1|auto| |].
      { apply HF0; [|exact J1]. intros x q h H. apply givesAt_each. do 2 right. left. eauto. }
      pose proof (p_imps _ _ _ P2) as J2. rewrite J1 in J2. set (sc := visit v sb) in *.
      destruct (visit_both b V N G Gl sc IHb) as (Pb & Rb & Cb); [now rewrite C2, C1, Ce|exact R2|auto| |].
      { apply HF0; [|exact J2]. intros x q h H. apply givesAt_each. tauto. }
      pose proof (p_imps _ _ _ Pb) as Jb. rewrite J2 in Jb. set (sd := visit b sc) in *.
      set (se := setLast (F sd e) sd).
      assert (Re2 : Ready V N G Gl se) by (eapply Ready_ext; [| |exact Rb]; reflexivity).
      destruct (AG v se) as (Pv & Rv & Cv); auto.
      { change (cft se) with (cft sd). now rewrite Cb, C2, C1, Ce. }
      { intros x q h [H|H]; apply givesAt_each; [do 2 right; left; eauto|do 4 right; left; eauto]. }
      set (sf := pushed _ se) in *. pose proof (p_imps _ _ _ Pv) as Jv.
      destruct (AG v1 sf) as (Pl & Rl & Cl); auto.
      { rewrite Cv. change (cft se) with (cft sd). now rewrite Cb, C2, C1, Ce. }
      { rewrite Jv. exact Jb. }
      { intros x q h H. apply givesAt_each. tauto. }
      assert (Pm : Pres (GivesAt b) sc se) by (eapply Pres_then; [exact Pb|reflexivity]).
      eapply Pres_iff; [|exact (Pres_trans _ _ _ _ _ Pe (Pres_trans _ _ _ _ _ P1 (Pres_trans _ _ _ _ _ P2 (Pres_trans _ _ _ _ _ Pm (Pres_trans _ _ _ _ _ Pv Pl)))))]; cbv beta.
      intros x q h. rewrite givesAt_each. split; [intros [H|[H|[H|[H|[[H|H]|[H|H]]]]]]; eauto 10|].
      intros [H|[H|[(w & [= <-] & H)|[H|[(w & [= <-] & H)|H]]]]]; tauto.
    + destruct (visit_both b V N G Gl sb IHb) as (Pb & Rb & Cb); [now rewrite C1, Ce|exact R1|auto| |].
      { apply HF0; [|exact J1]. intros x q h H. apply givesAt_each. tauto. }
      pose proof (p_imps _ _ _ Pb) as Jb. rewrite J1 in Jb. set (sd := visit b sb) in *.
      set (se := setLast (F sd e) sd).
      assert (Re2 : Ready V N G Gl se) by (eapply Ready_ext; [| |exact Rb]; reflexivity).
      destruct (AG v1 se) as (Pl & Rl & Cl); auto.
      { change (cft se) with (cft sd). now rewrite Cb, C1, Ce. }
      { intros x q h H. apply givesAt_each. tauto. }
      assert (Pm : Pres (GivesAt b) sb se) by (eapply Pres_then; [exact Pb|reflexivity]).
      eapply Pres_iff; [|exact (Pres_trans _ _ _ _ _ Pe (Pres_trans _ _ _ _ _ P1 (Pres_trans _ _ _ _ _ Pm Pl)))]; cbv beta.
      intros x q h. rewrite givesAt_each. split; [intros [H|[H|[H|[H|H]]]]; eauto 10|].
      intros [H|[H|[(w & H1 & H)|[H|[(w & H1 & H)|H]]]]]; try discriminate; tauto.
  - cbn [ok] in HO. cbv zeta.
    assert (P1 : Pres (GivesAt v) s (visit v s)).
    { apply (IH V N G Gl); auto; [intros y HY; apply HN, gives_static; auto|]. eapply Fits_sub; [exact HF| |reflexivity]. intros y q h H. apply givesAt_static. auto. }
    eapply Pres_iff; [|eapply Pres_trans; [eapply Pres_then with (b' := setLast (T s v) (visit v s)); [exact P1|reflexivity]|apply (Pres_open ByStatic)]]; cbv beta.
    intros y q h. rewrite givesAt_static. tauto.
  - cbn [ok] in HO. destruct HE as [E1 E2 E3 E4 E5]. destruct (E3 x HO) as (e & He & Hk).
    destruct (filter isVar (inScope x (topOf s))) as [|d r] eqn:EF.
    + exfalso. assert (HIn : In e (filter isVar (inScope x (topOf s)))) by (apply filter_In; auto). rewrite EF in HIn. destruct HIn.
    + eapply Pres_iff; [|apply (Pres_add ByGlobal {| en := x; ep := p; ei := ei d; ek := EVariable; ea := true |}); reflexivity]; cbn.
      intros y q h. now rewrite givesAt_global.
  - cbn [ok] in HO. cbv zeta.
    assert (P1 : Pres (GivesAt b) s (visit b s)).
    { apply (IH V N G Gl); auto; [intros y HY; apply HN, gives_catch; auto|]. eapply Fits_sub; [exact HF| |reflexivity]. intros y q h H. apply givesAt_catch. auto. }
    set (s2 := match t with Some t => _ | None => _ end).
    assert (P2 : Pres (GivesAt b) s s2) by (eapply Pres_then; [exact P1|]; unfold s2; destruct t; reflexivity).
    eapply Pres_iff; [|eapply Pres_trans; [exact P2|apply (Pres_open ByCatch)]]; cbv beta.
    intros y q h. rewrite givesAt_catch. tauto.
  - destruct (fun_step V N G s ps us b HO HE) as [_ EO]. apply Pres_same; [apply givesAt_fun|].
    unfold leave. rewrite EO. reflexivity.
Qed.
End Walk.
