(** Proofs for C66: the induction over the tree (proof file). *)
From Coq Require Import List Bool Arith Lia.
From Verif Require Import PhpTypes MergeModel VarModel VarSpec VarProofs VarProofs2.
Import ListNotations.
Open Scope nat_scope.

Section Walk.
Variable T : st -> nd -> ty.
Variable F : st -> nd -> ty.
Notation visit := (visit T F).

Definition Good (n : nd) : Prop := forall V N G s,
  ok V N G (cft s) n -> Env V N G s -> (forall x, Gives n x -> N x) -> Res V (Gives n) (Inside n) s (visit n s).

Lemma fold_good l : Forall Good l -> forall V N G s, all (ok V N G (cft s)) l -> Env V N G s ->
  (forall x, (exists k, In k l /\ Gives k x) -> N x) ->
  Res V (fun x => exists k, In k l /\ Gives k x) (fun f => exists k, In k l /\ Inside k f) s (fold_left (fun s k => visit k s) l s).
Proof.
  induction 1 as [|k l Hk _ IH]; intros V N G s HO HE HN; cbn [fold_left].
  - apply Res_none; intros x (k & [] & _).
  - destruct HO as [HO1 HO2].
    assert (HR : Res V (Gives k) (Inside k) s (visit k s)).
    { apply (Hk V N G); auto. intros x HX. apply HN. exists k. split; [now left|exact HX]. }
    assert (HE1 : Env V N G (visit k s)).
    { eapply Env_step; [exact HE|exact HR|]. intros x HX. apply HN. exists k. split; [now left|exact HX]. }
    pose proof (r_cft _ _ _ _ _ HR) as EC.
    assert (HR2 := IH V N G (visit k s)). rewrite EC in HR2. specialize (HR2 HO2 HE1).
    eapply Res_iff; [| |eapply Res_trans; [exact HR|apply HR2]].
    + cbn. intros x. split; [intros [H|(k' & H1 & H2)]; eauto|]. intros (k' & [<-|H1] & H2); eauto.
    + cbn. intros f. split; [intros [H|(k' & H1 & H2)]; eauto|]. intros (k' & [<-|H1] & H2); eauto.
    + intros x (k' & H1 & H2). apply HN. exists k'. split; [now right|exact H2].
Qed.

(** Visiting a place where something is put, and declaring it. *)
Lemma place_good n V N G s (t : st -> ty) : Good n -> place V n -> ok V N G (cft s) n -> Env V N G s -> fnd s = fresh ->
  (forall x, Gives n x \/ IsVar n x -> N x) ->
  Res V (fun x => Gives n x \/ IsVar n x) (Inside n) s (declareFound (t (visit n s)) (visit n s)).
Proof.
  intros HG HP HO HE HF HN.
  assert (HR : Res V (Gives n) (Inside n) s (visit n s)) by (apply (HG V N G); auto).
  assert (HE1 : Env V N G (visit n s)) by (eapply Env_step; eauto).
  assert (HR2 : Res V (IsVar n) (fun _ => False) (visit n s) (declareFound (t (visit n s)) (visit n s))).
  { destruct n as [|l|b ss l| | | | | | | |]; cbn [place] in HP; try contradiction.
    - unfold declareFound. rewrite (fnd_elems T F l HP), HF. cbn. apply Res_none; auto. intros x HX. inversion HX.
    - apply Res_iff with (D := namesVar b ss) (I := fun _ => False); [intros x; symmetry; apply namesVar_isVar|tauto|].
      cbn [ok] in HO. destruct HO as [HO1 _].
      apply (Res_declareFound V N G _ b ss s); auto; [now rewrite HF|apply fnd_var| |].
      + intros x [-> (p & i & ->)]. tauto.
      + intros p x i -> ->. tauto. }
  eapply Res_iff; [| |eapply Res_trans; [exact HR|exact HR2]]; cbn; tauto.
Qed.

Lemma nth_error_cons_S {A} (a : A) l i : nth_error (a :: l) (S i) = nth_error l i. Proof. reflexivity. Qed.
Lemma args_good c l : Forall Good l -> forall V N G i s,
  all (ok V N G (cft s)) l ->
  (forall j a, nth_error l j = Some a -> refAt (cft s) (i + j) = nth (i + j) (refs c) false) ->
  (forall j a, nth_error l j = Some a -> nth (i + j) (refs c) false = true -> place V a) ->
  Env V N G s ->
  (forall x, (exists k, In k l /\ Gives k x) \/ (exists j a, nth_error l j = Some a /\ nth (i + j) (refs c) false = true /\ IsVar a x) -> N x) ->
  Res V (fun x => (exists k, In k l /\ Gives k x) \/ (exists j a, nth_error l j = Some a /\ nth (i + j) (refs c) false = true /\ IsVar a x))
    (fun f => exists k, In k l /\ Inside k f) s
    (snd (fold_left (fun is k => (S (fst is), pushed (fun s => afterArg (fst is) (visit k s)) (snd is))) l (i, s))).
Proof.
  induction 1 as [|k l Hk _ IH]; intros V N G i s HO HA HP HE HN; cbn [fold_left fst snd].
  - apply Res_none; [intros x [(k & [] & _)|(j & a & H & _)]; destruct j; discriminate|intros f (k & [] & _)].
  - destruct HO as [HO1 HO2].
    set (s1 := pushed (fun s => afterArg i (visit k s)) s).
    assert (HR : Res V (fun x => Gives k x \/ (nth i (refs c) false = true /\ IsVar k x)) (Inside k) s s1).
    { apply Res_pushed. assert (HE0 : Env V N G (setFnd fresh s)) by (eapply Env_ext; [| |exact HE]; reflexivity).
      pose proof (HA 0 k eq_refl) as HA0. rewrite Nat.add_0_r in HA0.
      assert (HN0 : forall x, Gives k x -> N x) by (intros x HX; apply HN; left; exists k; split; [now left|exact HX]).
      pose proof (Hk V N G (setFnd fresh s) HO1 HE0 HN0) as HR0.
      unfold afterArg. rewrite (r_cft _ _ _ _ _ HR0). cbn [setFnd cft]. rewrite HA0.
      destruct (nth i (refs c) false) eqn:ER.
      - eapply Res_iff; [| |apply (place_good k V N G (setFnd fresh s) (fun _ => Integral KNull)); auto].
        + cbn. intros x. tauto.
        + tauto.
        + apply (HP 0 k eq_refl). now rewrite Nat.add_0_r.
        + intros x [HX|HX]; [auto|]. apply HN. right. exists 0, k. split; [reflexivity|]. rewrite Nat.add_0_r. auto.
      - eapply Res_iff; [| |exact HR0]; [|tauto]. intros x. split; [auto|]. intros [H|[H _]]; [exact H|discriminate]. }
    assert (HE1 : Env V N G s1).
    { eapply Env_step; [exact HE|exact HR|]. intros x [HX|[HX1 HX2]]; apply HN.
      - left. exists k. split; [now left|exact HX].
      - right. exists 0, k. rewrite Nat.add_0_r. auto. }
    pose proof (r_cft _ _ _ _ _ HR) as EC.
    assert (HR2 := IH V N G (S i) s1). rewrite EC in HR2.
    assert (HS : forall j, i + S j = S i + j) by (intros; lia).
    eapply Res_iff; [| |eapply Res_trans; [exact HR|apply HR2; auto]].
    + cbn. intros x. split.
      * intros [[H|[H1 H2]]|[(k' & H1 & H2)|(j & a & H1 & H2 & H3)]].
        -- left. eauto.
        -- right. exists 0, k. rewrite Nat.add_0_r. auto.
        -- left. eauto.
        -- right. exists (S j), a. rewrite HS. auto.
      * intros [(k' & [<-|H1] & H2)|(j & a & H1 & H2 & H3)]; [auto|eauto|]. destruct j as [|j].
        -- rewrite Nat.add_0_r in H2. cbn in H1. injection H1 as ->. auto.
        -- right. right. exists j, a. rewrite HS in H2. auto.
    + cbn. intros f. split; [intros [H|(k' & H1 & H2)]; eauto|]. intros (k' & [<-|H1] & H2); eauto.
    + intros j a Hj. specialize (HA (S j) a Hj). now rewrite HS in HA.
    + intros j a Hj. specialize (HP (S j) a Hj). now rewrite HS in HP.
    + intros x [(k' & H1 & H2)|(j & a & H1 & H2 & H3)]; apply HN.
      * left. exists k'. split; [now right|exact H2].
      * right. exists (S j), a. rewrite HS. auto.
Qed.

(** Entering and leaving a function. *)
Lemma parameters_names n ps : map en (parameters n ps) = map (fun q => snd (fst q)) ps.
Proof. revert n. induction ps as [|[[p x] t] ps IH]; intros n; cbn; [reflexivity|]. now rewrite IH. Qed.
Lemma lexical_names s us x : (exists e, In e (flat_map (lexical s) us) /\ en e = x) -> In x (map snd us).
Proof.
  intros (e & He & <-). apply in_flat_map in He as (u & H1 & H2). unfold lexical in H2. destruct (lookup (snd u) _) as [|d r]; [destruct H2|].
  destruct H2 as [<-|[]]. cbn. now apply in_map.
Qed.

Lemma visit_good n : Good n.
Proof.
  induction n as [|l IH|b ss l IH|l r IHl IHr|c l IH|n IH|e v1 v2 b IHe IH1 IH2 IHb|p x v IH|p x|t p x b IH|ps us b IH] using nd_ind'; intros V N G s HO HE HN; cbn [VarModel.visit].
  - apply Res_none; [intros x H; inversion H as [| | | | | | | |? ? ? HP]; subst; inversion HP|intros f H; inversion H as [| |? ? ? HP]; subst; inversion HP].
  - eapply Res_iff; [| |apply (fold_good l IH V N G s HO HE)].
    + intros x. symmetry. apply gives_op.
    + intros f. symmetry. apply inside_op.
    + intros x HX. apply HN. now apply gives_op.
  - cbn [ok] in HO. destruct HO as [HO1 HO2].
    assert (EF : cft (foundVariable b ss s) = cft s /\ cur (foundVariable b ss s) = cur s /\ outer (foundVariable b ss s) = outer s /\ closed (foundVariable b ss s) = closed s)
      by (unfold foundVariable; destruct (find (fnd s)); auto). destruct EF as (EF1 & EF2 & EF3 & EF4).
    eapply Res_iff; [| |eapply (Res_ext V _ _ (foundVariable b ss s)); [symmetry; exact EF1|symmetry; exact EF2|symmetry; exact EF3|symmetry; exact EF4|reflexivity|reflexivity|reflexivity|reflexivity|apply (fold_good l IH V N G (foundVariable b ss s))]].
    + intros x. symmetry. apply gives_var.
    + intros f. symmetry. apply inside_var.
    + now rewrite EF1.
    + eapply Env_ext; [exact EF2|exact EF3|exact HE].
    + intros x HX. apply HN. now apply gives_var.
  - cbn [ok] in HO. destruct HO as (HS & HO1 & HO2).
    eapply Res_then with (s1 := pushed (fun s0 => assigned (T s (Assign l r)) (visit r (visit l s0))) s); [|reflexivity..].
    apply Res_pushed. set (s0 := setFnd fresh s). assert (HE0 : Env V N G s0) by (eapply Env_ext; [| |exact HE]; reflexivity).
    assert (HR1 : Res V (Gives l) (Inside l) s0 (visit l s0)).
    { apply (IHl V N G); auto. intros x HX. apply HN. apply gives_assign. auto. }
    assert (HE1 : Env V N G (visit l s0)) by (eapply Env_step; [exact HE0|exact HR1|]; intros x HX; apply HN; apply gives_assign; auto).
    assert (HR2 : Res V (Gives r) (Inside r) (visit l s0) (visit r (visit l s0))).
    { apply (IHr V N G); auto; [|intros x HX; apply HN; apply gives_assign; auto]. now rewrite (r_cft _ _ _ _ _ HR1). }
    assert (HE2 : Env V N G (visit r (visit l s0))) by (eapply Env_step; [exact HE1|exact HR2|]; intros x HX; apply HN; apply gives_assign; auto).
    destruct (single_found T F V N G (cft s) l HS HO1) as (b & ss & HF & HSS & HT & HTh).
    assert (HFd : fnd (visit r (visit l s0)) = fnd (foundVariable b ss s0)).
    { rewrite fnd_kept; [apply HF|]. rewrite HF. reflexivity. }
    pose proof (Res_assigned V N G (T s (Assign l r)) b ss s0 _ eq_refl HFd HE2 HSS HTh) as HR3.
    eapply Res_iff; [| |eapply Res_trans; [eapply Res_trans; [exact HR1|exact HR2]|exact HR3]]; cbn.
    + intros x. rewrite gives_assign, HT. tauto.
    + intros f. rewrite inside_assign. tauto.
  - cbn [ok] in HO. destruct HO as (HO1 & HO2 & HO3).
    set (s0 := setCft (calling c (cft s)) s). assert (HE0 : Env V N G s0) by (eapply Env_ext; [| |exact HE]; reflexivity).
    pose proof (args_good c l IH V N G 0 s0 HO1 HO2 HO3 HE0) as HR.
    assert (HN' : forall x, (exists k, In k l /\ Gives k x) \/ (exists j a, nth_error l j = Some a /\ nth (0 + j) (refs c) false = true /\ IsVar a x) -> N x).
    { intros x HX. apply HN. now apply gives_call. }
    specialize (HR HN'). destruct HR as [R1 R2 R3 R4 R5 R6]. split; auto.
    + intros x. cbn. rewrite R4, gives_call. reflexivity.
    + destruct R6 as (nw & E & A & B). exists nw. split; [exact E|]. split.
      * eapply Forall_impl; [|exact A]. cbn. intros d (f & H1 & H2). exists f. split; [now apply inside_call|exact H2].
      * intros f H. apply B. now apply inside_call in H.
  - cbn [ok] in HO. destruct HO as [HP HO]. apply Res_pushed. assert (HE0 : Env V N G (setFnd fresh s)) by (eapply Env_ext; [| |exact HE]; reflexivity).
    eapply Res_iff; [| |apply (place_good n V N G (setFnd fresh s) (fun _ => Integral KMixed)); auto].
    + intros x. symmetry. apply gives_elem.
    + intros f. symmetry. apply inside_elem.
    + intros x HX. apply HN. now apply gives_elem.
  - cbn [ok] in HO. destruct HO as (HO1 & HP1 & HO2 & HO3 & HO4). cbn zeta.
    assert (HNe : forall x, Gives e x -> N x) by (intros x HX; apply HN, gives_each; auto).
    assert (HN1 : forall x, Gives v1 x \/ IsVar v1 x -> N x) by (intros x HX; apply HN, gives_each; tauto).
    assert (HNb : forall x, Gives b x -> N x) by (intros x HX; apply HN, gives_each; tauto).
    assert (HRe : Res V (Gives e) (Inside e) s (visit e s)) by (apply (IHe V N G); auto).
    assert (HEe : Env V N G (visit e s)) by (eapply Env_step; eauto). pose proof (r_cft _ _ _ _ _ HRe) as Ce.
    set (sa := visit e s) in *.
    assert (HR1 : Res V (Gives v1) (Inside v1) sa (visit v1 sa)) by (apply (IH1 V N G); auto; now rewrite Ce).
    assert (HE1 : Env V N G (visit v1 sa)) by (eapply Env_step; eauto). pose proof (r_cft _ _ _ _ _ HR1) as C1.
    set (sb := visit v1 sa) in *.
    assert (AG : forall v s0, Good v -> place V v -> ok V N G (cft s0) v -> Env V N G s0 -> (forall x, Gives v x \/ IsVar v x -> N x) ->
       Res V (fun x => Gives v x \/ IsVar v x) (Inside v) s0 (pushed (fun s => let s' := visit v s in declareFound (last s') s') s0)).
    { intros v s0 A1 A2 A3 A4 A5. apply Res_pushed. apply (place_good v V N G (setFnd fresh s0) last); auto. eapply Env_ext; [| |exact A4]; reflexivity. }
    destruct v2 as [v|].
    + destruct HO4 as [HP2 HO4]. assert (HN2 : forall x, Gives v x \/ IsVar v x -> N x).
      { intros x HX. apply HN, gives_each. destruct HX as [HX|HX]; [right; right; left; eauto|]. do 4 right. left. eauto. }
      specialize (IH2 v eq_refl).
      assert (HR2 : Res V (Gives v) (Inside v) sb (visit v sb)) by (apply (IH2 V N G); auto; now rewrite C1, Ce).
      assert (HE2 : Env V N G (visit v sb)) by (eapply Env_step; eauto). pose proof (r_cft _ _ _ _ _ HR2) as C2. set (sc := visit v sb) in *.
      assert (HRb : Res V (Gives b) (Inside b) sc (visit b sc)) by (apply (IHb V N G); auto; now rewrite C2, C1, Ce).
      assert (HEb : Env V N G (visit b sc)) by (eapply Env_step; eauto). pose proof (r_cft _ _ _ _ _ HRb) as Cb. set (sd := visit b sc) in *.
      set (se := setLast (F sd e) sd).
      assert (HEe2 : Env V N G se) by (eapply Env_ext; [| |exact HEb]; reflexivity).
      assert (HRv : Res V (fun x => Gives v x \/ IsVar v x) (Inside v) se (pushed (fun s => let s' := visit v s in declareFound (last s') s') se)).
      { apply AG; auto. change (cft se) with (cft sd). now rewrite Cb, C2, C1, Ce. }
      set (sf := pushed _ se) in *. pose proof (r_cft _ _ _ _ _ HRv) as Cv.
      assert (HEv : Env V N G sf) by (eapply Env_step; eauto).
      assert (HRl : Res V (fun x => Gives v1 x \/ IsVar v1 x) (Inside v1) sf (pushed (fun s => let s' := visit v1 s in declareFound (last s') s') sf)).
      { apply AG; auto. rewrite Cv. change (cft se) with (cft sd). now rewrite Cb, C2, C1, Ce. }
      assert (HRm : Res V (Gives b) (Inside b) sc se) by (eapply Res_then; [exact HRb|reflexivity..]).
      eapply Res_iff; [| |exact (Res_trans _ _ _ _ _ _ _ _ HRe (Res_trans _ _ _ _ _ _ _ _ HR1 (Res_trans _ _ _ _ _ _ _ _ HR2 (Res_trans _ _ _ _ _ _ _ _ HRm (Res_trans _ _ _ _ _ _ _ _ HRv HRl)))))]; cbn.
      * intros x. rewrite gives_each. split; [intros [H|[H|[H|[H|[[H|H]|[H|H]]]]]]; eauto 10|].
        intros [H|[H|[(w & [= <-] & H)|[H|[(w & [= <-] & H)|H]]]]]; tauto.
      * intros f. rewrite inside_each. split; [intros [H|[H|[H|[H|[H|H]]]]]; eauto 10|]. intros [H|[H|[(w & [= <-] & H)|H]]]; tauto.
    + assert (HRb : Res V (Gives b) (Inside b) sb (visit b sb)) by (apply (IHb V N G); auto; now rewrite C1, Ce).
      assert (HEb : Env V N G (visit b sb)) by (eapply Env_step; eauto). pose proof (r_cft _ _ _ _ _ HRb) as Cb. set (sd := visit b sb) in *.
      set (se := setLast (F sd e) sd).
      assert (HEe2 : Env V N G se) by (eapply Env_ext; [| |exact HEb]; reflexivity).
      assert (HRl : Res V (fun x => Gives v1 x \/ IsVar v1 x) (Inside v1) se (pushed (fun s => let s' := visit v1 s in declareFound (last s') s') se)).
      { apply AG; auto. change (cft se) with (cft sd). now rewrite Cb, C1, Ce. }
      assert (HRm : Res V (Gives b) (Inside b) sb se) by (eapply Res_then; [exact HRb|reflexivity..]).
      eapply Res_iff; [| |exact (Res_trans _ _ _ _ _ _ _ _ HRe (Res_trans _ _ _ _ _ _ _ _ HR1 (Res_trans _ _ _ _ _ _ _ _ HRm HRl)))]; cbn.
      * intros x. rewrite gives_each. split; [intros [H|[H|[H|[H|H]]]]; eauto 10|].
        intros [H|[H|[(w & H1 & H)|[H|[(w & H1 & H)|H]]]]]; try discriminate; tauto.
      * intros f. rewrite inside_each. split; [intros [H|[H|[H|H]]]; eauto 10|]. intros [H|[H|[(w & H1 & H)|H]]]; try discriminate; tauto.
  - cbn [ok] in HO. cbn zeta.
    assert (HR : Res V (Gives v) (Inside v) s (visit v s)) by (apply (IH V N G); auto; intros y HY; apply HN, gives_static; auto).
    set (s1 := setLast (T s v) (visit v s)).
    eapply Res_iff; [| |eapply Res_trans; [eapply Res_then with (s2 := s1); [exact HR|reflexivity..]|apply Res_open]]; cbn.
    + intros y. rewrite gives_static. tauto.
    + intros f. rewrite inside_static. tauto.
  - cbn [ok] in HO. destruct HE as [E1 E2 E3 E4 E5]. destruct (E3 x HO) as (e & He & Hk).
    destruct (filter isVar (inScope x (topOf s))) as [|d r] eqn:EF.
    + exfalso. assert (HI : In e (filter isVar (inScope x (topOf s)))) by (apply filter_In; auto). rewrite EF in HI. destruct HI.
    + eapply Res_iff; [| |apply (Res_addOwn V {| en := x; ep := p; ei := ei d; ek := EVariable; ea := true |}); reflexivity]; cbn.
      * intros y. split; [intros ->; constructor|]. intros H. inversion H as [| | | | | | | |? ? ? HP]; subst; [reflexivity|inversion HP].
      * intros f. split; [intros []|]. intros H. inversion H as [| |? ? ? HP]; subst. inversion HP.
  - cbn [ok] in HO. cbn zeta.
    assert (HR : Res V (Gives b) (Inside b) s (visit b s)) by (apply (IH V N G); auto; intros y HY; apply HN, gives_catch; auto).
    set (s2 := match t with Some t => _ | None => _ end).
    assert (HR2 : Res V (Gives b) (Inside b) s s2) by (eapply Res_then; [exact HR|..]; unfold s2; destruct t; reflexivity).
    eapply Res_iff; [| |eapply Res_trans; [exact HR2|apply Res_open]]; cbn.
    + intros y. rewrite gives_catch. tauto.
    + intros f. rewrite inside_catch. tauto.
  - cbn [ok] in HO. cbn zeta in HO. set (N' := fun x => In x (map (fun q => snd (fst q)) ps) \/ In x (map snd us) \/ Gives b x) in *.
    set (V' := fun x => V x \/ N x) in *. set (s0 := enter ps us s) in *. destruct HE as [E1 E2 E3 E4 E5].
    assert (HD0 : forall x, declared (cur s0) x -> In x (map (fun q => snd (fst q)) ps) \/ In x (map snd us)).
    { intros x (d & Hd & Ex). cbn in Hd. apply in_app_iff in Hd as [Hd|Hd].
      - left. rewrite <- (parameters_names (List.length (heap s)) ps). rewrite <- Ex. now apply in_map.
      - right. apply (lexical_names s). eauto. }
    assert (HD1 : forall x, In x (map (fun q => snd (fst q)) ps) -> declared (cur s0) x).
    { intros x HX. rewrite <- (parameters_names (List.length (heap s)) ps) in HX. apply in_map_iff in HX as (d & Ex & Hd). exists d. cbn. rewrite in_app_iff. auto. }
    assert (ETop : topOf s0 = topOf s) by (unfold topOf, s0, enter; cbn; destruct (outer s) as [|c o]; [reflexivity|apply last_indep]).
    assert (HE0 : Env V' N' G s0).
    { split.
      - intros x (c & [<-|HC] & HD); [right; auto|]. left. apply E1. exists c. auto.
      - intros x HX. apply HD0 in HX as [HX|HX]; unfold N'; auto.
      - intros x HX. destruct (E3 x HX) as (d & H1 & H2). exists d. rewrite ETop. auto.
      - reflexivity.
      - now rewrite ETop. }
    assert (HR : Res V' (Gives b) (Inside b) s0 (visit b s0)) by (apply (IH V' N' G); auto; intros x HX; unfold N'; auto).
    destruct HR as [R1 R2 R3 R4 R5 R6]. set (s1 := visit b s0) in *.
    assert (EO : outer s1 = cur s :: outer s).
    { destruct R3 as [R3|(c & r & add & R3 & HC & _)]; [exact R3|]. change (outer s0) with (cur s :: outer s) in R3. injection R3 as <- <-. congruence. }
    assert (EL : leave (T s (Fun ps us b)) s1 = setLast (T s (Fun ps us b)) (setOuter (outer s) (setCur (cur s) (addClosed (cur s1) s1)))).
    { unfold leave. now rewrite EO. }
    rewrite EL.
    assert (HSC : scopeOf (cur s1) (Fun ps us b)).
    { split.
      - intros x [HX|HX]; apply R4; auto.
      - intros x HX. apply R4 in HX as [HX|HX]; [|auto]. apply HD0 in HX as [HX|HX]; auto. }
    split; cbn; auto.
    + left. reflexivity.
    + intros x. pose proof (gives_fun ps us b x). tauto.
    + destruct R6 as (nw & E & A & B). exists (nw ++ [cur s1]). split.
      * rewrite E. cbn. now rewrite app_assoc.
      * split.
        -- apply Forall_app. split.
           ++ eapply Forall_impl; [|exact A]. cbn. intros d (f & H1 & H2). exists f. split; [now apply inside_fun; right|exact H2].
           ++ constructor; [|constructor]. exists (Fun ps us b). split; [apply I_here|exact HSC].
        -- intros f HF. apply inside_fun in HF as [->|HF].
           ++ exists (cur s1). split; [apply in_app_iff; right; now left|exact HSC].
           ++ destruct (B f HF) as (d & H1 & H2). exists d. split; [apply in_app_iff; now left|exact H2].
Qed.
End Walk.
