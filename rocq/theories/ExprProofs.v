(** Proofs for C31. *)
From Verif Require Import PhpTypes ExprModel ExprSpec.

Section P.
Variable w : World.
Definition visitAll (l : list Expr) (r : R) : R := fold_left (fun r x => visit w x r) l r.
Lemma visitAll_eq l : forall r, (fix go (l : list Expr) (r : R) : R := match l with [] => r | x :: l' => go l' (visit w x r) end) l r = visitAll l r.
Proof. induction l as [|x l IH]; intros r; [reflexivity|]. cbn. apply IH. Qed.
Lemma rType_setK k r : rType (setK k r) = Some (Integral k). Proof. reflexivity. Qed.
Lemma ruled_l e : ruled e -> forall r, exists k, rType (visit w e r) = Some (Integral k) /\ phpKind e k.
Proof.
  induction 1 as [c e H|o a b H|o a b|e c|o a b|o a b H|t|l|l| | | |e H IH|e H IH|a e H IH]; intros r.
  - cbn in H. repeat (destruct H as [<-|H]; [eexists; split; [reflexivity|constructor]|]). destruct H.
  - cbn in H. destruct H as [<-|[<-|[<-|[]]]]; eexists; split; try reflexivity; constructor; try (left; reflexivity); cbn; tauto.
  - eexists. split; [reflexivity|constructor].
  - eexists. split; [reflexivity|constructor].
  - destruct o; eexists; split; try reflexivity; constructor; discriminate.
  - cbn in H. destruct H as [<-|[<-|[<-|[<-|[<-|[<-|[]]]]]]]; eexists; split; try reflexivity; constructor; try (left; reflexivity); cbn; tauto.
  - destruct t; eexists; split; try reflexivity; constructor.
  - eexists. split; [reflexivity|constructor].
  - eexists. split; [reflexivity|constructor].
  - eexists. split; [reflexivity|constructor].
  - eexists. split; [reflexivity|constructor].
  - eexists. split; [reflexivity|constructor].
  - destruct (IH r) as (k & A & B). exists k. split; [exact A|constructor; exact B].
  - destruct (IH r) as (k & A & B). exists k. split; [exact A|constructor; exact B].
  - destruct (IH (visit w a r)) as (k & A & B). exists k. split; [exact A|constructor; exact B].
Qed.
Lemma takes_l e x r : takes e x -> exists r', rType (visit w e r) = rType (visit w x r').
Proof.
  intros H. destruct H as [e|e|u e|e|o a b|a b|e|a b|l a b|a b|c t e|a b|o a b H|e|l e|e|e|e|e args|e]; try (eexists; reflexivity).
  - destruct t; eexists; reflexivity.
  - cbn in H. repeat (destruct H as [<-|H]; [eexists; reflexivity|]). destruct H.
  - exists (visitAll l r). cbn [visit]. rewrite visitAll_eq. unfold visitAll. rewrite fold_left_app. reflexivity.
Qed.
Lemma prop_indep n c r r' : rType r = rType r' -> rType (propResult w n c r) = rType (propResult w n c r').
Proof.
  intros H. unfold propResult. rewrite <- H. destruct (targetClass (rType r)) as [d|]; [|exact H].
  destruct (memberOf w d n c) as [l|]; [|reflexivity]. cbn. destruct (lastDec l) as [x|]; [|reflexivity]. destruct c; reflexivity.
Qed.
Lemma isset_indep l : l <> [] -> (fix all (l : list Expr) : Prop := match l with [] => True | x :: r => whole x /\ all r end) l ->
  Forall (fun x => whole x -> forall r r', rType (visit w x r) = rType (visit w x r')) l ->
  forall r r', rType (visit w (EIsset l) r) = rType (visit w (EIsset l) r').
Proof.
  cbn [visit]. induction l as [|x l IHl]; intros Hn H F r r'; [contradiction|]. destruct H as [Hx H].
  inversion F as [|? ? F1 F2]; subst. destruct l as [|y l]; [apply F1; exact Hx|].
  apply (IHl ltac:(discriminate) H F2 (visit w x r) (visit w x r')).
Qed.
Lemma indep_l : forall e, whole e -> forall r r', rType (visit w e r) = rType (visit w e r').
Proof.
  fix IH 1. intros e H r r'.
  destruct e as [v|t|l|[]|l|b i|f l|c m l|b n [l|]|c e|u e|e|o a b|o a b|a b|o a b|e [c|]|o a b|a b|l a b|a b|c [t|] e|a b|o a b|e|l|e|e|c l|e l|e|[e|]];
    cbn [whole] in H; try reflexivity.
  - cbn [visit]. destruct (staticOf w c m) as [ds|]; [|reflexivity]. unfold setDeclarations. cbn [rType]. destruct (lastDec ds); reflexivity.
  - cbn [visit]. cbn [setType rType]. apply prop_indep. apply IH. exact H.
  - cbn [visit]. apply prop_indep. apply IH. exact H.
  - cbn [visit]. destruct c; cbn [castResult]; try reflexivity; apply IH; exact H.
  - cbn [visit]. apply IH; exact H.
  - cbn [visit]. apply IH; exact H.
  - cbn [visit]. apply IH; apply H.
  - cbn [visit]. destruct o; cbn [additiveResult]; try reflexivity; apply IH; apply H.
  - cbn [visit]. apply IH; apply H.
  - cbn [visit]. apply IH; exact H.
  - cbn [visit]. destruct o; reflexivity.
  - cbn [visit]. apply IH; apply H.
  - cbn [visit]. apply IH; apply H.
  - cbn [visit]. apply IH; apply H.
  - cbn [visit]. apply IH; apply H.
  - cbn [visit]. apply IH; apply H.
  - cbn [visit]. apply IH; apply H.
  - cbn [visit]. destruct o; cbn [assignResult]; try reflexivity; apply IH; apply H.
  - cbn [visit]. apply IH; exact H.
  - assert (F : Forall (fun x => whole x -> forall r r', rType (visit w x r) = rType (visit w x r')) l).
    { clear H. induction l as [|x l IHl]; constructor; [exact (IH x)|exact IHl]. }
    destruct H as [Hn H]. apply isset_indep; assumption.
  - cbn [visit]. apply IH; exact H.
  - cbn [visit]. apply IH; exact H.
  - cbn [visit]. cbn [setType rType]. apply IH; exact H.
  - cbn [visit]. apply IH; exact H.
  - cbn [visit]. apply IH; exact H.
  - destruct H.
Qed.
End P.

Lemma structs_nil m : (forall d, ~ In (Struct d) m) <-> structsOf m = [].
Proof.
  unfold structsOf. induction m as [|t m IH]; [split; [reflexivity|intros _ d []]|]. cbn. split.
  - intros H. assert (E : forall d, ~ In (Struct d) m) by (intros d D; apply (H d); right; exact D). apply IH in E. rewrite E, app_nil_r.
    destruct t; try reflexivity. exfalso. eapply H. left. reflexivity.
  - intros H. apply app_eq_nil in H as [H1 H2]. intros d [->|D]; [discriminate|]. exact (proj2 IH H2 d D).
Qed.
Lemma structs_one m c : structsOf m = [c] <-> exists l1 l2, m = l1 ++ Struct c :: l2 /\ (forall d, ~ In (Struct d) l1) /\ (forall d, ~ In (Struct d) l2).
Proof.
  split.
  - induction m as [|t m IH]; [discriminate|]. intros H. destruct t as [k|d|d|m'|t|t]; cbn in H;
    try (destruct (IH H) as (l1 & l2 & -> & A & B); eexists (_ :: l1), l2; split; [reflexivity|]; split; [|exact B]; intros x [X|X]; [discriminate|exact (A x X)]).
    all: injection H as -> H; exists [], m; split; [reflexivity|]; split; [intros x []|]; apply structs_nil; exact H.
  - intros (l1 & l2 & -> & A & B). apply structs_nil in A, B. unfold structsOf in *. rewrite flat_map_app. cbn. rewrite A, B. reflexivity.
Qed.
Lemma target_iff t c : oneClass t c <-> targetClass t = Some c.
Proof.
  split.
  - intros [->|(l1 & l2 & -> & H)]; [reflexivity|]. cbn. replace (structsOf (l1 ++ Struct c :: l2)) with [c]; [reflexivity|].
    symmetry. apply structs_one. eauto.
  - destruct t as [[k|d|d|m|t|t]|]; try discriminate; cbn.
    + intros H. injection H as ->. left. reflexivity.
    + intros H. right. destruct (structsOf m) as [|x [|y z]] eqn:E; try discriminate. injection H as ->. apply structs_one in E.
      destruct E as (l1 & l2 & -> & E). exists l1, l2. auto.
Qed.
Lemma target_none t : (forall c, ~ oneClass t c) -> targetClass t = None.
Proof. intros H. destruct (targetClass t) as [c|] eqn:E; [|reflexivity]. exfalso. apply (H c). apply target_iff. exact E. Qed.
