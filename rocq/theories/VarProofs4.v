(** Proofs for C66: the types of variables (proof file). *)
From Coq Require Import List Bool Arith Lia.
From Verif Require Import PhpTypes MergeModel MergeSpec MergeProofs VarModel VarSpec VarProofs VarProofs2.
Import ListNotations.
Open Scope nat_scope.

#[local] Arguments typeAt : simpl never.
Lemma atoms_assign c t a : In a (atoms t) \/ (a <> Integral KMixed /\ In a (atoms c)) -> In a (atoms (assign c t)).
Proof.
  intros H. destruct (teq c (Integral KMixed)) eqn:E1.
  { apply teq_eq in E1. subst c. unfold assign. destruct (teq (Integral KMixed) t) eqn:E2.
    - apply teq_eq in E2. subst t. cbn in *. destruct H as [H|[H1 [H2|[]]]]; [exact H|auto].
    - destruct H as [H|[H1 [H2|[]]]]; [exact H|congruence]. }
  destruct (teq c (Ref (Integral KMixed))) eqn:E2.
  { apply teq_eq in E2. subst c. unfold assign. destruct (teq (Ref (Integral KMixed)) t) eqn:E3.
    - apply teq_eq in E3. subst t. cbn in *. destruct H as [H|[H1 [H2|[]]]]; [exact H|auto].
    - cbn. destruct H as [H|[H1 [H2|[]]]]; [exact H|congruence]. }
  assert (HS : settled c).
  { split; intros ->; rewrite teq_refl in *; discriminate. }
  destruct (assign_settled c t HS) as [_ HA]. apply HA. tauto.
Qed.

Lemma update_length h : forall i t, List.length (update h i t) = List.length h.
Proof. induction h as [|a h IH]; intros [|i] t; cbn; auto. Qed.
Lemma typeAt_update h : forall i j t, typeAt (update h i t) j = if Nat.eqb i j && (i <? List.length h) then t else typeAt h j.
Proof.
  unfold typeAt. induction h as [|a h IH]; intros [|i] [|j] t; cbn; try reflexivity.
  - now rewrite andb_false_r.
  - rewrite IH. reflexivity.
Qed.
Lemma typeAt_app h t i : i < List.length h -> typeAt (h ++ t) i = typeAt h i.
Proof. intros H. unfold typeAt. now rewrite app_nth1. Qed.
Lemma typeAt_new h t : typeAt (h ++ [t]) (List.length h) = t.
Proof. unfold typeAt. rewrite app_nth2 by lia. now rewrite Nat.sub_diag. Qed.

(** ** What stays *)
Definition keepScope (c c' : scope) : Prop := forall e, In e (own c ++ imps c) -> exists e', In e' (own c' ++ imps c') /\ en e' = en e /\ ei e' = ei e.
Definition keepHeap (h h' : list ty) : Prop :=
  List.length h <= List.length h' /\ forall i a, i < List.length h -> lasting a -> In a (atoms (typeAt h i)) -> In a (atoms (typeAt h' i)).
Record Keep (s s' : st) : Prop := {
  k_heap : keepHeap (heap s) (heap s');
  k_cur : keepScope (cur s) (cur s');
  k_outer : Forall2 keepScope (outer s) (outer s');
  k_typed : wellTyped s'
}.
Lemma keepScope_refl c : keepScope c c. Proof. intros e He. eauto. Qed.
Lemma keepScope_trans a b c : keepScope a b -> keepScope b c -> keepScope a c.
Proof. intros H1 H2 e He. destruct (H1 e He) as (e1 & A1 & A2 & A3). destruct (H2 e1 A1) as (e2 & B1 & B2 & B3). exists e2. repeat split; congruence. Qed.
Lemma Forall2_keep_refl l : Forall2 keepScope l l.
Proof. induction l; constructor; auto. apply keepScope_refl. Qed.
Lemma Forall2_keep_trans a b c : Forall2 keepScope a b -> Forall2 keepScope b c -> Forall2 keepScope a c.
Proof.
  intros H. revert c. induction H as [|x y l m Hx _ IH]; intros c H2; inversion H2; subst; constructor; auto. eapply keepScope_trans; eassumption.
Qed.
Lemma Keep_refl s : wellTyped s -> Keep s s.
Proof. intros H. split; auto; [split; auto|apply keepScope_refl|apply Forall2_keep_refl]. Qed.
Lemma Keep_trans a b c : Keep a b -> Keep b c -> Keep a c.
Proof.
  intros [[A0 A1] A2 A3 A4] [[B0 B1] B2 B3 B4]. split; auto.
  - split; [lia|]. intros i x H1 H2 H3. apply B1; auto. lia.
  - eapply keepScope_trans; eassumption.
  - eapply Forall2_keep_trans; eassumption.
Qed.
Lemma Keep_ext a a' b b' : heap a' = heap a -> cur a' = cur a -> outer a' = outer a -> heap b' = heap b -> cur b' = cur b -> outer b' = outer b -> Keep a b -> Keep a' b'.
Proof. intros A1 A2 A3 B1 B2 B3 [H1 H2 H3 H4]. unfold wellTyped in *. split; unfold wellTyped; rewrite ?A1, ?A2, ?A3, ?B1, ?B2, ?B3; auto. Qed.
Lemma Keep_same s s' : wellTyped s -> heap s' = heap s -> cur s' = cur s -> outer s' = outer s -> Keep s s'.
Proof. intros H E1 E2 E3. exact (Keep_ext s s s s' eq_refl eq_refl eq_refl E1 E2 E3 (Keep_refl s H)). Qed.
Lemma hasType_keep s s' x a : wellTyped s -> Keep s s' -> lasting a -> hasType s x a -> hasType s' x a.
Proof.
  intros HW [[H0 H1] H2 H3 H4] HL (e & He & Ex & Ha). destruct (H2 e He) as (e' & A1 & A2 & A3). exists e'. split; [exact A1|]. split; [congruence|].
  rewrite A3. apply H1; auto. inversion HW as [|? ? HT _]; subst. unfold typed in HT. rewrite Forall_forall in HT. auto.
Qed.
Lemma typed_mono n m c : n <= m -> typed n c -> typed m c.
Proof. intros H. unfold typed. apply Forall_impl. intros e He. lia. Qed.
Lemma wellTyped_mono n m l : n <= m -> Forall (typed n) l -> Forall (typed m) l.
Proof. intros H. apply Forall_impl. intros c. now apply typed_mono. Qed.

(** ** The steps *)
Lemma Keep_update s i t : wellTyped s -> (forall a, lasting a -> In a (atoms (typeAt (heap s) i)) -> In a (atoms t)) -> Keep s (setHeap (update (heap s) i t) s).
Proof.
  intros HW H. split; cbn.
  - split; [now rewrite update_length|]. intros j a Hj HL Ha. rewrite typeAt_update. destruct (Nat.eqb i j && _) eqn:E; [|exact Ha].
    apply andb_true_iff in E as [E _]. apply Nat.eqb_eq in E. subst j. auto.
  - apply keepScope_refl.
  - apply Forall2_keep_refl.
  - unfold wellTyped. cbn. now rewrite update_length.
Qed.
Lemma keepScope_add e c : keepScope c (addOwn e c).
Proof. intros d Hd. exists d. cbn. rewrite <- app_assoc, in_app_iff. cbn. apply in_app_iff in Hd. tauto. Qed.
Lemma typed_add n e c : ei e < n -> typed n c -> typed n (addOwn e c).
Proof.
  unfold typed. intros H HC. rewrite Forall_forall in *. cbn. intros d Hd. rewrite <- app_assoc, in_app_iff in Hd. cbn in Hd.
  destruct Hd as [Hd|[<-|Hd]]; [apply HC, in_app_iff; auto|exact H|apply HC, in_app_iff; auto].
Qed.
Lemma keepHeap_app h t : keepHeap h (h ++ t).
Proof. split; [rewrite app_length; lia|]. intros i a Hi _ Ha. now rewrite typeAt_app. Qed.
Lemma Keep_open x p t s : wellTyped s -> Keep s (openVariable x p t s).
Proof.
  intros HW. split; cbn.
  - apply keepHeap_app.
  - apply keepScope_add.
  - apply Forall2_keep_refl.
  - unfold wellTyped in *. cbn. rewrite app_length. cbn. inversion HW as [|? ? H1 H2]; subst. constructor.
    + apply typed_add; [cbn; lia|]. eapply typed_mono; [|exact H1]. lia.
    + eapply wellTyped_mono; [|exact H2]. lia.
Qed.
Lemma hasType_open x p t s a : In a (atoms t) -> hasType (openVariable x p t s) x a.
Proof.
  intros H. exists (newEntry EVariable x p t s). cbn. split; [rewrite <- app_assoc, in_app_iff; cbn; auto|]. split; [reflexivity|]. now rewrite typeAt_new.
Qed.
Lemma Keep_declareVariable t x p s : wellTyped s -> Keep s (declareVariable t x p s).
Proof.
  intros HW. unfold declareVariable.
  assert (HD : Keep s (match lastOf (filter isVar (inScopeBefore x p (cur s))) with
      | Some e => setHeap (update (heap s) (ei e) (assign (typeAt (heap s) (ei e)) t)) s | None => openVariable x p t s end)).
  { destruct (lastOf _) as [e|]; [|now apply Keep_open]. apply Keep_update; auto. intros a [HL _] Ha. apply atoms_assign. auto. }
  destruct (if Nat.eqb x this then _ else None) as [[|aa ab n up|]|]; try exact HD.
  destruct (aa && _); [destruct ((n <? 4) && _)|]; apply Keep_same; auto.
Qed.
Lemma hasType_declareVariable t x p s a : wellTyped s -> x <> this -> In a (atoms t) -> hasType (declareVariable t x p s) x a.
Proof.
  intros HW HX Ha. unfold declareVariable. apply Nat.eqb_neq in HX. rewrite HX. destruct (lastOf _) as [e|] eqn:E; [|now apply hasType_open].
  apply lastOf_In in E. apply filter_In in E as [E _]. apply inScopeBefore_In in E as [E1 E2].
  exists e. cbn. split; [exact E1|]. split; [exact E2|]. rewrite typeAt_update, Nat.eqb_refl. cbn [andb].
  assert (HL : ei e < List.length (heap s)). { inversion HW as [|? ? H1 _]; subst. unfold typed in H1. rewrite Forall_forall in H1. auto. }
  apply Nat.ltb_lt in HL. rewrite HL. apply atoms_assign. auto.
Qed.
Lemma Keep_declareMember t x p s : wellTyped s -> Keep s (declareMember t x p s).
Proof.
  intros HW. unfold declareMember. destruct (outer s) as [|c r] eqn:EO; [now apply Keep_refl|]. destruct (sk c) as [|aa ab k up|]; try (now apply Keep_refl).
  destruct (existsb _ up); [now apply Keep_refl|]. split; cbn.
  - apply keepHeap_app.
  - apply keepScope_refl.
  - rewrite EO. constructor; [apply keepScope_add|apply Forall2_keep_refl].
  - unfold wellTyped in *. cbn. rewrite EO in HW. rewrite app_length. cbn. inversion HW as [|? ? H1 H2]; subst. inversion H2 as [|? ? H3 H4]; subst.
    constructor; [eapply typed_mono; [|exact H1]; lia|]. constructor; [apply typed_add; [cbn; lia|eapply typed_mono; [|exact H3]; lia]|eapply wellTyped_mono; [|exact H4]; lia].
Qed.
Lemma Keep_assigned t s : wellTyped s -> Keep s (assigned t s).
Proof.
  intros HW. unfold assigned. destruct (ident (fnd s)) as [x|]; [|now apply Keep_refl]. destruct (node (fnd s)) as [p|]; [|now apply Keep_refl].
  destruct (parent (fnd s)) as [q|]; [|now apply Keep_declareVariable].
  destruct (Nat.eqb q this); [|now apply Keep_refl]. destruct (thisClass s) as [c|]; [|now apply Keep_refl].
  destruct (lastOf _) as [e|]; [|now apply Keep_declareMember]. destruct (typeAt (heap s) (ei e)) as [k| | | | |] eqn:ET; try (now apply Keep_refl).
  destruct k; try (now apply Keep_refl). apply Keep_update; auto. rewrite ET. intros a [_ HL] [H|[]]. congruence.
Qed.
Lemma Keep_move p e s : wellTyped s -> Keep s (setCur {| sk := sk (cur s); own := moveTo p e (own (cur s)); imps := imps (cur s) |} s).
Proof.
  intros HW. split; cbn.
  - split; auto.
  - intros d Hd. cbn. apply in_app_iff in Hd as [Hd|Hd]; [|exists d; rewrite in_app_iff; auto].
    exists (if moves p e d then movedTo p d else d). split; [|destruct (moves _ _ _); auto].
    apply in_app_iff. left. now apply (in_map (fun e' => if moves p e e' then movedTo p e' else e')).
  - apply Forall2_keep_refl.
  - unfold wellTyped in *. cbn. inversion HW as [|? ? H1 H2]; subst. constructor; [|exact H2]. unfold typed in *. rewrite Forall_forall in *. cbn.
    intros d Hd. apply in_app_iff in Hd as [Hd|Hd]; [|apply H1, in_app_iff; auto]. unfold moveTo in Hd. apply in_map_iff in Hd as (d' & <- & Hd).
    specialize (H1 d' (proj2 (in_app_iff _ _ _) (or_introl Hd))). destruct (moves _ _ _); exact H1.
Qed.
Lemma Keep_declareFound t s : wellTyped s -> Keep s (declareFound t s).
Proof.
  intros HW. unfold declareFound. destruct (node (fnd s)) as [p|]; [|now apply Keep_refl]. destruct (ident (fnd s)) as [x|]; [|now apply Keep_refl].
  destruct (isArr (fnd s)); [now apply Keep_refl|]. destruct (parent (fnd s)) as [q|].
  - destruct (Nat.eqb q this); [|now apply Keep_refl]. destruct (thisClass s); [|now apply Keep_refl]. destruct (lookup x (outer s)); [now apply Keep_declareMember|now apply Keep_refl].
  - destruct (lookup x (cur s :: outer s)) as [|e r].
    + destruct (filter isVar _); [now apply Keep_declareVariable|now apply Keep_refl].
    + now apply Keep_move.
Qed.
Lemma Keep_pushed f s : wellTyped s -> Keep (setFnd fresh s) (f (setFnd fresh s)) -> Keep s (pushed f s).
Proof. intros HW. apply Keep_ext; reflexivity. Qed.
Lemma lookup_typed n x l e : Forall (typed n) l -> In e (lookup x l) -> ei e < n.
Proof.
  induction 1 as [|c l Hc _ IH]; cbn; [intros []|]. destruct (inScope x c) as [|d r] eqn:E; [exact IH|]. rewrite <- E. intros HI. apply inScope_In in HI as [HI _].
  unfold typed in Hc. rewrite Forall_forall in Hc. auto.
Qed.
Lemma parameters_typed ps : forall n e, In e (parameters n ps) -> ei e < n + List.length ps.
Proof. induction ps as [|[[p x] t] ps IH]; intros n e; cbn; [intros []|]. intros [<-|H]; [cbn; lia|]. apply IH in H. lia. Qed.
Lemma wellTyped_enter ps us s : wellTyped s -> wellTyped (enter ps us s).
Proof.
  intros HW. unfold wellTyped in *. cbn. rewrite app_length, map_length. constructor.
  - unfold typed. cbn. apply Forall_app. split; apply Forall_forall; intros e He.
    + now apply parameters_typed.
    + apply in_flat_map in He as (u & _ & He). unfold lexical in He. destruct (lookup (snd u) _) as [|d r] eqn:E; [destruct He|]. destruct He as [<-|[]]. cbn.
      assert (HD : ei d < List.length (heap s)) by (eapply lookup_typed; [exact HW|rewrite E; now left]). lia.
  - eapply wellTyped_mono; [|exact HW]. lia.
Qed.

Section Walk.
Variable T : st -> nd -> ty.
Variable F : st -> nd -> ty.
Notation visit := (visit T F).
Lemma visit_keep n : forall s, wellTyped s -> Keep s (visit n s).
Proof.
  assert (HL : forall l, Forall (fun n => forall s, wellTyped s -> Keep s (visit n s)) l -> forall s, wellTyped s -> Keep s (fold_left (fun s k => visit k s) l s)).
  { induction 1 as [|k l Hk _ IH]; intros s HW; cbn [fold_left]; [now apply Keep_refl|]. eapply Keep_trans; [now apply Hk|]. apply IH. apply (k_typed s). now apply Hk. }
  assert (HA : forall v s (t : st -> ty), (forall s, wellTyped s -> Keep s (visit v s)) -> wellTyped s -> Keep s (pushed (fun s => declareFound (t (visit v s)) (visit v s)) s)).
  { intros v s t HV HW. apply Keep_pushed; auto. assert (H1 : Keep (setFnd fresh s) (visit v (setFnd fresh s))) by (apply HV; exact HW).
    eapply Keep_trans; [exact H1|]. apply Keep_declareFound. exact (k_typed _ _ H1). }
  induction n as [|l IH|b ss l IH|l r IHl IHr|c l IH|n IH|e v1 v2 b IHe IH1 IH2 IHb|p x v IH|p x|t p x b IH|ps us b IH] using nd_ind'; intros s HW; cbn [VarModel.visit].
  - now apply Keep_refl.
  - now apply HL.
  - assert (H1 : Keep s (foundVariable b ss s)) by (unfold foundVariable; destruct (find (fnd s)); apply Keep_same; auto).
    eapply Keep_trans; [exact H1|]. apply HL; auto. exact (k_typed _ _ H1).
  - eapply Keep_ext with (a := s) (b := pushed (fun s0 => assigned (T s (Assign l r)) (visit r (visit l s0))) s); try reflexivity.
    apply Keep_pushed; auto. assert (H1 : Keep (setFnd fresh s) (visit l (setFnd fresh s))) by (apply IHl; exact HW).
    assert (H2 := IHr _ (k_typed _ _ H1)). eapply Keep_trans; [exact H1|]. eapply Keep_trans; [exact H2|]. apply Keep_assigned. exact (k_typed _ _ H2).
  - assert (HG : forall i s0, wellTyped s0 -> Keep s0 (snd (fold_left (fun is k => (S (fst is), pushed (fun s => afterArg (fst is) (visit k s)) (snd is))) l (i, s0)))).
    { induction IH as [|k l Hk _ IHl]; intros i s0 HW0; cbn [fold_left fst snd]; [now apply Keep_refl|].
      assert (H1 : Keep s0 (pushed (fun s => afterArg i (visit k s)) s0)).
      { apply Keep_pushed; auto. assert (H2 : Keep (setFnd fresh s0) (visit k (setFnd fresh s0))) by (apply Hk; exact HW0).
        unfold afterArg. destruct (refAt _ _); [|exact H2]. eapply Keep_trans; [exact H2|]. apply Keep_declareFound. exact (k_typed _ _ H2). }
      eapply Keep_trans; [exact H1|]. apply IHl. exact (k_typed _ _ H1). }
    specialize (HG 0 (setCft (calling c (cft s)) s) HW). eapply Keep_ext; [..|exact HG]; reflexivity.
  - exact (HA n s (fun _ => Integral KMixed) IH HW).
  - cbn zeta. assert (He := IHe s HW). assert (H1 := IH1 _ (k_typed _ _ He)).
    set (o := match v2 with Some v => visit v (visit v1 (visit e s)) | None => visit v1 (visit e s) end).
    assert (H2 : Keep (visit v1 (visit e s)) o) by (unfold o; destruct v2 as [v|]; [apply IH2; auto; exact (k_typed _ _ H1)|apply Keep_refl; exact (k_typed _ _ H1)]).
    assert (Hb := IHb o (k_typed _ _ H2)). set (s1 := visit b o) in *. set (s2 := setLast (F s1 e) s1).
    assert (H3 : Keep s1 s2) by (apply Keep_same; auto; exact (k_typed _ _ Hb)).
    set (s3 := match v2 with Some v => _ | None => s2 end).
    assert (H4 : Keep s2 s3). { unfold s3. destruct v2 as [v|]; [|apply Keep_refl; exact (k_typed _ _ H3)]. apply (HA v s2 last); [apply IH2; auto|exact (k_typed _ _ H3)]. }
    eapply Keep_trans; [exact He|]. eapply Keep_trans; [exact H1|]. eapply Keep_trans; [exact H2|]. eapply Keep_trans; [exact Hb|]. eapply Keep_trans; [exact H3|].
    eapply Keep_trans; [exact H4|]. apply (HA v1 s3 last); auto. exact (k_typed _ _ H4).
  - cbn zeta. assert (H1 := IH s HW). eapply Keep_trans; [exact H1|]. set (s1 := setLast (T s v) (visit v s)).
    assert (H2 : Keep (visit v s) s1) by (apply Keep_same; auto; exact (k_typed _ _ H1)). eapply Keep_trans; [exact H2|]. apply Keep_open. exact (k_typed _ _ H2).
  - destruct (filter isVar (inScope x (topOf s))) as [|e r] eqn:E; [now apply Keep_refl|].
    assert (HE : ei e < List.length (heap s)).
    { assert (HI : In e (filter isVar (inScope x (topOf s)))) by (rewrite E; now left). apply filter_In in HI as [HI _]. apply inScope_In in HI as [HI _].
      unfold wellTyped in HW. rewrite Forall_forall in HW. assert (HT : typed (List.length (heap s)) (topOf s)).
      { apply HW. unfold topOf. destruct (outer s) as [|c o] using rev_ind; [now left|]. rewrite last_last. right. apply in_app_iff. right. now left. }
      unfold typed in HT. rewrite Forall_forall in HT. auto. }
    split; cbn.
    + split; auto.
    + apply keepScope_add.
    + apply Forall2_keep_refl.
    + unfold wellTyped in *. cbn. inversion HW as [|? ? H1 H2]; subst. constructor; [now apply typed_add|exact H2].
  - cbn zeta. assert (H1 := IH s HW). set (s2 := match t with Some t => _ | None => _ end).
    assert (H2 : Keep (visit b s) s2) by (unfold s2; destruct t; apply Keep_same; auto; exact (k_typed _ _ H1)).
    eapply Keep_trans; [exact H1|]. eapply Keep_trans; [exact H2|]. apply Keep_open. exact (k_typed _ _ H2).
  - set (s0 := enter ps us s). assert (HW0 := wellTyped_enter ps us s HW). fold s0 in HW0. destruct (IH s0 HW0) as [K1 K2 K3 K4]. set (s1 := visit b s0) in *.
    change (outer s0) with (cur s :: outer s) in K3. clearbody s1. destruct (outer s1) as [|c o] eqn:E2; [inversion K3|].
    assert (HC : keepScope (cur s) c) by (inversion K3; assumption). assert (HO : Forall2 keepScope (outer s) o) by (inversion K3; assumption).
    unfold leave. rewrite E2. split; cbn.
    + split; [destruct K1 as [K1 _]; cbn in K1; rewrite app_length in K1; lia|]. intros i a Hi HLa Ha. destruct K1 as [_ K1]. apply K1; auto; cbn; [rewrite app_length; lia|].
      now rewrite typeAt_app.
    + exact HC.
    + exact HO.
    + unfold wellTyped in *. cbn. rewrite E2 in K4. inversion K4; subst. assumption.
Qed.
End Walk.

(** ** What is put in a variable is among its types *)
Lemma puts_kept s s' x a : wellTyped s -> lasting a -> Keep s s' -> hasType s x a -> hasType s' x a.
Proof. intros. eapply hasType_keep; eassumption. Qed.
Lemma targetI_one k x i : TargetI (Op [k]) x i -> TargetI k x i.
Proof.
  intros H. inversion H as [|l n y j H1 E1]; subst. destruct l as [|a l]; cbn in E1; [now injection E1 as <-|].
  injection E1 as _ E1. destruct l; discriminate.
Qed.
Lemma single_targetI T F l : single l -> forall x i, TargetI l x i ->
  exists p, x <> this /\ forall s, fnd s = fresh -> fnd (visit T F l s) = {| find := false; ident := Some x; parent := None; node := Some p; isArr := i |}.
Proof.
  induction l as [|l IH|b ss l IH|l r IHl IHr|c l IH|n IH|e v1 v2 b IHe IH1 IH2 IHb|p x v IH|p x|t p x b IH|ps us b IH] using nd_ind'; cbn [single]; intros HS y i HT; try contradiction.
  - destruct l as [|k [|k' l]]; try contradiction. inversion IH as [|? ? IHk _]; subst. apply targetI_one in HT.
    exact (IHk HS y i HT).
  - inversion HT; subst. exists p. split; [exact HS|]. intros s Hs. rewrite fnd_var. unfold foundVariable. rewrite Hs. reflexivity.
Qed.

Section Types.
Variable T0 : nd -> ty.
Variable F : st -> nd -> ty.
Notation visit := (visit (fun _ => T0) F).
Lemma visit_puts n : forall V N G g s x a, ok V N G g n -> wellTyped s -> lasting a -> Puts T0 n x a -> hasType (visit n s) x a.
Proof.
  assert (KV : forall k s, wellTyped s -> Keep s (visit k s)) by (intros; now apply visit_keep).
  assert (KW : forall k s, wellTyped s -> wellTyped (visit k s)) by (intros k s HW; exact (k_typed _ _ (KV k s HW))).
  assert (HL : forall l, Forall (fun n => forall V N G g s x a, ok V N G g n -> wellTyped s -> lasting a -> Puts T0 n x a -> hasType (visit n s) x a) l ->
    forall V N G g s x a k, all (ok V N G g) l -> wellTyped s -> lasting a -> In k l -> Puts T0 k x a -> hasType (fold_left (fun s k => visit k s) l s) x a).
  { induction 1 as [|k l Hk Hl IH]; intros V N G g s x a k' HO HW HA HI HP; [destruct HI|]. destruct HO as [HO1 HO2]. cbn [fold_left]. destruct HI as [->|HI].
    - apply (puts_kept (visit k' s)); auto. 2: eapply Hk; eassumption.
      assert (HW' := KW k' s HW). clear -HW' KV KW. revert HW'. generalize (visit k' s). induction l as [|j l IH]; intros s0 HW0; cbn [fold_left]; [now apply Keep_refl|].
      eapply Keep_trans; [apply KV; exact HW0|]. apply IH. auto.
    - eapply IH; eauto. }
  assert (KF : forall t s, wellTyped s -> wellTyped (declareFound t s)) by (intros t s HW; exact (k_typed _ _ (Keep_declareFound t s HW))).
  assert (HA : forall v (t : st -> ty) s x a, wellTyped s -> lasting a -> hasType (visit v (setFnd fresh s)) x a -> hasType (pushed (fun s => declareFound (t (visit v s)) (visit v s)) s) x a).
  { intros v t s x a HW HLa H. change (hasType (declareFound (t (visit v (setFnd fresh s))) (visit v (setFnd fresh s))) x a).
    apply (puts_kept (visit v (setFnd fresh s))); auto. apply Keep_declareFound. auto. }
  assert (HAK : forall v (t : st -> ty) s, wellTyped s -> Keep s (pushed (fun s => declareFound (t (visit v s)) (visit v s)) s)).
  { intros v t s HW. apply Keep_pushed; auto. eapply Keep_trans; [apply KV; exact HW|]. apply Keep_declareFound. apply KW. exact HW. }
  induction n as [|l IH|b ss l IH|l r IHl IHr|c l IH|n IH|e v1 v2 b IHe IH1 IH2 IHb|p x v IH|p x|t p x b IH|ps us b IH] using nd_ind'; intros V N G g s y a HO HW HLa HP.
  - inversion HP as [| | | |? ? ? ? HQ]; subst. inversion HQ.
  - inversion HP as [| | | |? k ? ? HQ HR]; subst. inversion HQ; subst. cbn [VarModel.visit]. eapply HL; eauto.
  - inversion HP as [| | | |? k ? ? HQ HR]; subst. inversion HQ; subst. cbn [VarModel.visit]. cbn [ok] in HO. destruct HO as [_ HO]. eapply HL; eauto.
    unfold foundVariable. destruct (find (fnd s)); exact HW.
  - cbn [ok] in HO. destruct HO as (HS & HO1 & HO2). cbn [VarModel.visit]. set (s0 := setFnd fresh s). assert (HW0 : wellTyped s0) by exact HW.
    change (hasType (assigned (T0 (Assign l r)) (visit r (visit l s0))) y a).
    assert (HWl := KW l s0 HW0). assert (HWr := KW r _ HWl).
    inversion HP as [l' r' z a' HT Ha|l' r' z HT| | |? k ? ? HQ HR]; subst.
    + destruct (single_targetI (fun _ => T0) F l HS y false HT) as (p & HX & Hf). specialize (Hf s0 eq_refl).
      assert (Hf2 : fnd (visit r (visit l s0)) = {| find := false; ident := Some y; parent := None; node := Some p; isArr := false |}) by (rewrite fnd_kept; rewrite Hf; reflexivity).
      unfold assigned. rewrite Hf2. cbn [VarModel.node VarModel.ident VarModel.isArr VarModel.parent]. now apply hasType_declareVariable.
    + destruct (single_targetI (fun _ => T0) F l HS y true HT) as (p & HX & Hf). specialize (Hf s0 eq_refl).
      assert (Hf2 : fnd (visit r (visit l s0)) = {| find := false; ident := Some y; parent := None; node := Some p; isArr := true |}) by (rewrite fnd_kept; rewrite Hf; reflexivity).
      unfold assigned. rewrite Hf2. cbn [VarModel.node VarModel.ident VarModel.isArr VarModel.parent]. apply hasType_declareVariable; auto. now left.
    + apply (puts_kept (visit r (visit l s0))); auto; [now apply Keep_assigned|]. inversion HQ; subst.
      * apply (puts_kept (visit k s0)); auto. eapply IHl; eassumption.
      * eapply IHr; eassumption.
  - inversion HP as [| | | |? k ? ? HQ HR]; subst. inversion HQ as [| | | |? ? ? HIn| | | | | | |]; subst. cbn [ok] in HO. destruct HO as (HO1 & _ & _). cbn [VarModel.visit].
    assert (HG : forall i s0, wellTyped s0 -> hasType (snd (fold_left (fun is k => (S (fst is), pushed (fun s => afterArg (fst is) (visit k s)) (snd is))) l (i, s0))) y a).
    { clear HQ HP. assert (KG : forall l i s0, wellTyped s0 -> Keep s0 (snd (fold_left (fun is k => (S (fst is), pushed (fun s => afterArg (fst is) (visit k s)) (snd is))) l (i, s0)))).
      { clear -KV KW KF. induction l as [|j l IHl]; intros i s0 HW0; cbn [fold_left fst snd]; [now apply Keep_refl|].
        assert (H1 : Keep s0 (pushed (fun s => afterArg i (visit j s)) s0)).
        { apply Keep_pushed; auto. unfold afterArg. destruct (refAt _ _); [|now apply KV]. eapply Keep_trans; [apply KV; exact HW0|]. apply Keep_declareFound. now apply KW. }
        eapply Keep_trans; [exact H1|]. apply IHl. exact (k_typed _ _ H1). }
      induction IH as [|j l Hj _ IHl]; intros i s0 HW0; [destruct HIn|]. destruct HO1 as [HO1 HO1']. cbn [fold_left fst snd].
      assert (HWj : wellTyped (visit j (setFnd fresh s0))) by (apply KW; exact HW0).
      assert (H1 : wellTyped (pushed (fun s => afterArg i (visit j s)) s0)).
      { change (wellTyped (afterArg i (visit j (setFnd fresh s0)))). unfold afterArg. destruct (refAt _ _); auto. }
      destruct HIn as [->|HIn]; [|now apply IHl].
      apply (puts_kept (pushed (fun s => afterArg i (visit k s)) s0)); auto.
      change (hasType (afterArg i (visit k (setFnd fresh s0))) y a). apply (puts_kept (visit k (setFnd fresh s0))); auto.
      - unfold afterArg. destruct (refAt _ _); [now apply Keep_declareFound|now apply Keep_refl].
      - eapply Hj; [exact HO1|exact HW0|exact HLa|exact HR]. }
    exact (HG 0 (setCft (calling c (cft s)) s) HW).
  - inversion HP as [| | | |? k ? ? HQ HR]; subst. inversion HQ; subst. cbn [ok] in HO. destruct HO as [_ HO]. cbn [VarModel.visit].
    apply (HA k (fun _ => Integral KMixed)); auto. eapply IH; eauto.
  - cbn [ok] in HO. destruct HO as (HO1 & HP1 & HO2 & HO3 & HO4). cbn [VarModel.visit]. cbn zeta.
    assert (HWe := KW e s HW). assert (HW1 := KW v1 _ HWe).
    set (o := match v2 with Some v => visit v (visit v1 (visit e s)) | None => visit v1 (visit e s) end).
    assert (HWo : wellTyped o) by (unfold o; destruct v2; auto). assert (KO : Keep (visit v1 (visit e s)) o) by (unfold o; destruct v2; [now apply KV|now apply Keep_refl]).
    assert (HWb := KW b o HWo). assert (KB := KV b o HWo). set (s1 := visit b o) in *. set (s2 := setLast (F s1 e) s1).
    assert (K2 : Keep s1 s2) by (apply Keep_same; auto). assert (HW2 : wellTyped s2) by exact (k_typed _ _ K2).
    set (s3 := match v2 with Some v => _ | None => s2 end).
    assert (K3 : Keep s2 s3) by (unfold s3; destruct v2 as [v|]; [now apply (HAK v last)|now apply Keep_refl]).
    assert (HW3 := k_typed _ _ K3). assert (K4 := HAK v1 last s3 HW3).
    inversion HP as [| | | |? k ? ? HQ HR]; subst.
    assert (HE : hasType s1 y a).
    { inversion HQ; subst.
      - apply (puts_kept o); auto. apply (puts_kept (visit v1 (visit k s))); auto. apply (puts_kept (visit k s)); auto. eapply IHe; eauto.
      - apply (puts_kept o); auto. apply (puts_kept (visit k (visit e s))); auto. eapply IH1; eauto.
      - apply (puts_kept o); auto. unfold o. destruct HO4 as [_ HO4]. eapply (IH2 k eq_refl); eauto.
      - eapply IHb; eauto. }
    apply (puts_kept s3); auto. apply (puts_kept s2); auto.
  - cbn [ok] in HO. cbn [VarModel.visit]. cbn zeta. assert (HWv := KW v s HW). inversion HP as [| |? ? ? ? Ha| |? k ? ? HQ HR]; subst.
    + now apply hasType_open.
    + inversion HQ; subst. eapply puts_kept; [|exact HLa|apply Keep_open|]; [exact HWv|exact HWv|]. change (hasType (visit k s) y a). eapply IH; eauto.
  - inversion HP as [| | | |? k ? ? HQ HR]; subst. inversion HQ.
  - cbn [ok] in HO. cbn [VarModel.visit]. cbn zeta. assert (HWv := KW b s HW). inversion HP as [| | |? ? ? ? ? Ha|? k ? ? HQ HR]; subst.
    + now apply hasType_open.
    + inversion HQ; subst. set (s2 := match t with Some t => _ | None => _ end). assert (HW2 : wellTyped s2) by (unfold s2; destruct t; exact HWv).
      apply (puts_kept s2); auto; [now apply Keep_open|]. assert (H : hasType (visit k s) y a) by (eapply IH; eauto). unfold s2. destruct t; exact H.
  - inversion HP as [| | | |? k ? ? HQ HR]; subst. inversion HQ.
Qed.
End Types.
