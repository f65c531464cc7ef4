(** Proofs for C21 and C22 (proof file). *)
From Verif Require Export MergeSpec.
Open Scope nat_scope.

(** * C21 *)
Lemma firsts_in x l : In x (firsts l) <-> In x l.
Proof.
  induction l as [|t l IH]; cbn; [tauto|]. rewrite filter_In, IH. split.
  - intros [->|[H _]]; auto.
  - intros [->|H]; auto. destruct (teq x t) eqn:E; [apply teq_eq in E; auto|right; auto].
Qed.
Lemma firsts_nodup l : NoDup (firsts l).
Proof.
  induction l as [|t l IH]; cbn; constructor.
  - rewrite filter_In. intros [_ H]. now rewrite teq_refl in H.
  - now apply NoDup_filter.
Qed.
(** Adding at the end. *)
Lemma teq_sym a b : teq a b = teq b a.
Proof. destruct (teq a b) eqn:E1, (teq b a) eqn:E2; auto; [apply teq_eq in E1|apply teq_eq in E2]; subst; rewrite teq_refl in *; congruence. Qed.
Lemma memT_filter x t l : teq x t = false -> memT x (filter (fun y => negb (teq y t)) l) = memT x l.
Proof.
  intros H. destruct (memT x l) eqn:E.
  - apply memT_in. apply memT_in in E. apply filter_In. split; auto. now rewrite H.
  - destruct (memT x (filter _ l)) eqn:E2; auto. apply memT_in in E2. apply filter_In in E2 as [E2 _]. apply memT_in in E2. congruence.
Qed.
Lemma firsts_snoc l t : firsts (l ++ [t]) = addT (firsts l) t.
Proof.
  induction l as [|x l IH]; [reflexivity|]. cbn [app firsts]. rewrite IH. unfold addT. cbn [memT existsb].
  fold (memT t (filter (fun y => negb (teq y x)) (firsts l))).
  destruct (teq t x) eqn:E.
  - cbn [orb]. f_equal. destruct (memT t (firsts l)); auto. rewrite filter_app. cbn. rewrite E. cbn. now rewrite app_nil_r.
  - cbn [orb]. rewrite memT_filter by exact E. destruct (memT t (firsts l)); [reflexivity|]. rewrite filter_app. cbn. rewrite E. reflexivity.
Qed.
Lemma unionOf_firsts_step l t : l <> [] -> Forall plain l -> plain t -> Forall (fun x => isMixed x = false) (firstn 1 l) ->
  assign (unionOf (firsts l)) t = unionOf (firsts (l ++ [t])).
Proof.
  intros Hl Hp Ht Hm. rewrite firsts_snoc. pose proof (firsts_in) as HF.
  assert (Hpf : Forall plain (firsts l)). { apply Forall_forall. intros x Hx. rewrite firsts_in in Hx. rewrite Forall_forall in Hp. auto. }
  destruct l as [|a l]; [congruence|]. cbn [firsts] in *. inversion Hpf as [|? ? Hpa _]; subst.
  cbn in Hm. inversion Hm as [|? ? Hma _]; subst.
  set (r := filter (fun x => negb (teq x a)) (firsts l)) in *. destruct r as [|b r'] eqn:Er.
  - cbn [unionOf]. unfold assign. destruct (teq a t) eqn:E.
    + apply teq_eq in E. subst. unfold addT, memT. cbn. rewrite teq_refl. reflexivity.
    + unfold addT, memT. cbn. rewrite teq_sym, E. cbn. destruct a as [k| | | | |]; try reflexivity; try contradiction.
      destruct k; try reflexivity. discriminate.
  - unfold unionOf at 1. unfold assign.
    replace (teq (Unsure (a :: b :: r')) t) with false by (destruct t; try reflexivity; contradiction).
    unfold addT at 2. unfold addT. destruct (memT t (a :: b :: r')); reflexivity.
Qed.

Lemma dropMixed_snoc l t : dropMixed (l ++ [t]) = match dropMixed l with [] => if isMixed t then [] else [t] | d => d ++ [t] end.
Proof.
  induction l as [|x l IH]; cbn [app dropMixed]; [reflexivity|]. destruct (isMixed x); [exact IH|reflexivity].
Qed.
Lemma dropMixed_head l : Forall (fun x => isMixed x = false) (firstn 1 (dropMixed l)).
Proof. induction l as [|x l IH]; cbn; [constructor|]. destruct (isMixed x) eqn:E; [exact IH|]. constructor; auto. Qed.
Lemma dropMixed_sub l x : In x (dropMixed l) -> In x l.
Proof. induction l as [|y l IH]; cbn; auto. destruct (isMixed y); auto. Qed.
Lemma dropMixed_nil l : dropMixed l = [] -> Forall (fun x => isMixed x = true) l.
Proof. induction l as [|y l IH]; cbn; auto. destruct (isMixed y) eqn:E; [auto|discriminate]. Qed.

Lemma var_plain ts : ts <> [] -> Forall plain ts -> variableType ts = Some (unionOf (firsts (dropMixed ts))).
Proof.
  induction ts as [|t ts IH] using rev_ind; [congruence|]. intros _ Hp. apply Forall_app in Hp as [Hp Ht].
  inversion Ht as [|? ? Ht' _]; subst. unfold variableType. rewrite fold_left_app. cbn [fold_left]. fold (variableType ts).
  destruct ts as [|t0 ts'].
  - cbn. destruct (isMixed t) eqn:E; [apply isMixed_eq in E; now subst|reflexivity].
  - rewrite IH by (auto; discriminate). unfold assignTo. f_equal. set (l := t0 :: ts') in *. rewrite dropMixed_snoc.
    destruct (dropMixed l) as [|d dl] eqn:ED.
    + cbn [firsts unionOf]. destruct (isMixed t) eqn:E; [apply isMixed_eq in E; now subst|].
      unfold assign. destruct (teq (Integral KMixed) t) eqn:E2; [apply teq_eq in E2; subst; discriminate|reflexivity].
    + apply unionOf_firsts_step; auto; [discriminate| |rewrite <- ED; apply dropMixed_head].
      apply Forall_forall. intros x Hx. rewrite Forall_forall in Hp. apply Hp. apply dropMixed_sub. now rewrite ED.
Qed.

(** General types *)
Lemma atoms_addT a l t : In a (flat_map atoms (addT l t)) <-> In a (flat_map atoms l) \/ In a (atoms t).
Proof.
  rewrite !in_flat_map. split.
  - intros [x [H1 H2]]. apply addT_in in H1 as [H1| ->]; eauto.
  - intros [[x [H1 H2]]|H]; [exists x; rewrite addT_in; auto|exists t; rewrite addT_in; auto].
Qed.
Lemma assign_settled c t : settled c -> settled (assign c t) /\ (forall a, In a (atoms (assign c t)) <-> In a (atoms c) \/ In a (atoms t)).
Proof.
  intros HS. pose proof HS as [H1 H2]. unfold assign. destruct (teq c t) eqn:E.
  { apply teq_eq in E. subst. split; auto. tauto. }
  assert (HP : forall b, (forall a, In a (atoms (Unsure (addT [b] t))) <-> In a (atoms b) \/ In a (atoms t))).
  { intros b a. cbn [atoms]. rewrite atoms_addT. cbn. rewrite app_nil_r. tauto. }
  assert (HQ : forall l, (forall a, In a (atoms (Unsure (addT l t))) <-> In a (atoms (Unsure l)) \/ In a (atoms t))).
  { intros l a. cbn [atoms]. now rewrite atoms_addT. }
  destruct c as [k|d|d|l|e|b].
  - destruct k; try congruence; (split; [split; discriminate|apply HP]).
  - split; [split; discriminate|apply HP].
  - split; [split; discriminate|apply HP].
  - split; [split; discriminate|apply HQ].
  - split; [split; discriminate|apply HP].
  - destruct b as [k|d|d|l|e|b]; [destruct k; try congruence|..]; (split; [split; discriminate|]);
      match goal with |- forall a, In a (atoms (Ref (Unsure (addT [?b] _)))) <-> _ => exact (fun a => HP b a) | |- forall a, In a (atoms (Ref (Unsure (addT ?l _)))) <-> _ => exact (fun a => HQ l a) end.
Qed.
Lemma assign_all ts : forall c, settled c ->
  exists r, fold_left assignTo ts (Some c) = Some r /\ settled r /\
    forall a, In a (atoms r) <-> In a (atoms c) \/ exists t, In t ts /\ In a (atoms t).
Proof.
  induction ts as [|t ts IH]; intros c HS.
  - exists c. cbn. split; auto. split; auto. intros a. split; auto. intros [H|[t [[] _]]]; auto.
  - destruct (assign_settled c t HS) as [HS' HA]. destruct (IH _ HS') as (r & E & HR & HI). exists r. split; [exact E|]. split; auto.
    intros a. rewrite HI, HA. split.
    + intros [[H|H]|[x [H1 H2]]]; auto; right; [exists t; cbn; auto|exists x; cbn; auto].
    + intros [H|[x [[<-|H1] H2]]]; auto. right. eauto.
Qed.

(** * C22 *)
Lemma stmt_ind' (P : stmt -> Prop) : (forall t, P (SReturn t)) -> (forall f b, Forall P b -> P (SFun f b)) -> forall s, P s.
Proof.
  intros HR HF. fix IH 1. intros [t|f b]; [apply HR|]. apply HF. induction b as [|s b IHb]; constructor; auto.
Qed.
Definition visitBody' := (fix go (b : list stmt) (got : bool) (r : option ty) : bool * option ty :=
        match b with [] => (got, r) | s :: b' => let (g', r') := visitStmt s got r in go b' g' r' end).
Lemma visitBody_eq b : forall got r, visitBody' b got r = visitBody b got r.
Proof. induction b as [|s b IH]; intros got r; cbn; [reflexivity|]. now destruct (visitStmt s got r). Qed.

Lemma nested_go v b : (fix go b := match b with [] => True | s :: b' => nestedS v s /\ go b' end) b <-> nested v b.
Proof. induction b as [|s b IH]; cbn; tauto. Qed.

Lemma visit_uniform v s : nestedS v s -> forall got r, got = v ->
  fst (visitStmt s got r) = v /\ (v = true -> snd (visitStmt s got r) = r).
Proof.
  induction s as [t|f b IH] using stmt_ind'; intros HN got r ->.
  - destruct t as [t|]; cbn; auto. split; auto. intros ->. reflexivity.
  - cbn [nestedS] in HN. destruct HN as [HN1 HN2]. rewrite nested_go in HN2. cbn [visitStmt]. fold visitBody'. rewrite visitBody_eq, HN1. cbn [fst snd]. split; auto.
    clear r HN1. generalize f. intros r. revert r. induction IH as [|s b Hs _ IHb]; intros r; [reflexivity|].
    destruct HN2 as [HN2 HN3]. cbn [visitBody]. destruct (visitStmt s v r) as [g' r'] eqn:E.
    destruct (Hs HN2 v r eq_refl) as [H1 _]. rewrite E in H1. cbn in H1. subst g'. now apply IHb.
Qed.
Lemma body_fixed b : forall r, nested true b -> visitBody b true r = (true, r).
Proof.
  induction b as [|s b IH]; intros r HN; [reflexivity|]. destruct HN as [H1 H2]. cbn [visitBody].
  destruct (visit_uniform true s H1 true r eq_refl) as [E1 E2]. specialize (E2 eq_refl).
  destruct (visitStmt s true r) as [g' r']. cbn in *. subst. auto.
Qed.
(** mergeReturn on the type without its reference *)
Definition mergeN (r : option ty) (t : ty) : option ty :=
  match r with
  | Some e =>
      if negb (teq e t) then
        if isMixed e then Some t
        else if (isCallable e && isFunc t) || (isCallable t && isFunc e) then Some (Integral KCallable)
        else Some (match e, t with
             | Unsure l, Unsure m => Unsure (fold_left addT m l)
             | Unsure l, _ => Unsure (addT l t)
             | _, Unsure m => Unsure (addT m e)
             | _, _ => Unsure (addT (addT [] t) e)
             end)
      else Some t
  | None => Some t
  end.
Lemma mergeReturn_N r t : mergeReturn r t = mergeN r (noRef t).
Proof. reflexivity. Qed.
Lemma body_open b : forall r, nested false b -> visitBody b false r = (false, fold_left mergeN (ownReturns b) r).
Proof.
  induction b as [|s b IH]; intros r HN; [reflexivity|]. destruct HN as [H1 H2]. cbn [visitBody]. unfold ownReturns. cbn [flat_map].
  rewrite fold_left_app. fold (ownReturns b).
  destruct (visit_uniform false s H1 false r eq_refl) as [E1 _].
  destruct s as [[t|]|f bb]; cbn [visitStmt] in *.
  - rewrite mergeReturn_N. cbn [fold_left]. now apply IH.
  - cbn [fold_left]. now apply IH.
  - cbn [fst] in E1. rewrite E1. cbn [fold_left]. now apply IH.
Qed.

Record RInv (l : list ty) (r : option ty) : Prop := {
  ri_none : r = None <-> l = [];
  ri_mixed : forall e, r = Some e -> dropMixed l = [] -> e = Integral KMixed;
  ri_one : forall e, r = Some e -> dropMixed l <> [] -> e <> Integral KMixed /\
     ((exists m, e = Unsure m) \/ Forall (fun t => t = e) (dropMixed l));
  ri_atoms : forall e, r = Some e -> dropMixed l <> [] -> forall a, In a (atoms e) <-> exists t, In t (dropMixed l) /\ In a (atoms t)
}.
Lemma addT_fold_in x m : forall l, In x (fold_left addT m l) <-> In x l \/ In x m.
Proof. induction m as [|y m IH]; intros l; cbn; [tauto|]. rewrite IH, addT_in. intuition congruence. Qed.

Lemma merge_atoms e t : isMixed e = false -> (isCallable e && isFunc t) || (isCallable t && isFunc e) = false ->
  exists r, mergeN (Some e) t = Some r /\ r <> Integral KMixed /\
   (forall a, In a (atoms r) <-> In a (atoms e) \/ In a (atoms t)) /\ ((exists m, r = Unsure m) \/ r = e /\ t = e).
Proof.
  intros Hm Hc. unfold mergeN. destruct (teq e t) eqn:E; cbn [negb].
  { apply teq_eq in E. subst. exists t. split; auto. split; [intros ->; discriminate|]. split; [tauto|auto]. }
  rewrite Hm, Hc. clear Hc.
  assert (HX : forall l, (forall a, In a (flat_map atoms l) <-> In a (atoms e) \/ In a (atoms t)) -> exists r, Some (Unsure l) = Some r /\ r <> Integral KMixed /\
   (forall a, In a (atoms r) <-> In a (atoms e) \/ In a (atoms t)) /\ ((exists m, r = Unsure m) \/ r = e /\ t = e)).
  { intros l Hl. exists (Unsure l). split; auto. split; [discriminate|]. split; [exact Hl|left; eauto]. }
  assert (H1 : forall a, In a (flat_map atoms (addT [t] e)) <-> In a (atoms e) \/ In a (atoms t)).
  { intros a. rewrite atoms_addT. cbn [flat_map]. rewrite app_nil_r. tauto. }
  assert (H2 : forall m a, t = Unsure m -> In a (flat_map atoms (addT m e)) <-> In a (atoms e) \/ In a (atoms t)).
  { intros m a ->. rewrite atoms_addT. cbn. tauto. }
  assert (H3 : forall m a, e = Unsure m -> In a (flat_map atoms (addT m t)) <-> In a (atoms e) \/ In a (atoms t)).
  { intros m a ->. rewrite atoms_addT. cbn. tauto. }
  assert (H4 : forall l m a, e = Unsure l -> t = Unsure m -> In a (flat_map atoms (fold_left addT m l)) <-> In a (atoms e) \/ In a (atoms t)).
  { intros l m a -> ->. cbn [atoms]. rewrite !in_flat_map. split.
    - intros [x [Hx Hy]]. apply addT_fold_in in Hx as [Hx|Hx]; eauto.
    - intros [[x [Hx Hy]]|[x [Hx Hy]]]; exists x; rewrite addT_fold_in; auto. }
  change (addT [] t) with [t].
  destruct e as [k|d|d|l|x|b]; destruct t as [k'|d'|d'|l'|x'|b']; apply HX; intros a; first [now apply H1|now apply H2|now apply H3|now apply H4].
Qed.

Lemma fold_inv l : noPair l -> RInv l (fold_left mergeN l None).
Proof.
  induction l as [|t l IH] using rev_ind; intros HP.
  { cbn. constructor; [tauto| | |]; discriminate. }
  assert (HP' : noPair l). { destruct HP as [HP|HP]; apply Forall_app in HP; [left|right]; tauto. }
  specialize (IH HP'). rewrite fold_left_app. cbn [fold_left].
  assert (HD : dropMixed (l ++ [t]) = match dropMixed l with [] => if isMixed t then [] else [t] | d => d ++ [t] end) by apply dropMixed_snoc.
  destruct (fold_left mergeN l None) as [e|] eqn:Ef.
  2:{ assert (l = []) by now apply (ri_none _ _ IH). subst l. change (dropMixed []) with (@nil ty) in HD. cbv iota in HD. cbn [mergeN]. constructor.
      - split; discriminate.
      - intros e E. injection E as <-. rewrite HD. destruct (isMixed t) eqn:Em; [now apply isMixed_eq in Em|intros H; discriminate H].
      - intros e E. injection E as <-. rewrite HD. destruct (isMixed t) eqn:Em; [congruence|]. intros _. split; [intros ->; discriminate|right; auto].
      - intros e E. injection E as <-. rewrite HD. destruct (isMixed t) eqn:Em; [congruence|]. intros _ a. split; [intros H; exists t; cbn; auto|].
        intros [x [[<-|[]] H]]. exact H. }
  assert (Hln : l <> []). { intros ->. cbn in Ef. discriminate. }
  destruct (dropMixed l) as [|d0 dl] eqn:ED.
  - pose proof (ri_mixed _ _ IH e eq_refl ED) as ->. unfold mergeN. cbn [isMixed].
    assert (Hr : (if negb (teq (Integral KMixed) t) then Some t else Some t) = Some t) by (destruct (negb _); reflexivity).
    rewrite Hr. constructor.
    + split; [discriminate|]. intros H. apply app_eq_nil in H as [_ H]. discriminate.
    + intros e E. injection E as <-. rewrite HD. destruct (isMixed t) eqn:Em; [now apply isMixed_eq in Em|intros H; discriminate H].
    + intros e E. injection E as <-. rewrite HD. destruct (isMixed t) eqn:Em; [congruence|]. intros _. split; [intros ->; discriminate|right; auto].
    + intros e E. injection E as <-. rewrite HD. destruct (isMixed t) eqn:Em; [congruence|]. intros _ a. split; [intros H; exists t; cbn; auto|].
      intros [x [[<-|[]] H]]. exact H.
  - destruct (ri_one _ _ IH e eq_refl ltac:(rewrite ED; discriminate)) as [Hem Hone].
    pose proof (ri_atoms _ _ IH e eq_refl ltac:(rewrite ED; discriminate)) as Hat. rewrite ED in Hone, Hat.
    assert (Hm : isMixed e = false). { destruct (isMixed e) eqn:E; auto. apply isMixed_eq in E. congruence. }
    assert (Hc : (isCallable e && isFunc t) || (isCallable t && isFunc e) = false).
    { destruct Hone as [[m ->]|Hall]; [now rewrite andb_false_r|].
      assert (He : In e l). { inversion Hall; subst. apply dropMixed_sub. rewrite ED. now left. }
      destruct HP as [HP|HP]; apply Forall_app in HP as [HP1 HP2]; rewrite Forall_forall in HP1; specialize (HP1 e He); inversion HP2 as [|? ? HP3 _]; subst; rewrite ?HP1, ?HP3; rewrite ?andb_false_r; reflexivity. }
    destruct (merge_atoms e t Hm Hc) as (r & Er & Hr1 & Hr2 & Hr3). rewrite Er. constructor.
    + split; [discriminate|]. intros H. apply app_eq_nil in H as [_ H]. discriminate.
    + intros e' _. rewrite HD. intros H. discriminate H.
    + intros e' E' _. injection E' as <-. rewrite HD. split; auto. destruct Hr3 as [Hr3|[-> ->]]; auto.
      destruct Hone as [Hone|Hone]; [left; exact Hone|right]. change (d0 :: dl ++ [e]) with ((d0 :: dl) ++ [e]). apply Forall_app. auto.
    + intros e' E' _ a. injection E' as <-. rewrite HD, Hr2, Hat. change (d0 :: dl ++ [t]) with ((d0 :: dl) ++ [t]). split.
      * intros [[x [H1 H2]]|H]; [exists x|exists t]; rewrite in_app_iff; cbn; auto.
      * intros [x [H1 H2]]. apply in_app_iff in H1 as [H1|[<-|[]]]; eauto.
Qed.

Lemma fold_plain l : Forall plain l -> match fold_left mergeN l None with
  | Some (Unsure m) => NoDup m /\ Forall plain m /\ 2 <= List.length m | Some e => plain e | None => True end.
Proof.
  induction l as [|t l IH] using rev_ind; intros HP; [cbn; auto|]. apply Forall_app in HP as [HP Ht]. inversion Ht as [|? ? Hpt _]; subst.
  specialize (IH HP). rewrite fold_left_app. cbn [fold_left]. destruct (fold_left mergeN l None) as [e|].
  2:{ cbn. destruct t; auto; contradiction. }
  assert (HPt : match Some t with Some (Unsure m) => NoDup m /\ Forall plain m /\ 2 <= List.length m | Some e => plain e | None => True end) by (destruct t; auto; contradiction).
  unfold mergeN. destruct (negb (teq e t)) eqn:E; [|exact HPt]. destruct (isMixed e); [exact HPt|].
  destruct ((isCallable e && isFunc t) || (isCallable t && isFunc e)); [exact I|].
  assert (H1 : forall m, NoDup m /\ Forall plain m /\ 2 <= List.length m -> NoDup (addT m t) /\ Forall plain (addT m t) /\ 2 <= List.length (addT m t)).
  { intros m [Hm1 [Hm2 Hm3]]. split; [now apply addT_nodup|]. split; [|unfold addT; destruct (memT t m); rewrite ?app_length; cbn; lia]. apply Forall_forall. intros x Hx. apply addT_in in Hx as [Hx| ->]; auto. rewrite Forall_forall in Hm2; auto. }
  assert (H2 : plain e -> NoDup (addT [t] e) /\ Forall plain (addT [t] e) /\ 2 <= List.length (addT [t] e)).
  { intros He. split; [apply addT_nodup; repeat constructor; auto|]. split; [|unfold addT, memT; cbn; apply negb_true_iff in E; rewrite E; cbn; lia]. apply Forall_forall. intros x Hx. apply addT_in in Hx as [[<-|[]]| ->]; auto. }
  change (addT [] t) with [t].
  destruct e; destruct t; try contradiction; first [exact (H2 IH)|exact (H1 _ IH)].
Qed.

(** Packaged for functionReturn *)
Lemma return_union body : nested false body -> noPair (ownReturns body) ->
  (ownReturns body = [] -> functionReturn None body = Integral KVoid) /\
  (ownReturns body <> [] -> dropMixed (ownReturns body) = [] -> functionReturn None body = Integral KMixed) /\
  (dropMixed (ownReturns body) <> [] ->
     forall a, In a (atoms (functionReturn None body)) <-> exists t, In t (dropMixed (ownReturns body)) /\ In a (atoms t)).
Proof.
  intros HN HP. unfold functionReturn. cbn [isSome]. rewrite (body_open body None HN). cbn [snd]. pose proof (fold_inv _ HP) as HI.
  destruct (fold_left mergeN (ownReturns body) None) as [e|] eqn:E.
  - split; [|split].
    + intros H. apply (ri_none _ _ HI) in H. discriminate.
    + intros _ H. now apply (ri_mixed _ _ HI).
    + intros H. now apply (ri_atoms _ _ HI).
  - assert (H : ownReturns body = []) by now apply (ri_none _ _ HI). rewrite H. split; [auto|]. split; cbn; congruence.
Qed.
Lemma return_shape body : nested false body -> noPair (ownReturns body) -> Forall plain (ownReturns body) -> dropMixed (ownReturns body) <> [] ->
  (forall t, Forall (fun x => x = t) (dropMixed (ownReturns body)) -> functionReturn None body = t) /\
  ((forall t, ~ Forall (fun x => x = t) (dropMixed (ownReturns body))) ->
     exists m, functionReturn None body = Unsure m /\ NoDup m /\ forall x, In x m <-> In x (dropMixed (ownReturns body))).
Proof.
  intros HN HP HPl HD. unfold functionReturn. cbn [isSome]. rewrite (body_open body None HN). cbn [snd]. pose proof (fold_inv _ HP) as HI.
  pose proof (fold_plain _ HPl) as HF.
  destruct (fold_left mergeN (ownReturns body) None) as [e|] eqn:E.
  2:{ assert (H : ownReturns body = []) by now apply (ri_none _ _ HI). rewrite H in HD. cbn in HD. congruence. }
  destruct (ri_one _ _ HI e eq_refl HD) as [_ Hone]. pose proof (ri_atoms _ _ HI e eq_refl HD) as Hat.
  assert (Hpa : forall x, plain x -> atoms x = [x]) by (intros [] Hx; try reflexivity; contradiction).
  assert (HDp : forall x, In x (dropMixed (ownReturns body)) -> plain x).
  { intros x Hx. apply dropMixed_sub in Hx. rewrite Forall_forall in HPl. auto. }
  assert (HM : forall m, e = Unsure m -> 2 <= List.length m /\ NoDup m /\ forall x, In x m <-> In x (dropMixed (ownReturns body))).
  { intros m ->. destruct HF as [HF1 [HF2 HF3]]. split; auto. split; auto. rewrite Forall_forall in HF2. intros x. split.
    - intros Hx. assert (Ha : In x (atoms (Unsure m))) by (cbn; apply in_flat_map; exists x; rewrite Hpa by auto; cbn; auto).
      apply Hat in Ha as [t [H1 H2]]. rewrite Hpa in H2 by auto. destruct H2 as [<-|[]]. exact H1.
    - intros Hx. assert (Ha : In x (atoms (Unsure m))) by (apply Hat; exists x; rewrite Hpa by auto; cbn; auto).
      cbn in Ha. apply in_flat_map in Ha as [y [H1 H2]]. rewrite Hpa in H2 by auto. destruct H2 as [<-|[]]. exact H1. }
  split.
  - intros t Ht. destruct Hone as [[m ->]|Hone].
    + exfalso. destruct (HM m eq_refl) as [L [HN2 Hx]]. rewrite Forall_forall in Ht.
      destruct m as [|a [|b m]]; cbn in L; try lia.
      assert (a = t) by (apply Ht, Hx; cbn; auto). assert (b = t) by (apply Ht, Hx; cbn; auto). subst. inversion HN2 as [|? ? Hn _]; subst. apply Hn. now left.
    + destruct (dropMixed (ownReturns body)); [congruence|]. inversion Ht; inversion Hone; subst. congruence.
  - intros Hne. destruct Hone as [[m ->]|Hone]; [exists m; split; [reflexivity|apply (HM m eq_refl)]|exfalso; eapply Hne; exact Hone].
Qed.
