(** The scopes of functions: what is in them when they are closed stays. *)
From Coq Require Import List Bool Arith Lia.
From Verif Require Import PhpTypes MergeModel VarModel VarSpec VarProofs VarProofs2 VarProofs3 VarProofs4.
Import ListNotations.
Open Scope nat_scope.
#[local] Arguments typeAt : simpl never.

Record Frame (s s' : st) : Prop := {
  f_cur : imps (cur s') = imps (cur s);
  f_outer : map imps (outer s') = map imps (outer s);
  f_closed : exists l, closed s' = closed s ++ l
}.
Lemma Frame_same s s' : cur s' = cur s -> outer s' = outer s -> closed s' = closed s -> Frame s s'.
Proof. intros A B C. split; rewrite ?A, ?B, ?C; auto. exists []. now rewrite app_nil_r. Qed.
Lemma Frame_trans a b c : Frame a b -> Frame b c -> Frame a c.
Proof. intros [A1 A2 (l & A3)] [B1 B2 (m & B3)]. split; try congruence. exists (l ++ m). now rewrite B3, A3, app_assoc. Qed.
Lemma Frame_ext a a' b b' : cur a' = cur a -> outer a' = outer a -> closed a' = closed a -> cur b' = cur b -> outer b' = outer b -> closed b' = closed b -> Frame a b -> Frame a' b'.
Proof. intros A1 A2 A3 B1 B2 B3 [H1 H2 H3]. split; rewrite ?A1, ?A2, ?A3, ?B1, ?B2, ?B3; assumption. Qed.
Lemma Frame_open x p t s : Frame s (openVariable x p t s).
Proof. split; try reflexivity. exists []. now rewrite app_nil_r. Qed.
Lemma Frame_declareVariable t x p s : Frame s (declareVariable t x p s).
Proof.
  unfold declareVariable. destruct (if Nat.eqb x this then _ else _) as [[]|];
    try (destruct (lastOf _); [apply Frame_same; reflexivity|apply Frame_open]).
  destruct (_ && _); [destruct (_ && _)|]; apply Frame_same; reflexivity.
Qed.
Lemma Frame_declareMember t x p s : Frame s (declareMember t x p s).
Proof.
  unfold declareMember. destruct (outer s) as [|c r] eqn:E; [apply Frame_same; reflexivity|].
  destruct (sk c); try (apply Frame_same; reflexivity). destruct (existsb _ _); [apply Frame_same; reflexivity|].
  split; cbn; try reflexivity; [rewrite E; reflexivity|]. exists []. now rewrite app_nil_r.
Qed.
Lemma Frame_assigned t s : Frame s (assigned t s).
Proof.
  unfold assigned. destruct (ident (fnd s)), (node (fnd s)); try (apply Frame_same; reflexivity). cbv zeta.
  destruct (parent (fnd s)) as [q|]; [|apply Frame_declareVariable]. destruct (Nat.eqb q this); [|apply Frame_same; reflexivity].
  destruct (thisClass s); [|apply Frame_same; reflexivity]. destruct (lastOf _) as [e|]; [|apply Frame_declareMember].
  destruct (typeAt _ _) as [i| | | | |]; try (apply Frame_same; reflexivity). destruct i; apply Frame_same; reflexivity.
Qed.
Lemma Frame_declareFound t s : Frame s (declareFound t s).
Proof.
  unfold declareFound. destruct (node (fnd s)), (ident (fnd s)); try (apply Frame_same; reflexivity). destruct (isArr (fnd s)); [apply Frame_same; reflexivity|].
  destruct (parent (fnd s)) as [q|].
  - destruct (Nat.eqb q this); [|apply Frame_same; reflexivity]. destruct (thisClass s); [|apply Frame_same; reflexivity].
    destruct (lookup _ _); [apply Frame_declareMember|apply Frame_same; reflexivity].
  - destruct (lookup _ _).
    + destruct (filter _ _); [apply Frame_declareVariable|apply Frame_same; reflexivity].
    + split; try reflexivity. exists []. now rewrite app_nil_r.
Qed.

Section Walk.
Variable T : st -> nd -> ty.
Variable F : st -> nd -> ty.
Notation visit := (visit T F).
Notation args l i s := (snd (fold_left (fun is k => (S (fst is), pushed (fun s => afterArg (fst is) (visit k s)) (snd is))) l (i, s))).

Lemma visit_frame n : forall s, Frame s (visit n s).
Proof.
  assert (HL : forall l, Forall (fun n => forall s, Frame s (visit n s)) l -> forall s, Frame s (fold_left (fun s k => visit k s) l s)).
  { induction 1 as [|k l Hk _ IH]; intros s; cbn [fold_left]; [apply Frame_same; reflexivity|]. eapply Frame_trans; [apply Hk|apply IH]. }
  assert (HA : forall v s (t : st -> ty), (forall s, Frame s (visit v s)) -> Frame s (pushed (fun s => declareFound (t (visit v s)) (visit v s)) s)).
  { intros v s t HV. eapply Frame_ext; [..|exact (Frame_trans _ _ _ (HV (setFnd fresh s)) (Frame_declareFound (t (visit v (setFnd fresh s))) _))]; reflexivity. }
  induction n as [|l IH|b ss l IH|l r IHl IHr|c l IH|n IH|e v1 v2 b IHe IH1 IH2 IHb|p x v IH|p x|t p x b IH|ps us b IH] using nd_ind'; intros s; cbn [VarModel.visit].
  - apply Frame_same; reflexivity.
  - now apply HL.
  - eapply Frame_trans; [|now apply HL]. unfold foundVariable. destruct (find (fnd s)); apply Frame_same; reflexivity.
  - cbv zeta. eapply Frame_ext; [..|exact (Frame_trans _ _ _ (IHl (setFnd fresh s)) (Frame_trans _ _ _ (IHr _) (Frame_assigned (T s (Assign l r)) _)))]; reflexivity.
  - assert (HG : forall i s0, Frame s0 (args l i s0)).
    { induction IH as [|k l Hk _ IHl]; intros i s0; cbn [fold_left fst snd]; [apply Frame_same; reflexivity|]. eapply Frame_trans; [|apply IHl].
      assert (H : Frame (setFnd fresh s0) (afterArg i (visit k (setFnd fresh s0)))).
      { unfold afterArg. destruct (refAt _ _); [|apply Hk]. eapply Frame_trans; [apply Hk|apply Frame_declareFound]. }
      eapply Frame_ext; [..|exact H]; reflexivity. }
    eapply Frame_ext; [..|exact (HG 0 (setCft (calling c (cft s)) s))]; reflexivity.
  - exact (HA n s (fun _ => Integral KMixed) IH).
  - cbn zeta. set (o := match v2 with Some v => visit v (visit v1 (visit e s)) | None => visit v1 (visit e s) end).
    assert (H2 : Frame (visit v1 (visit e s)) o) by (unfold o; destruct v2 as [v|]; [now apply IH2|apply Frame_same; reflexivity]).
    set (s1 := visit b o). set (s2 := setLast (F s1 e) s1). set (s3 := match v2 with Some v => _ | None => s2 end).
    assert (H4 : Frame s2 s3) by (unfold s3; destruct v2 as [v|]; [apply (HA v s2 last); now apply IH2|apply Frame_same; reflexivity]).
    eapply Frame_trans; [apply IHe|]. eapply Frame_trans; [apply IH1|]. eapply Frame_trans; [exact H2|]. eapply Frame_trans; [apply IHb|].
    eapply Frame_trans; [|eapply Frame_trans; [exact H4|now apply (HA v1 s3 last)]]. apply Frame_same; reflexivity.
  - cbv zeta. eapply Frame_trans; [apply IH|]. eapply Frame_trans; [|apply Frame_open]. apply Frame_same; reflexivity.
  - destruct (filter _ _) as [|d ds]; [apply Frame_same; reflexivity|]. split; try reflexivity. exists []. now rewrite app_nil_r.
  - cbv zeta. eapply Frame_trans; [apply IH|]. eapply Frame_trans; [|apply Frame_open]. destruct t; apply Frame_same; reflexivity.
  - destruct (IH (enter ps us s)) as [A B (l & C)]. cbn in B, C. unfold leave. destruct (outer (visit b (enter ps us s))) as [|c o] eqn:E; [discriminate B|].
    cbn [map] in B. injection B as B1 B2. split; cbn; try assumption. exists (l ++ [cur (visit b (enter ps us s))]). now rewrite C, app_assoc.
Qed.

Definition Both s s' := Keep s s' /\ Frame s s'.
Lemma visit_both n s : wellTyped s -> Both s (visit n s).
Proof. intros W. split; [now apply visit_keep|apply visit_frame]. Qed.
Lemma Both_trans a b c : Both a b -> Both b c -> Both a c.
Proof. intros [A B] [C D]. split; [eapply Keep_trans; eassumption|eapply Frame_trans; eassumption]. Qed.
Lemma Both_same s s' : wellTyped s -> heap s' = heap s -> cur s' = cur s -> outer s' = outer s -> closed s' = closed s -> Both s s'.
Proof. intros. split; [now apply Keep_same|now apply Frame_same]. Qed.
Lemma Both_ext a a' b b' : heap a' = heap a -> cur a' = cur a -> outer a' = outer a -> closed a' = closed a ->
  heap b' = heap b -> cur b' = cur b -> outer b' = outer b -> closed b' = closed b -> Both a b -> Both a' b'.
Proof. intros A1 A2 A3 A4 B1 B2 B3 B4 [K L]. split; [exact (Keep_ext a a' b b' A1 A2 A3 B1 B2 B3 K)|exact (Frame_ext a a' b b' A2 A3 A4 B2 B3 B4 L)]. Qed.
Lemma both_typed s s' : Both s s' -> wellTyped s'.
Proof. intros [K _]. exact (k_typed _ _ K). Qed.
Lemma both_fold l : forall s, wellTyped s -> Both s (fold_left (fun s k => visit k s) l s).
Proof.
  induction l as [|k l IH]; intros s W; cbn [fold_left]; [now apply Both_same|]. pose proof (visit_both k s W) as H. eapply Both_trans; [exact H|]. apply IH, (both_typed _ _ H).
Qed.
Lemma both_found t s : wellTyped s -> Both s (declareFound t s).
Proof. intros W. split; [now apply Keep_declareFound|apply Frame_declareFound]. Qed.
Lemma both_again v (t : st -> ty) s : wellTyped s -> Both s (pushed (fun s => declareFound (t (visit v s)) (visit v s)) s).
Proof.
  intros W. pose proof (visit_both v (setFnd fresh s) W) as H.
  eapply Both_ext; [..|exact (Both_trans _ _ _ H (both_found (t (visit v (setFnd fresh s))) _ (both_typed _ _ H)))]; reflexivity.
Qed.
Lemma both_after i s : wellTyped s -> Both s (afterArg i s).
Proof. intros W. unfold afterArg. destruct (refAt _ _); [now apply both_found|now apply Both_same]. Qed.
Lemma both_arg k i s : wellTyped s -> Both s (pushed (fun s => afterArg i (visit k s)) s) /\ Both (visit k (setFnd fresh s)) (pushed (fun s => afterArg i (visit k s)) s).
Proof.
  intros W. pose proof (visit_both k (setFnd fresh s) W) as H. pose proof (both_after i _ (both_typed _ _ H)) as H2.
  split; [eapply Both_ext; [..|exact (Both_trans _ _ _ H H2)]; reflexivity|eapply Both_ext; [..|exact H2]; reflexivity].
Qed.
Lemma both_args l : forall i s, wellTyped s -> Both s (args l i s).
Proof.
  induction l as [|k l IH]; intros i s W; cbn [fold_left fst snd]; [now apply Both_same|]. destruct (both_arg k i s W) as [H _]. eapply Both_trans; [exact H|].
  apply IH, (both_typed _ _ H).
Qed.

(** Every part is visited, and what is there afterwards stays. *)
Lemma part_visited n k s : Part n k -> wellTyped s -> exists s1, wellTyped s1 /\ Both s s1 /\ Both (visit k s1) (visit n s).
Proof.
  assert (IF : forall l k s, In k l -> wellTyped s -> exists s1, wellTyped s1 /\ Both s s1 /\ Both (visit k s1) (fold_left (fun s k => visit k s) l s)).
  { induction l as [|j l IH]; intros k0 s0 HI W; [destruct HI|]. cbn [fold_left]. pose proof (visit_both j s0 W) as H. destruct HI as [->|HI].
    - exists s0. split; [exact W|]. split; [now apply Both_same|]. apply both_fold, (both_typed _ _ H).
    - destruct (IH k0 _ HI (both_typed _ _ H)) as (s1 & W1 & B1 & B2). exists s1. split; [exact W1|]. split; [eapply Both_trans; eassumption|exact B2]. }
  intros P W. destruct P as [l k HI|b ss l k HI|l r|l r|c l k HI|k|e v1 v2 b|e v1 v2 b|e v1 v2 b|e v1 v2 b|p x v|t p x b]; cbn [VarModel.visit]; cbv zeta.
  - now apply IF.
  - assert (B : Both s (foundVariable b ss s)) by (unfold foundVariable; destruct (find (fnd s)); now apply Both_same).
    destruct (IF l k _ HI (both_typed _ _ B)) as (s1 & W1 & B1 & B2). exists s1. split; [exact W1|]. split; [eapply Both_trans; eassumption|exact B2].
  - pose proof (visit_both l (setFnd fresh s) W) as H. pose proof (visit_both r _ (both_typed _ _ H)) as H2. pose proof (both_typed _ _ H2) as W2.
    exists (setFnd fresh s). split; [exact W|]. split; [now apply Both_same|].
    eapply Both_ext; [..|exact (Both_trans _ _ _ H2 (conj (Keep_assigned (T s (Assign l r)) _ W2) (Frame_assigned (T s (Assign l r)) _)))]; reflexivity.
  - pose proof (visit_both l (setFnd fresh s) W) as H. pose proof (visit_both r _ (both_typed _ _ H)) as H2. pose proof (both_typed _ _ H2) as W2.
    exists (visit l (setFnd fresh s)). split; [exact (both_typed _ _ H)|]. split; [eapply Both_ext; [..|exact H]; reflexivity|].
    eapply Both_ext; [..|exact (conj (Keep_assigned (T s (Assign l r)) _ W2) (Frame_assigned (T s (Assign l r)) _))]; reflexivity.
  - assert (HG : forall l i s0, In k l -> wellTyped s0 -> exists s1, wellTyped s1 /\ Both s0 s1 /\ Both (visit k s1) (args l i s0)).
    { clear. induction l as [|j l IH]; intros i s0 HI W; [destruct HI|]. cbn [fold_left fst snd]. destruct (both_arg j i s0 W) as [H1 H2]. destruct HI as [->|HI].
      - exists (setFnd fresh s0). split; [exact W|]. split; [now apply Both_same|]. eapply Both_trans; [exact H2|]. apply both_args, (both_typed _ _ H1).
      - destruct (IH (S i) _ HI (both_typed _ _ H1)) as (s1 & W1 & B1 & B2). exists s1. split; [exact W1|]. split; [eapply Both_trans; eassumption|exact B2]. }
    destruct (HG l 0 (setCft (calling c (cft s)) s) HI W) as (s1 & W1 & B1 & B2). exists s1. split; [exact W1|].
    split; [eapply Both_ext; [..|exact B1]; reflexivity|eapply Both_ext; [..|exact B2]; reflexivity].
  - exists (setFnd fresh s). split; [exact W|]. split; [now apply Both_same|]. pose proof (visit_both k (setFnd fresh s) W) as H.
    eapply Both_ext; [..|exact (both_found (Integral KMixed) _ (both_typed _ _ H))]; reflexivity.
  - exists s. split; [exact W|]. split; [now apply Both_same|]. pose proof (visit_both e s W) as H. pose proof (both_typed _ _ H) as We.
    assert (B1 := visit_both v1 _ We). assert (W1 := both_typed _ _ B1).
    set (o := match v2 with Some v => visit v (visit v1 (visit e s)) | None => visit v1 (visit e s) end).
    assert (BO : Both (visit v1 (visit e s)) o) by (unfold o; destruct v2; [now apply visit_both|now apply Both_same]).
    assert (BB := visit_both b o (both_typed _ _ BO)). set (s1 := visit b o) in *. set (s2 := setLast (F s1 e) s1).
    assert (B2 : Both s1 s2) by (apply Both_same; auto; exact (both_typed _ _ BB)). set (s3 := match v2 with Some v => _ | None => s2 end).
    assert (B3 : Both s2 s3) by (unfold s3; destruct v2 as [v|]; [now apply (both_again v last), (both_typed _ _ B2)|apply Both_same; auto; exact (both_typed _ _ B2)]).
    assert (B4 := both_again v1 last s3 (both_typed _ _ B3)).
    exact (Both_trans _ _ _ B1 (Both_trans _ _ _ BO (Both_trans _ _ _ BB (Both_trans _ _ _ B2 (Both_trans _ _ _ B3 B4))))).
  - pose proof (visit_both e s W) as H. pose proof (both_typed _ _ H) as We. exists (visit e s). split; [exact We|]. split; [exact H|].
    assert (B1 := visit_both v1 _ We). assert (W1 := both_typed _ _ B1).
    set (o := match v2 with Some v => visit v (visit v1 (visit e s)) | None => visit v1 (visit e s) end).
    assert (BO : Both (visit v1 (visit e s)) o) by (unfold o; destruct v2; [now apply visit_both|now apply Both_same]).
    assert (BB := visit_both b o (both_typed _ _ BO)). set (s1 := visit b o) in *. set (s2 := setLast (F s1 e) s1).
    assert (B2 : Both s1 s2) by (apply Both_same; auto; exact (both_typed _ _ BB)). set (s3 := match v2 with Some v => _ | None => s2 end).
    assert (B3 : Both s2 s3) by (unfold s3; destruct v2 as [v|]; [now apply (both_again v last), (both_typed _ _ B2)|apply Both_same; auto; exact (both_typed _ _ B2)]).
    assert (B4 := both_again v1 last s3 (both_typed _ _ B3)).
    exact (Both_trans _ _ _ BO (Both_trans _ _ _ BB (Both_trans _ _ _ B2 (Both_trans _ _ _ B3 B4)))).
  - pose proof (visit_both e s W) as H. pose proof (both_typed _ _ H) as We. assert (B1 := visit_both v1 _ We). assert (W1 := both_typed _ _ B1).
    exists (visit v1 (visit e s)). split; [exact W1|]. split; [eapply Both_trans; eassumption|].
    assert (BO := visit_both v2 _ W1). set (o := visit v2 (visit v1 (visit e s))) in *.
    assert (BB := visit_both b o (both_typed _ _ BO)). set (s1 := visit b o) in *. set (s2 := setLast (F s1 e) s1).
    assert (B2 : Both s1 s2) by (apply Both_same; auto; exact (both_typed _ _ BB)).
    assert (B3 := both_again v2 last s2 (both_typed _ _ B2)). set (s3 := pushed _ s2) in *.
    assert (B4 := both_again v1 last s3 (both_typed _ _ B3)).
    exact (Both_trans _ _ _ BB (Both_trans _ _ _ B2 (Both_trans _ _ _ B3 B4))).
  - pose proof (visit_both e s W) as H. pose proof (both_typed _ _ H) as We. assert (B1 := visit_both v1 _ We). assert (W1 := both_typed _ _ B1).
    set (o := match v2 with Some v => visit v (visit v1 (visit e s)) | None => visit v1 (visit e s) end).
    assert (BO : Both (visit v1 (visit e s)) o) by (unfold o; destruct v2; [now apply visit_both|now apply Both_same]).
    exists o. split; [exact (both_typed _ _ BO)|]. split; [exact (Both_trans _ _ _ H (Both_trans _ _ _ B1 BO))|].
    assert (BB := visit_both b o (both_typed _ _ BO)). set (s1 := visit b o) in *. set (s2 := setLast (F s1 e) s1).
    assert (B2 : Both s1 s2) by (apply Both_same; auto; exact (both_typed _ _ BB)). set (s3 := match v2 with Some v => _ | None => s2 end).
    assert (B3 : Both s2 s3) by (unfold s3; destruct v2 as [v|]; [now apply (both_again v last), (both_typed _ _ B2)|apply Both_same; auto; exact (both_typed _ _ B2)]).
    assert (B4 := both_again v1 last s3 (both_typed _ _ B3)).
    exact (Both_trans _ _ _ B2 (Both_trans _ _ _ B3 B4)).
  - exists s. split; [exact W|]. split; [now apply Both_same|]. pose proof (both_typed _ _ (visit_both v s W)) as Wv. set (s1 := setLast (T s v) (visit v s)).
    assert (B : Both (visit v s) s1) by (now apply Both_same). eapply Both_trans; [exact B|]. split; [apply Keep_open; exact Wv|apply Frame_open].
  - exists s. split; [exact W|]. split; [now apply Both_same|]. pose proof (both_typed _ _ (visit_both b s W)) as Wv. set (s2 := match t with Some t => _ | None => _ end).
    assert (B : Both (visit b s) s2) by (unfold s2; destruct t; now apply Both_same). eapply Both_trans; [exact B|]. split; [apply Keep_open, (both_typed _ _ B)|apply Frame_open].
Qed.
Lemma part_ok V N G g n k : Part n k -> ok V N G g n -> exists g', ok V N G g' k.
Proof.
  intros P O. destruct P; cbn [ok] in O; try (exists g; tauto).
  - exists g. exact (proj1 (all_In _ _) O _ H).
  - exists g. exact (proj1 (all_In _ _) (proj2 O) _ H).
  - exists (calling c g). exact (proj1 (all_In _ _) (proj1 O) _ H).
Qed.
End Walk.

Lemma parameters_In ps p x t : In (p, x, t) ps -> forall h r, exists e, In e (parameters (List.length h) ps) /\ en e = x /\ ep e = p /\ typeAt (h ++ map snd ps ++ r) (ei e) = t
  /\ ei e < List.length h + List.length ps.
Proof.
  induction ps as [|[[q y] u] ps IH]; intros HI h r; [destruct HI|]. cbn [parameters List.length]. destruct HI as [E|HI].
  - injection E as -> -> ->. eexists. split; [now left|]. cbn [en ep ei]. repeat split; [|lia]. unfold typeAt. rewrite app_nth2 by lia. now rewrite Nat.sub_diag.
  - destruct (IH HI (h ++ [u]) r) as (e & A & B & C & D & E). rewrite app_length in A, E. cbn [List.length] in A, E. exists e. split; [right; now replace (S (List.length h)) with (List.length h + 1) by lia|].
    repeat split; try assumption; [|lia]. cbn [map snd app]. rewrite <- D. rewrite <- app_assoc. reflexivity.
Qed.
Section Types.
Variable T0 : nd -> ty.
Variable F : st -> nd -> ty.
Notation visit := (visit (fun _ => T0) F).
(** A scope whose declarations exist in [h] keeps its types when the heap is only added to. *)
Lemma scope_keeps h h' c f : typed (List.length h) c -> keepHeap h h' -> scopeTypes T0 h c f -> scopeTypes T0 h' c f.
Proof.
  intros TY [_ K] H. unfold typed in TY. rewrite Forall_forall in TY. destruct f; try exact H. destruct H as [H1 H2]. split.
  - intros p x t a A B C. destruct (H1 p x t a A B C) as (e & E1 & E2 & E3 & E4). exists e. repeat split; try assumption. apply K; auto. apply TY, in_or_app. now right.
  - intros x a B C. destruct (H2 x a B C) as (e & E1 & E2 & E4). exists e. repeat split; try assumption. apply K; auto.
Qed.
Lemma typed_keeps h h' c : typed (List.length h) c -> keepHeap h h' -> typed (List.length h') c.
Proof. intros TY [L _]. eapply typed_mono; eassumption. Qed.

Lemma function_types n f : Inside n f -> forall V N G g s, ok V N G g n -> wellTyped s ->
  exists new c, closed (visit n s) = closed s ++ new /\ In c new /\ typed (List.length (heap (visit n s))) c /\ scopeTypes T0 (heap (visit n s)) c f.
Proof.
  induction 1 as [ps us b|ps us b f HI IH|n k f HP HI IH]; intros V N G g s O W.
  - cbn [VarModel.visit]. set (s0 := enter ps us s). assert (W0 := wellTyped_enter ps us s W). fold s0 in W0.
    pose proof (visit_both (fun _ => T0) F b s0 W0) as [K FR]. pose proof (k_typed _ _ K) as W1. set (s1 := visit b s0) in *.
    destruct FR as [F1 F2 (l & F3)]. cbn in F2, F3. unfold leave. destruct (outer s1) as [|c o] eqn:E; [discriminate F2|].
    exists (l ++ [cur s1]), (cur s1). cbn [closed heap addClosed setCur setOuter setLast]. rewrite F3, app_assoc. split; [reflexivity|].
    split; [apply in_or_app; right; now left|]. split; [unfold wellTyped in W1; inversion W1; assumption|]. split.
    + intros p x t a A B C. destruct (parameters_In ps p x t A (heap s) []) as (e & E1 & E2 & E3 & E4 & E5). rewrite app_nil_r in E4.
      exists e. split; [rewrite F1; cbn; apply in_or_app; now left|]. split; [exact E2|]. split; [exact E3|].
      destruct K as [[_ K] _ _ _]. apply K; [cbn; rewrite app_length, map_length; exact E5|exact B|]. cbn. rewrite E4. exact C.
    + intros x a B C. cbn [ok] in O. destruct (visit_puts T0 F b _ _ _ _ s0 x a O W0 B C) as (e & E1 & E2 & E3). exists e. auto.
  - cbn [ok] in O. cbn [VarModel.visit]. set (s0 := enter ps us s). assert (W0 := wellTyped_enter ps us s W). fold s0 in W0.
    destruct (IH _ _ _ _ s0 O W0) as (new & c & C1 & C2 & C3 & C4). set (s1 := visit b s0) in *.
    pose proof (f_outer _ _ (visit_frame (fun _ => T0) F b s0)) as F2. fold s1 in F2. cbn in F2. unfold leave. destruct (outer s1) as [|c' o] eqn:E; [discriminate F2|].
    exists (new ++ [cur s1]), c. cbn [closed heap addClosed setCur setOuter setLast]. rewrite C1. cbn [closed enter s0 setHeap setOuter setCur]. rewrite app_assoc.
    split; [reflexivity|]. split; [apply in_or_app; now left|]. split; [exact C3|exact C4].
  - destruct (part_ok _ _ _ _ _ _ HP O) as (g' & O'). destruct (part_visited (fun _ => T0) F n k s HP W) as (s1 & W1 & [K1 R1] & [K2 R2]).
    destruct (IH _ _ _ _ s1 O' W1) as (new & c & C1 & C2 & C3 & C4). destruct (f_closed _ _ R1) as (l1 & L1). destruct (f_closed _ _ R2) as (l2 & L2).
    exists (l1 ++ new ++ l2), c. split; [rewrite L2, C1, L1, <- !app_assoc; reflexivity|]. split; [apply in_or_app; right; apply in_or_app; now left|].
    split; [eapply typed_keeps; [exact C3|apply K2]|eapply scope_keeps; [exact C3|apply K2|exact C4]].
Qed.
End Types.
