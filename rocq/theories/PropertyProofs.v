(** Proofs for C67: which properties are declared (proof file). *)
From Coq Require Import List Bool Arith Lia.
From Verif Require Import PhpTypes MergeModel VarModel VarSpec VarProofs VarProofs2 PropertySpec.
Import ListNotations.
Open Scope nat_scope.

(** ** What every step does *)
Definition mvOuter (o o' : list scope) : Prop :=
  match o, o' with
  | [], [] => True
  | c :: r, c' :: r' => r' = r /\ sk c' = sk c /\ (forall x, declared c x -> declared c' x) /\ (isClass c = false -> c' = c)
  | _, _ => False
  end.
Record Mv (M : nat -> Prop) (s s' : st) : Prop := {
  m_cft : cft s' = cft s;
  m_sk : sk (cur s') = sk (cur s);
  m_keep : forall x, declared (cur s) x -> declared (cur s') x;
  m_cur : isClass (cur s) = false -> forall x, declared (cur s') x -> declared (cur s) x \/ M x;
  m_outer : mvOuter (outer s) (outer s') }.
Lemma mvOuter_refl o : mvOuter o o.
Proof. destruct o; cbn; auto. Qed.
Lemma mvOuter_trans a b c : mvOuter a b -> mvOuter b c -> mvOuter a c.
Proof.
  destruct a as [|x a], b as [|y b], c as [|z c]; cbn; try tauto. intros (-> & A1 & A2 & A3) (-> & B1 & B2 & B3).
  split; [reflexivity|]. split; [congruence|]. split; [auto|]. intros H. rewrite B3; [auto|]. unfold isClass in *. now rewrite A1.
Qed.
Lemma Mv_refl M s : Mv M s s.
Proof. split; auto. apply mvOuter_refl. Qed.
Lemma Mv_trans M a b c : Mv M a b -> Mv M b c -> Mv M a c.
Proof.
  intros [A1 A2 A3 A4 A5] [B1 B2 B3 B4 B5]. split; try congruence; auto.
  - intros H x HX. apply B4 in HX; [|unfold isClass in *; now rewrite A2]. destruct HX as [HX|HX]; [|auto]. now apply A4.
  - eapply mvOuter_trans; eassumption.
Qed.
Lemma Mv_mono (M M' : nat -> Prop) a b : (forall x, M x -> M' x) -> Mv M a b -> Mv M' a b.
Proof. intros H [A1 A2 A3 A4 A5]. split; auto. intros Hc x HX. destruct (A4 Hc x HX); auto. Qed.
Lemma Mv_same M s s' : cft s' = cft s -> cur s' = cur s -> outer s' = outer s -> Mv M s s'.
Proof. intros E1 E2 E3. split; rewrite ?E1, ?E2, ?E3; auto. apply mvOuter_refl. Qed.
Lemma Mv_add (M : nat -> Prop) e s s' : M (en e) -> cft s' = cft s -> cur s' = addOwn e (cur s) -> outer s' = outer s -> Mv M s s'.
Proof.
  intros H E1 E2 E3. split; rewrite ?E1, ?E2, ?E3; auto.
  - intros x HX. apply declared_add. auto.
  - intros _ x HX. apply declared_add in HX as [HX| ->]; auto.
  - apply mvOuter_refl.
Qed.
Lemma Mv_open (M : nat -> Prop) x p t s : M x -> Mv M s (openVariable x p t s).
Proof. intros H. apply (Mv_add M (newEntry EVariable x p t s)); auto. Qed.
Lemma Mv_declareVariable (M : nat -> Prop) t x p s : M x -> Mv M s (declareVariable t x p s).
Proof.
  intros H. unfold declareVariable.
  destruct (if Nat.eqb x this then _ else None) as [[|aa ab n up|]|]; try (destruct (lastOf _); [apply Mv_same; reflexivity|now apply Mv_open]).
  destruct (aa && _); [destruct ((n <? 4) && _)|]; apply Mv_same; reflexivity.
Qed.
Lemma Mv_declareMember M t x p s : Mv M s (declareMember t x p s).
Proof.
  unfold declareMember. destruct (outer s) as [|c r] eqn:EO; [apply Mv_same; auto|]. destruct (sk c) eqn:EK; try (apply Mv_same; reflexivity).
  destruct (existsb _ _); [apply Mv_same; auto|]. split; cbn [cft cur outer setHeap setOuter]; auto. rewrite EO. cbn. split; [reflexivity|]. split; [reflexivity|]. split.
  - intros y HY. apply declared_add. auto.
  - unfold isClass. rewrite EK. discriminate.
Qed.
(** What was found is mentioned. *)
Definition foundIn (M : nat -> Prop) (s : st) : Prop := forall x, ident (fnd s) = Some x -> parent (fnd s) = None -> M x.
Lemma Mv_assigned (M : nat -> Prop) t s : foundIn M s -> Mv M s (assigned t s).
Proof.
  intros H. unfold assigned. destruct (ident (fnd s)) as [x|] eqn:EI; [|apply Mv_refl]. destruct (node (fnd s)) as [p|]; [|apply Mv_refl].
  destruct (parent (fnd s)) as [q|] eqn:EP.
  - destruct (Nat.eqb q this); [|apply Mv_refl]. destruct (thisClass s); [|apply Mv_refl].
    destruct (lastOf _) as [e|]; [|apply Mv_declareMember]. destruct (typeAt _ _) as [[]| | | | |]; apply Mv_same; reflexivity.
  - apply Mv_declareVariable. now apply H.
Qed.
Lemma declared_moveTo p e c x : declared {| sk := sk c; own := moveTo p e (own c); imps := imps c |} x <-> declared c x.
Proof.
  unfold declared. cbn. split; intros (d & Hd & Ex); apply in_app_iff in Hd as [Hd|Hd].
  - apply moveTo_In in Hd as (d' & H1 & H2 & _). exists d'. rewrite in_app_iff. split; [auto|congruence].
  - exists d. rewrite in_app_iff. auto.
  - apply (moveTo_rev p e) in Hd as (d' & H1 & H2 & _). exists d'. rewrite in_app_iff. split; [auto|congruence].
  - exists d. rewrite in_app_iff. auto.
Qed.
Lemma Mv_declareFound (M : nat -> Prop) t s : foundIn M s -> Mv M s (declareFound t s).
Proof.
  intros H. unfold declareFound. destruct (node (fnd s)) as [p|]; [|apply Mv_refl]. destruct (ident (fnd s)) as [x|] eqn:EI; [|apply Mv_refl].
  destruct (isArr (fnd s)); [apply Mv_refl|]. destruct (parent (fnd s)) as [q|] eqn:EP.
  - destruct (Nat.eqb q this); [|apply Mv_refl]. destruct (thisClass s); [|apply Mv_refl]. destruct (lookup x (outer s)); [apply Mv_declareMember|apply Mv_refl].
  - destruct (lookup x _) as [|e l].
    + destruct (filter _ _); [|apply Mv_refl]. apply Mv_declareVariable. now apply H.
    + split; cbn [cft cur outer setCur sk]; auto; [| |apply mvOuter_refl].
      * intros y HY. now apply declared_moveTo.
      * intros _ y HY. left. exact (proj1 (declared_moveTo p e (cur s) y) HY).
Qed.
Lemma Mv_pushed M f s : Mv M (setFnd fresh s) (f (setFnd fresh s)) -> Mv M s (pushed f s).
Proof. intros [A1 A2 A3 A4 A5]. split; auto. Qed.

Section Walk.
Variable T : st -> nd -> ty.
Variable F : st -> nd -> ty.
Notation visit := (visit T F).

(** What is found is a variable of the piece. *)
Definition came (n : nd) (s s' : st) : Prop :=
  fnd s' = fnd s \/ (find (fnd s) = true /\ find (fnd s') = false /\ (ident (fnd s) = None -> foundIn (Mentions n) s')).
Lemma came_trans n a b c : came n a b -> came n b c -> came n a c.
Proof.
  intros [A|(A1 & A2 & A3)] [B|(B1 & B2 & B3)].
  - left. congruence.
  - right. rewrite A in *. auto.
  - right. split; [auto|]. unfold foundIn. rewrite B. auto.
  - congruence.
Qed.
Lemma came_part n k a b : Part n k -> came k a b -> came n a b.
Proof.
  intros H [A|(A1 & A2 & A3)]; [now left|]. right. split; [auto|]. split; [auto|]. intros E x H1 H2. eapply M_part; [exact H|]. now apply A3.
Qed.
Lemma came_same n a b : fnd b = fnd a -> came n a b. Proof. intros E. now left. Qed.
Lemma came_fold n l : (forall k, In k l -> Part n k) -> Forall (fun k => forall s, came k s (visit k s)) l ->
  forall s, came n s (fold_left (fun s k => visit k s) l s).
Proof.
  intros HP HF. revert HP. induction HF as [|k l Hk _ IH]; intros HP s; cbn [fold_left]; [now left|].
  eapply came_trans; [|apply IH; intros j Hj; apply HP; now right]. eapply came_part; [apply HP; now left|]. apply Hk.
Qed.
Lemma came_found b ss l s : came (Var b ss l) s (foundVariable b ss s).
Proof.
  unfold foundVariable. destruct (find (fnd s)) eqn:E; [|now left]. right. split; [exact E|]. split; [reflexivity|].
  intros EN x. cbn. unfold getIdentifier. destruct (lastOf ss) as [t|] eqn:EL.
  - destruct (parentOf b ss) as [q|]; [destruct (sname t) as [[]|]; cbn; discriminate|]. cbn. congruence.
  - apply lastOf_none in EL as ->. destruct b as [p y idx|]; cbn; [|congruence]. intros [= <-] _. apply M_var. constructor.
Qed.
Lemma visit_came n : forall s, came n s (visit n s).
Proof.
  induction n as [|l IH|b ss l IH|l r IHl IHr|c l IH|n IH|e v1 v2 b IHe IH1 IH2 IHb|p x v IH|p x|t p x b IH|ps us b IH] using nd_ind'; intros s; cbn [VarModel.visit].
  - now left.
  - apply came_fold; [now constructor|exact IH].
  - eapply came_trans; [apply came_found|]. apply came_fold; [now constructor|exact IH].
  - now left.
  - apply came_same. cbn. rewrite fnd_args. reflexivity.
  - now left.
  - cbn zeta. assert (HE : came (Foreach e v1 v2 b) s (visit b (match v2 with Some v => visit v (visit v1 (visit e s)) | None => visit v1 (visit e s) end))).
    { eapply came_trans; [|eapply came_part; [apply P_body|apply IHb]].
      assert (H1 : came (Foreach e v1 v2 b) s (visit v1 (visit e s))).
      { eapply came_trans; eapply came_part; [apply P_each|apply IHe|apply P_each1|apply IH1]. }
      destruct v2 as [v|]; [|exact H1]. eapply came_trans; [exact H1|]. eapply came_part; [apply P_each2|now apply IH2]. }
    destruct v2 as [v|]; (eapply came_trans; [exact HE|]); apply came_same; reflexivity.
  - eapply came_trans; [eapply came_part; [apply P_static|apply IH]|]. apply came_same. reflexivity.
  - apply came_same. destruct (filter isVar _); reflexivity.
  - cbn zeta. eapply came_trans; [eapply came_part; [apply P_catch|apply IH]|]. apply came_same. rewrite fnd_open. destruct t; reflexivity.
  - (* the state inside is the same *)
    destruct (IH (enter ps us s)) as [E|(E1 & E2 & E3)].
    + apply came_same. now rewrite fnd_leave, E.
    + right. split; [exact E1|]. rewrite fnd_leave. split; [exact E2|]. intros EN y. rewrite fnd_leave. intros H1 H2. apply M_fun. now apply E3.
Qed.

Lemma pushed_found n (s : st) : foundIn (Mentions n) (visit n (setFnd fresh s)).
Proof.
  destruct (visit_came n (setFnd fresh s)) as [E|(E1 & E2 & E3)]; [|now apply E3]. intros x. rewrite E. discriminate.
Qed.
Lemma foundIn_part n k s : Part n k -> foundIn (Mentions k) s -> foundIn (Mentions n) s.
Proof. intros H1 H x A B. eapply M_part; [exact H1|]. now apply H. Qed.
Lemma mv_part n k a b : Part n k -> Mv (Mentions k) a b -> Mv (Mentions n) a b.
Proof. intros H. apply Mv_mono. intros x HX. eapply M_part; eassumption. Qed.
Lemma mv_fold n l : (forall k, In k l -> Part n k) -> Forall (fun k => forall s, Mv (Mentions k) s (visit k s)) l ->
  forall s, Mv (Mentions n) s (fold_left (fun s k => visit k s) l s).
Proof.
  intros HP HF. revert HP. induction HF as [|k l Hk _ IH]; intros HP s; cbn [fold_left]; [apply Mv_refl|].
  eapply Mv_trans; [|apply IH; intros j Hj; apply HP; now right]. eapply mv_part; [apply HP; now left|]. apply Hk.
Qed.
Lemma mv_args n l : (forall k, In k l -> Part n k) -> Forall (fun k => forall s, Mv (Mentions k) s (visit k s)) l ->
  forall i s, Mv (Mentions n) s (snd (fold_left (fun is k => (S (fst is), pushed (fun s => afterArg (fst is) (visit k s)) (snd is))) l (i, s))).
Proof.
  intros HP HF. revert HP. induction HF as [|k l Hk _ IH]; intros HP i s; cbn [fold_left]; [apply Mv_refl|]. cbn [fst snd].
  eapply Mv_trans; [|apply IH; intros j Hj; apply HP; now right]. apply Mv_pushed. eapply Mv_trans; [eapply mv_part; [apply HP; now left|apply Hk]|].
  unfold afterArg. destruct (refAt _ _); [|apply Mv_refl]. apply Mv_declareFound. apply (foundIn_part n k); [apply HP; now left|]. apply pushed_found.
Qed.
Lemma visit_mv n : forall s, Mv (Mentions n) s (visit n s).
Proof.
  induction n as [|l IH|b ss l IH|l r IHl IHr|c l IH|n IH|e v1 v2 b IHe IH1 IH2 IHb|p x v IH|p x|t p x b IH|ps us b IH] using nd_ind'; intros s; cbn [VarModel.visit].
  - apply Mv_refl.
  - apply mv_fold; [now constructor|exact IH].
  - eapply Mv_trans; [|apply mv_fold; [now constructor|exact IH]]. apply Mv_same; unfold foundVariable; destruct (find (fnd s)); reflexivity.
  - eapply Mv_trans with (b := pushed _ s); [|apply Mv_same; reflexivity]. apply Mv_pushed.
    eapply Mv_trans; [eapply mv_part; [apply P_left|apply IHl]|]. eapply Mv_trans; [eapply mv_part; [apply P_right|apply IHr]|]. apply Mv_assigned.
    destruct (visit_came l (setFnd fresh s)) as [E|(E1 & E2 & E3)].
    + destruct (visit_came r (visit l (setFnd fresh s))) as [E'|(E1' & E2' & E3')].
      * intros x. rewrite E', E. discriminate.
      * apply (foundIn_part _ r); [apply P_right|]. apply E3'. now rewrite E.
    + apply (foundIn_part _ l); [apply P_left|]. intros x. rewrite fnd_kept by exact E2. now apply E3.
  - eapply Mv_trans with (b := setCft (cft s) _); [|apply Mv_refl].
    destruct (mv_args (Call c l) l (fun k => P_arg c l k) IH 0 (setCft (calling c (cft s)) s)) as [A1 A2 A3 A4 A5]. split; auto.
  - apply Mv_pushed. eapply Mv_trans; [eapply mv_part; [apply P_elem|apply IH]|]. apply Mv_declareFound. eapply foundIn_part; [apply P_elem|apply pushed_found].
  - cbn zeta. assert (AG : forall k s0, Part (Foreach e v1 v2 b) k -> (forall s, Mv (Mentions k) s (visit k s)) ->
      Mv (Mentions (Foreach e v1 v2 b)) s0 (pushed (fun s => let s' := visit k s in declareFound (last s') s') s0)).
    { intros k s0 HP HK. apply Mv_pushed. cbn zeta. eapply Mv_trans; [eapply mv_part; [exact HP|apply HK]|]. apply Mv_declareFound. eapply foundIn_part; [exact HP|apply pushed_found]. }
    eapply Mv_trans; [|apply AG; [apply P_each1|exact IH1]].
    assert (H1 : Mv (Mentions (Foreach e v1 v2 b)) s (visit v1 (visit e s))).
    { eapply Mv_trans; eapply mv_part; [apply P_each|apply IHe|apply P_each1|apply IH1]. }
    destruct v2 as [v|].
    + eapply Mv_trans; [|apply AG; [apply P_each2|now apply IH2]].
      eapply Mv_trans; [exact H1|]. eapply Mv_trans; [eapply mv_part; [apply P_each2|now apply IH2]|].
      eapply Mv_trans; [eapply mv_part; [apply P_body|apply IHb]|]. apply Mv_same; reflexivity.
    + eapply Mv_trans; [exact H1|]. eapply Mv_trans; [eapply mv_part; [apply P_body|apply IHb]|]. apply Mv_same; reflexivity.
  - eapply Mv_trans; [eapply mv_part; [apply P_static|apply IH]|]. cbn zeta. eapply Mv_trans; [|apply Mv_open; apply M_static]. apply Mv_same; reflexivity.
  - destruct (filter isVar _) as [|e l]; [apply Mv_refl|]. apply (Mv_add _ {| en := x; ep := p; ei := ei e; ek := EVariable; ea := true |}); try reflexivity. apply M_global.
  - cbn zeta. eapply Mv_trans; [eapply mv_part; [apply P_catch|apply IH]|]. eapply Mv_trans; [|apply Mv_open; apply M_catch]. destruct t; apply Mv_same; reflexivity.
  - destruct (IH (enter ps us s)) as [A1 A2 A3 A4 A5]. cbn in A1. change (outer (enter ps us s)) with (cur s :: outer s) in A5.
    destruct (outer (visit b (enter ps us s))) as [|c' r'] eqn:EO; [contradiction|]. cbn in A5. destruct A5 as (-> & B1 & B2 & B3).
    unfold leave. rewrite EO. split; cbn [cft cur outer setLast setOuter setCur addClosed]; auto.
    + intros H x HX. left. now rewrite (B3 H) in HX.
    + apply mvOuter_refl.
Qed.
End Walk.
