(** Proofs for C72: the walk for uses (proof file). *)
From Coq Require Import List Bool Arith Lia.
From Verif Require Import PhpTypes MergeModel VarModel VarSpec VarProofs VarProofs2 VarProofs3 OccSpec OccProofs OccProofs2 OccModel OccProofs3.
Import ListNotations.
Open Scope nat_scope.

(** ** Reading the specification *)
Lemma occurs_op l x p : Occurs (Op l) x p <-> exists k, In k l /\ Occurs k x p.
Proof. split; [intros H; inversion H as [|n k y q HP HG]; subst; inversion HP; subst; eauto|]. intros (k & H1 & H2). apply (O_part _ k); [constructor; exact H1|exact H2]. Qed.
Lemma occurs_call c l x p : Occurs (Call c l) x p <-> exists k, In k l /\ Occurs k x p.
Proof. split; [intros H; inversion H as [|n k y q HP HG]; subst; inversion HP; subst; eauto|]. intros (k & H1 & H2). apply (O_part _ k); [constructor; exact H1|exact H2]. Qed.
Lemma occurs_var b ss l x p : Occurs (Var b ss l) x p <-> (exists idx, b = BName p x idx) \/ exists k, In k l /\ Occurs k x p.
Proof.
  split; [intros H; inversion H as [|n k y q HP HG]; subst; [eauto|inversion HP; subst; eauto]|].
  intros [(i & ->)|(k & H1 & H2)]; [constructor|]. apply (O_part _ k); [constructor; exact H1|exact H2].
Qed.
Lemma occurs_assign l r x p : Occurs (Assign l r) x p <-> Occurs l x p \/ Occurs r x p.
Proof. split; [intros H; inversion H as [|n k y q HP HG]; subst; inversion HP; subst; auto|]. intros [H|H]; (eapply O_part; [|exact H]; constructor). Qed.
Lemma occurs_elem k x p : Occurs (Elem k) x p <-> Occurs k x p.
Proof. split; [intros H; inversion H as [|n j y q HP HG]; subst; inversion HP; subst; auto|]. intros H; (eapply O_part; [|exact H]; constructor). Qed.
Lemma occurs_static q y v x p : Occurs (StaticVar q y v) x p <-> Occurs v x p.
Proof. split; [intros H; inversion H as [|n j z r HP HG]; subst; inversion HP; subst; auto|]. intros H; (eapply O_part; [|exact H]; constructor). Qed.
Lemma occurs_catch t q y b x p : Occurs (Catch t q y b) x p <-> Occurs b x p.
Proof. split; [intros H; inversion H as [|n j z r HP HG]; subst; inversion HP; subst; auto|]. intros H; (eapply O_part; [|exact H]; constructor). Qed.
Lemma occurs_each e v1 v2 b x p : Occurs (Foreach e v1 v2 b) x p <->
  Occurs e x p \/ Occurs v1 x p \/ (exists v, v2 = Some v /\ Occurs v x p) \/ Occurs b x p.
Proof.
  split; [intros H; inversion H as [|n j y q HP HG]; subst; inversion HP; subst; eauto 10|].
  intros [H|[H|[(v & -> & H)|H]]]; (eapply O_part; [|exact H]; constructor).
Qed.
Lemma occurs_none n x p : match n with Val | GlobalVar _ _ | Fun _ _ _ => True | _ => False end -> ~ Occurs n x p.
Proof. intros HN H. inversion H as [|n' j y q HP HG]; subst; [destruct HN|]. inversion HP; subst; destruct HN. Qed.

(** ** The scopes that go with a piece *)
Lemma match_length : forall n, (closureFree n -> funs n = 0) /\ forall new, Match n new -> List.length new = funs n.
Proof.
  set (all0 := fix go (l : list nd) : nat := match l with [] => 0 | k :: r => funs k + go r end).
  assert (HL : forall l, Forall (fun n => (closureFree n -> funs n = 0) /\ forall new, Match n new -> List.length new = funs n) l ->
    (all closureFree l -> all0 l = 0) /\ forall news, Forall2 Match l news -> List.length (List.concat news) = all0 l).
  { induction 1 as [|k l [Hk1 Hk2] _ [IH1 IH2]]; cbn [all0 all fold_right].
    - split; [reflexivity|]. intros news H. inversion H; subst. reflexivity.
    - split; [intros [A B]; rewrite (Hk1 A); exact (IH1 B)|]. intros news H. inversion H as [|? nk ? ns M1 M2]; subst. cbn [List.concat]. rewrite app_length, (Hk2 _ M1). f_equal. exact (IH2 _ M2). }
  assert (Free : forall n, (closureFree n -> funs n = 0) -> (forall new, Match n new -> new = [] /\ closureFree n) ->
     (closureFree n -> funs n = 0) /\ forall new, Match n new -> List.length new = funs n).
  { intros n H1 H2. split; [exact H1|]. intros new M. destruct (H2 new M) as [-> HC]. now rewrite H1. }
  induction n as [|l IH|b ss l IH|l r IHl IHr|c l IH|n IH|e v1 v2 b IHe IH1 IH2 IHb|p x v IH|p x|t p x b IH|ps us b IH] using nd_ind'.
  - apply Free; [reflexivity|]. intros new M. inversion M; subst. auto.
  - destruct (HL l IH) as [H1 H2]. split; [exact H1|]. intros new M. inversion M as [? HC|? news HF| | |]; subst; [symmetry; exact (H1 HC)|exact (H2 _ HF)].
  - apply Free; [exact (proj1 (HL l IH))|]. intros new M. inversion M; subst. auto.
  - apply Free; [|intros new M; inversion M; subst; auto]. cbn [closureFree funs]. intros [H1 H2]. rewrite (proj1 IHl H1), (proj1 IHr H2). reflexivity.
  - apply Free; [exact (proj1 (HL l IH))|]. intros new M. inversion M; subst. auto.
  - apply Free; [exact (proj1 IH)|]. intros new M. inversion M; subst. auto.
  - cbn [closureFree funs]. assert (E : closureFree e -> closureFree v1 -> match v2 with Some v => closureFree v | None => True end -> funs e + funs v1 + match v2 with Some v => funs v | None => 0 end = 0).
    { intros A B C. rewrite (proj1 IHe A), (proj1 IH1 B). destruct v2 as [v|]; [|reflexivity]. now rewrite (proj1 (IH2 v eq_refl) C). }
    split.
    + intros (A & B & C & D). rewrite (E A B C), (proj1 IHb D). reflexivity.
    + intros new M. inversion M as [? HC| |? ? ? ? ? A B C D| |]; subst.
      * destruct HC as (A & B & C & D). rewrite (E A B C), (proj1 IHb D). reflexivity.
      * rewrite (E A B C). exact (proj2 IHb new D).
  - apply Free; [|intros new M; inversion M; subst; auto]. cbn. intros ->. reflexivity.
  - apply Free; [reflexivity|]. intros new M. inversion M; subst. auto.
  - cbn [closureFree funs]. split; [exact (proj1 IH)|]. intros new M. inversion M as [? HC| | |? ? ? ? ? D|]; subst; [symmetry; exact (proj1 IH HC)|exact (proj2 IH new D)].
  - split; [intros []|]. intros new M. inversion M as [? HC| | | |? ? nb c D SC]; subst; [destruct HC|]. cbn [funs]. rewrite app_length, (proj2 IH _ D). cbn. lia.
Qed.
Lemma match_op l new : Match (Op l) new -> exists news, new = List.concat news /\ Forall2 Match l news.
Proof.
  intros M. inversion M as [? HC|? news HF| | |]; subst; [|eauto]. exists (map (fun _ => []) l). cbn [closureFree] in HC. clear M. induction l as [|k l IH]; cbn.
  - split; constructor.
  - destruct HC as [H1 H2]. destruct (IH H2) as [E1 E2]. split; [exact E1|]. constructor; [now constructor|exact E2].
Qed.
Lemma match_free n new : match n with Op _ | Foreach _ _ _ _ | Catch _ _ _ _ | Fun _ _ _ => False | _ => True end -> Match n new -> new = [] /\ closureFree n.
Proof. intros H M. destruct n; try destruct H; inversion M; subst; auto. Qed.
Lemma match_each e v1 v2 b new : Match (Foreach e v1 v2 b) new -> closureFree e /\ closureFree v1 /\ match v2 with Some v => closureFree v | None => True end /\ Match b new.
Proof. intros M. inversion M as [? HC| |? ? ? ? ? A B C D| |]; subst; [|auto]. destruct HC as (A & B & C & D). auto using M_free. Qed.
Lemma match_catch t p x b new : Match (Catch t p x b) new -> Match b new.
Proof. intros M. inversion M as [? HC| | |? ? ? ? ? D|]; subst; [now constructor|exact D]. Qed.
Lemma match_fun ps us b new : Match (Fun ps us b) new -> us = [] /\ exists nb c, new = nb ++ [c] /\ Match b nb /\ scopeAt c ps b.
Proof. intros M. inversion M as [? HC| | | |? ? nb c D SC]; subst; [destruct HC|]. eauto 10. Qed.

Section Uses.
Variable top : scope.
Variable isSuper : nat -> bool.
Variable home : nat -> nat.
Notation walk := (walk top isSuper home).
Notation resolve := (resolve top isSuper).
Notation homeOf := (homeOf home).
Notation occurs := (OccModel.occurs top isSuper home).

Definition useAt (cls : bool) (c : scope) (x p : nat) : use := {| up := p; ux := x; ut := resolve cls c x p |}.
(** The uses of one scope, and of all scopes in a piece. *)
Definition Uses1 (cls : bool) (c : scope) (n : nd) (ev : use) : Prop :=
  (exists x p, Occurs n x p /\ ev = useAt cls c x p /\ forall e, resolve cls c x p = Declared e -> homeOf e <> p) \/
  (exists x p e r, GivesAt n x p ByGlobal /\ filter isVar (inScope x top) = e :: r /\ ev = {| up := p; ux := x; ut := Declared e |}).
Definition UsesIn (cls : bool) (c : scope) (n : nd) (ev : use) : Prop :=
  Uses1 cls c n ev \/ exists ps us b c', Inside n (Fun ps us b) /\ scopeAt c' ps b /\ Uses1 false c' b ev.
Lemma UsesIn_part cls c n k ev : Part n k -> UsesIn cls c k ev -> UsesIn cls c n ev.
Proof.
  intros HP [[(x & p & H & E)|(x & p & e & r & H & E1 & E2)]|(ps & us & b & c' & H & HS & HU)].
  - left. left. exists x, p. split; [eapply O_part; eauto|exact E].
  - left. right. exists x, p, e, r. split; [eapply GA_part; eauto|auto].
  - right. exists ps, us, b, c'. split; [eapply I_part; eauto|auto].
Qed.

Definition Step (U : use -> Prop) (u u' : ust) : Prop := forall ev, In ev (out u') -> In ev (out u) \/ U ev.
Lemma Step_refl U u u' : out u' = out u -> Step U u u'.
Proof. intros E ev. rewrite E. auto. Qed.
Lemma Step_trans U a b c : Step U a b -> Step U b c -> Step U a c.
Proof. intros A B ev H. apply B in H as [H|H]; [apply A in H as [H|H]|]; auto. Qed.
Lemma Step_impl (U U' : use -> Prop) a b : (forall ev, U ev -> U' ev) -> Step U a b -> Step U' a b.
Proof. intros H A ev HE. apply A in HE as [HE|HE]; auto. Qed.

Lemma occurs_rs cls c p x u : rs (occurs cls c p x u) = rs u.
Proof. unfold OccModel.occurs. cbv zeta. destruct (_ && _); reflexivity. Qed.
Lemma occurs_fl cls c p x u : fl (occurs cls c p x u) = fl u.
Proof. unfold OccModel.occurs. cbv zeta. destruct (_ && _); reflexivity. Qed.
Lemma occurs_step cls c p x u ev : In ev (out (occurs cls c p x u)) -> In ev (out u) \/ ev = useAt cls c x p /\ forall e, resolve cls c x p = Declared e -> homeOf e <> p.
Proof.
  unfold OccModel.occurs. cbv zeta. destruct (_ && _) eqn:E; [|auto]. cbn [emit out]. rewrite in_app_iff. intros [H|[<-|[]]]; auto.
  right. split; [reflexivity|]. intros e ER. rewrite ER in E. apply andb_true_iff in E as [_ E]. apply negb_true_iff in E. now apply Nat.eqb_neq in E.
Qed.
Lemma occurs_mono cls c p x u ev : In ev (out u) -> In ev (out (occurs cls c p x u)).
Proof. unfold OccModel.occurs. cbv zeta. destruct (_ && _); [|auto]. cbn [emit out]. rewrite in_app_iff. auto. Qed.

(** Only uses in the piece are added, and the scopes of its functions are used up. *)
Definition Sound (n : nd) : Prop := forall new r cls c u, Match n new -> rs u = new ++ r ->
  rs (walk cls c n u) = r /\ Step (UsesIn cls c n) u (walk cls c n u).
Lemma sound_parts (W : nd -> ust -> ust) cls c N l : Forall Sound l -> (forall k u, In k l -> rs (W k u) = rs (walk cls c k u) /\ out (W k u) = out (walk cls c k u)) ->
  all closureFree l -> (forall k, In k l -> Part N k) -> forall u, rs (fold_left (fun u k => W k u) l u) = rs u /\ Step (UsesIn cls c N) u (fold_left (fun u k => W k u) l u).
Proof.
  intros HL HW HC HP. induction HL as [|k l Hk _ IH]; intros u; cbn [fold_left].
  - split; [reflexivity|now apply Step_refl].
  - destruct HC as [C1 C2]. destruct (Hk [] (rs u) cls c u (M_free k C1) eq_refl) as [R1 S1]. destruct (HW k u (or_introl eq_refl)) as [E1 E2].
    destruct (IH (fun k' u' H => HW k' u' (or_intror H)) C2 (fun k' H => HP k' (or_intror H)) (W k u)) as [R2 S2]. split; [congruence|].
    eapply Step_trans; [|exact S2]. intros ev. rewrite E2. intros H. apply S1 in H as [H|H]; [auto|]. right. eapply UsesIn_part; [|exact H]. apply HP. now left.
Qed.

Lemma walk_sound n : Sound n.
Proof.
  induction n as [|l IH|b ss l IH|l r IHl IHr|c l IH|n IH|e v1 v2 b IHe IH1 IH2 IHb|p x v IH|p x|t p x b IH|ps us b IH] using nd_ind'; intros new rest cls cc u M HR; cbn [OccModel.walk].
  - apply match_free in M as [-> _]; [|exact I]. cbn [app] in HR. split; [exact HR|now apply Step_refl].
  - apply match_op in M as (news & -> & MF).
    assert (HL : forall l' news' u', Forall2 Match l' news' -> Forall Sound l' -> (forall k, In k l' -> In k l) -> rs u' = List.concat news' ++ rest ->
       rs (fold_left (fun u k => walk cls cc k u) l' u') = rest /\ Step (UsesIn cls cc (Op l)) u' (fold_left (fun u k => walk cls cc k u) l' u')).
    { clear. intros l' news' u' MF. revert u'. induction MF as [|k nk l' ns M1 _ IH]; intros u' HS HI HR; cbn [fold_left].
      - split; [exact HR|now apply Step_refl].
      - inversion HS as [|? ? Hk Hl]; subst. cbn [List.concat] in HR. rewrite <- app_assoc in HR. destruct (Hk nk _ cls cc u' M1 HR) as [R1 S1].
        destruct (IH (walk cls cc k u') Hl (fun k' H => HI k' (or_intror H)) R1) as [R2 S2]. split; [exact R2|]. eapply Step_trans; [|exact S2].
        eapply Step_impl; [|exact S1]. intros ev. apply UsesIn_part. constructor. apply HI. now left. }
    apply (HL l news u); auto.
  - apply match_free in M as [-> HC]; [|exact I]. cbn [app] in HR. cbn [closureFree] in HC. cbv zeta.
    set (u1 := match ss with [] => u | _ => setFl false u end). set (u2 := match b with BName p x _ => occurs cls cc p x u1 | BOther => u1 end).
    assert (E1 : rs u1 = rs u /\ out u1 = out u) by (unfold u1; destruct ss; auto).
    assert (E2 : rs u2 = rs u1 /\ Step (UsesIn cls cc (Var b ss l)) u u2).
    { unfold u2. destruct b as [p x i|]; [|split; [reflexivity|now apply Step_refl]]. split; [apply occurs_rs|]. intros ev H. apply occurs_step in H as [H|H]; [rewrite (proj2 E1) in H; auto|].
      right. left. left. exists x, p. split; [constructor|exact H]. }
    destruct (sound_parts (fun k u => match k with Call _ _ => walk cls cc k u | _ => setFl false (walk cls cc k u) end) cls cc (Var b ss l) l IH) with (u := u2) as [R3 S3]; auto.
    { intros k u' _. destruct k; auto. }
    { intros k Hk. now constructor. }
    set (u3 := fold_left _ l u2) in *. destruct E1 as [E1a E1b], E2 as [E2a E2b]. destruct ss; (split; [cbn [setFl rs]; congruence|eapply Step_trans; [exact E2b|exact S3]]).
  - apply match_free in M as [-> [C1 C2]]; [|exact I]. cbn [app] in HR.
    destruct (IHl [] (rs u) cls cc (setFl true u) (M_free l C1) eq_refl) as [R1 S1].
    destruct (IHr [] (rs u) cls cc (setFl false (walk cls cc l (setFl true u))) (M_free r C2) R1) as [R2 S2].
    split; [cbn [setFl rs]; congruence|]. intros ev H. apply S2 in H as [H|H]; [apply S1 in H as [H|H]|]; [auto|right; eapply UsesIn_part; [apply P_left|exact H]|right; eapply UsesIn_part; [apply P_right|exact H]].
  - apply match_free in M as [-> HC]; [|exact I]. cbn [app] in HR. cbn [closureFree] in HC.
    destruct (sound_parts (fun k u => setFl false (walk cls cc k u)) cls cc (Call c l) l IH) with (u := u) as [R3 S3]; auto.
    { intros k Hk. now constructor. }
    split; [congruence|exact S3].
  - apply match_free in M as [-> HC]; [|exact I]. cbn [app] in HR. destruct (IH [] rest cls cc u (M_free n HC) HR) as [R1 S1]. split; [exact R1|].
    eapply Step_impl; [|exact S1]. intros ev. apply UsesIn_part. constructor.
  - apply match_each in M as (C1 & C2 & C3 & MB). cbv zeta.
    assert (ST : forall k u', Sound k -> closureFree k -> Part (Foreach e v1 v2 b) k -> rs (walk cls cc k (setFl false u')) = rs u' /\ Step (UsesIn cls cc (Foreach e v1 v2 b)) u' (walk cls cc k (setFl false u'))).
    { intros k u' A B C. destruct (A [] (rs u') cls cc (setFl false u') (M_free k B) eq_refl) as [R1 S1]. split; [exact R1|].
      intros ev H. apply S1 in H as [H|H]; [auto|]. right. eapply UsesIn_part; eauto. }
    destruct (ST e u IHe C1 (P_each _ _ _ _)) as [Re Se]. set (ue := walk cls cc e (setFl false u)) in *.
    destruct (ST v1 ue IH1 C2 (P_each1 _ _ _ _)) as [R1 S1]. set (u1 := walk cls cc v1 (setFl false ue)) in *.
    set (u2 := match v2 with Some v => walk cls cc v (setFl false u1) | None => u1 end).
    assert (R2 : rs u2 = rs u1 /\ Step (UsesIn cls cc (Foreach e v1 v2 b)) u1 u2).
    { unfold u2. destruct v2 as [v|]; [|split; [reflexivity|now apply Step_refl]]. apply ST; auto. constructor. }
    destruct R2 as [R2 S2]. destruct (IHb new rest cls cc (setFl false u2) MB) as [Rb Sb]; [cbn [setFl rs]; congruence|].
    split; [exact Rb|]. eapply Step_trans; [exact Se|]. eapply Step_trans; [exact S1|]. eapply Step_trans; [exact S2|].
    intros ev H. apply Sb in H as [H|H]; [auto|]. right. eapply UsesIn_part; [apply P_body|exact H].
  - apply match_free in M as [-> HC]; [|exact I]. cbn [app] in HR. split; [exact HR|now apply Step_refl].
  - apply match_free in M as [-> HC]; [|exact I]. cbn [app] in HR. destruct (filter isVar (inScope x top)) as [|e l] eqn:EF; [split; [exact HR|now apply Step_refl]|].
    split; [exact HR|]. intros ev. cbn [emit out]. rewrite in_app_iff. intros [H|[<-|[]]]; [auto|]. right. left. right. exists x, p, e, l. split; [constructor|auto].
  - apply match_catch in M. destruct (IH new rest cls cc (setFl false u) M HR) as [R1 S1]. split; [exact R1|].
    intros ev H. apply S1 in H as [H|H]; [auto|]. right. eapply UsesIn_part; [apply P_catch|exact H].
  - apply match_fun in M as (-> & nb & c & -> & MB & SC). cbv zeta. cbn [rs out].
    assert (EN : nth (funs b) (rs u) cc = c).
    { rewrite HR, <- app_assoc, <- (proj2 (match_length b) nb MB). rewrite app_nth2 by lia. now rewrite Nat.sub_diag. }
    rewrite EN. rewrite <- app_assoc in HR. destruct (IH nb ([c] ++ rest) false c (setFl false u) MB HR) as [R1 S1]. rewrite R1. split; [reflexivity|].
    intros ev H. apply S1 in H as [H|[H|(ps' & us' & b' & c' & H1 & H2 & H3)]]; [auto| |].
    + right. right. exists ps, [], b, c. split; [constructor|auto].
    + right. right. exists ps', us', b', c'. split; [now constructor|auto].
Qed.
End Uses.
