(** Proofs for ChainModel.v. *)
From Coq Require Import List Bool Arith NArith Lia.
From Verif Require Import PhpTypes Chars LookModel ExprModel ExprSpec ExprProofs ChainModel ChainSpec.
Import ListNotations.

(** ** Searching a class *)
Section Search.
Variable cc : CharClass.

Lemma ctx_ind2 (P : ctx -> Prop) :
  (forall c own imps, Forall P imps -> P (Ctx c own imps)) -> forall x, P x.
Proof.
  intros H. fix go 1. intros [c own imps]. apply H.
  induction imps as [|b r IH]; constructor; [apply go|exact IH].
Qed.

Definition clears strict k n := (fix all (l : list ctx) : Prop := match l with [] => True | b :: r => clear cc strict k n b /\ all r end).
Lemma clears_forall strict k n l : clears strict k n l <-> Forall (clear cc strict k n) l.
Proof.
  induction l as [|b r IH]; cbn.
  - split; [constructor|trivial].
  - rewrite IH. split; [intros [A B]; constructor; assumption|intros H; inversion H; auto].
Qed.

Lemma called_ident k n m : called cc k n m <-> mk m = k /\ ident cc m = name cc k n.
Proof. unfold called, ident, name. split; intros [<- H]; (split; [reflexivity|]); destruct (mk m); exact H. Qed.

Definition ownOf i c own : list (N * member) := map (pair c) (filter (fun m => eqs (ident cc m) i) own).
Lemma in_own i c own d : In d (ownOf i c own) <-> fst d = c /\ In (snd d) own /\ ident cc (snd d) = i.
Proof.
  unfold ownOf. rewrite in_map_iff. split.
  - intros (m & <- & H). apply filter_In in H. destruct H as [A B]. apply eqs_eq in B. auto.
  - destruct d as [c' m]. cbn. intros (-> & A & B). exists m. split; [reflexivity|]. apply filter_In. split; [exact A|apply eqs_eq; exact B].
Qed.
Lemma own_nil i c own : ownOf i c own = [] <-> forall m, In m own -> ident cc m <> i.
Proof.
  split.
  - intros E m A B. assert (In (c, m) (ownOf i c own)) as X by (apply in_own; auto). rewrite E in X. exact X.
  - intros H. destruct (ownOf i c own) as [|d r] eqn:E; [reflexivity|]. exfalso.
    assert (In d (ownOf i c own)) as X by (rewrite E; left; reflexivity). apply (proj1 (in_own _ _ _ _)) in X. destruct X as (_ & A & B). exact (H _ A B).
Qed.
Lemma search_eq i c own imps acc :
  search cc i (Ctx c own imps) acc = match acc ++ ownOf i c own with [] => fold_right (fun c a => search cc i c a) [] imps | l => l end.
Proof. reflexivity. Qed.

Definition imported i imps := fold_right (fun c a => search cc i c a) [] imps.

Lemma search_incl i x : forall acc d, In d acc -> In d (search cc i x acc).
Proof.
  destruct x as [c own imps]. intros acc d H. rewrite search_eq. destruct (acc ++ ownOf i c own) eqn:E.
  - apply app_eq_nil in E. destruct E as [-> _]. destruct H.
  - rewrite <- E. apply in_or_app. left. exact H.
Qed.
Lemma search_ident i x : forall acc d, In d (search cc i x acc) -> In d acc \/ ident cc (snd d) = i.
Proof.
  induction x as [c own imps IH] using ctx_ind2. intros acc d. rewrite search_eq. destruct (acc ++ ownOf i c own) as [|d1 r] eqn:E.
  - apply app_eq_nil in E. destruct E as [-> _].
    induction imps as [|b r IHr]; cbn; [intros []|]. inversion IH as [|? ? A B]; subst. intros H.
    destruct (A _ _ H) as [X|X]; [exact (IHr B X)|right; exact X].
  - rewrite <- E. intros H. apply in_app_or in H. destruct H as [H|H]; [left; exact H|]. right. apply in_own in H. apply H.
Qed.

Section Kind.
Variables (strict : bool) (k : mkind) (n : qstring).
Let i := name cc k n.

Lemma search_sound x : clear cc strict k n x -> forall acc d, In d (search cc i x acc) -> rival strict k (mk (snd d)) ->
  In d acc \/ Has cc false k n x d.
Proof.
  induction x as [c own imps IH] using ctx_ind2. intros C acc d. rewrite search_eq. destruct (acc ++ ownOf i c own) as [|d1 r] eqn:E.
  - apply app_eq_nil in E. destruct E as [-> E]. intros H R. right. cbn [clear] in C.
    pose proof (proj1 (own_nil i c own) E) as E'.
    destruct C as [[(m & A & B) _]|[_ C]].
    + exfalso. apply called_ident in B. exact (E' m A (proj2 B)).
    + assert (exists b, In b imps /\ Has cc false k n b d) as (b & A & B).
      { apply clears_forall in C. clear E E'. revert H. induction imps as [|b r IHr]; cbn; [intros []|].
        inversion IH as [|? ? I1 I2]; subst. inversion C as [|? ? C1 C2]; subst. intros H.
        destruct (I1 C1 _ _ H R) as [X|X].
        - destruct (IHr I2 C2 X) as (b' & A & B). exists b'. auto.
        - exists b. auto. }
      apply H_base with b; try assumption; [|discriminate].
      intros m A1 A2. apply called_ident in A2. exact (E' m A1 (proj2 A2)).
  - rewrite <- E. clear E. intros H R. apply in_app_or in H. destruct H as [H|H]; [left; exact H|]. right.
    apply in_own in H. destruct H as (<- & A & B). cbn [clear] in C. destruct C as [[_ C]|[C _]].
    + destruct d as [c m]. apply H_own; [exact A|]. apply called_ident. split; [apply C; assumption|exact B].
    + exfalso. exact (C _ A B).
Qed.

Definition good (l : list (N * member)) : Prop := l = [] \/ exists d, In d l /\ mk (snd d) = k.
Lemma search_good x : clear cc strict k n x -> forall acc, good acc -> good (search cc i x acc).
Proof.
  induction x as [c own imps IH] using ctx_ind2. intros C acc G. rewrite search_eq. destruct (acc ++ ownOf i c own) as [|d1 r] eqn:E.
  - apply app_eq_nil in E. destruct E as [-> E]. pose proof (proj1 (own_nil i c own) E) as E'. clear E. rename E' into E. cbn [clear] in C.
    destruct C as [[(m & A & B) _]|[_ C]]; [exfalso; apply called_ident in B; exact (E m A (proj2 B))|].
    apply clears_forall in C. clear E. induction imps as [|b r IHr]; cbn; [left; reflexivity|].
    inversion IH as [|? ? I1 I2]; subst. inversion C as [|? ? C1 C2]; subst. apply (I1 C1). apply IHr; assumption.
  - rewrite <- E. right. destruct G as [->|(d & A & B)]; [|exists d; split; [apply in_or_app; left; exact A|exact B]].
    cbn in E |- *. cbn [clear] in C. destruct C as [[(m & A & B) _]|[C _]].
    + exists (c, m). split; [|apply B]. apply called_ident in B. apply in_own. cbn. tauto.
    + pose proof (proj2 (own_nil i c own) C) as C'. rewrite C' in E. discriminate.
Qed.
Lemma imported_good imps : Forall (clear cc strict k n) imps -> good (imported i imps).
Proof. induction 1 as [|b r C _ IH]; [left; reflexivity|]. cbn. apply search_good; assumption. Qed.

Lemma search_complete x : clear cc strict k n x -> forall d, Has cc false k n x d -> exists d', In d' (search cc i x []) /\ mk (snd d') = k.
Proof.
  induction x as [c own imps IH] using ctx_ind2. intros C d H. rewrite search_eq. change ([] ++ ownOf i c own) with (ownOf i c own).
  inversion H as [c' own' imps' m A B E1 E2|c' own' imps' b d' A B D V E1 E2]; subst.
  - assert (In (c, m) (ownOf i c own)) as X by (apply called_ident in B; apply in_own; cbn; tauto).
    destruct (ownOf i c own); [destruct X|]. exists (c, m). split; [exact X|]. apply B.
  - cbn [clear] in C. destruct C as [[(m & Y & Z) _]|[C1 C2]]; [exfalso; exact (A m Y Z)|].
    assert (ownOf i c own = []) as -> by (exact (proj2 (own_nil i c own) C1)).
    apply clears_forall in C2. clear C1 H A. fold (imported i imps).
    induction imps as [|b' r IHr]; [destruct B|]. inversion IH as [|? ? I1 I2]; subst. inversion C2 as [|? ? D1 D2]; subst. cbn.
    fold (imported i r). destruct B as [->|B].
    + destruct (imported_good r D2) as [E|(d' & X & Y)].
      * rewrite E. apply I1 with d; assumption.
      * exists d'. split; [apply search_incl; exact X|exact Y].
    + destruct (IHr I2 D2 B) as (d' & X & Y). exists d'. split; [apply search_incl; exact X|exact Y].
Qed.

Lemma has_kind v x d : Has cc v k n x d -> mk (snd d) = k.
Proof. induction 1 as [c own imps m A B|c own imps b d A B D IH V]; [apply B|exact IH]. Qed.
Lemma has_weaken v x d : Has cc v k n x d -> Has cc false k n x d.
Proof. induction 1 as [c own imps m A B|c own imps b d A B D IH V]; [apply H_own; assumption|apply H_base with b; try assumption; discriminate]. Qed.
Lemma has_open x d : Has cc false k n x d -> (k <> Method -> mpriv (snd d) = false) -> Has cc true k n x d.
Proof. induction 1 as [c own imps m A B|c own imps b d A B D IH V]; intros P; [apply H_own; assumption|]. apply H_base with b; auto. Qed.
Lemma has_ids v x d : Has cc v k n x d -> In (fst d) (ids x).
Proof.
  induction 1 as [c own imps m A B|c own imps b d A B D IH V]; cbn; [left; reflexivity|]. right. apply in_flat_map. exists b. auto.
Qed.

(** *** The last declaration of those [f] lets through *)
Lemma last_some {A} (l : list A) d r : rev l = d :: r -> In d l.
Proof. intros E. apply in_rev. rewrite E. left. reflexivity. Qed.
Lemma last_none {A} (l : list A) : rev l = [] -> l = [].
Proof. intros E. destruct l as [|a l]; [reflexivity|]. cbn in E. apply app_eq_nil in E. destruct E. discriminate. Qed.

Definition pick c d := negb (isMethod (snd d)) && (if mpriv (snd d) then N.eqb (fst d) c else true).
Lemma pick_prop c own imps : k <> Method -> ~ In c (flat_map ids imps) -> clear cc strict k n (Ctx c own imps) -> (strict = false) -> alone cc k n (Ctx c own imps) ->
  match rev (filter (pick c) (findDeclarations cc i (Ctx c own imps))) with
  | d :: _ => Has cc true k n (Ctx c own imps) d
  | [] => forall d, ~ Has cc true k n (Ctx c own imps) d
  end.
Proof.
  intros K NC C ST A. set (x := Ctx c own imps) in *.
  assert (forall d, In d (findDeclarations cc i x) -> isMethod (snd d) = false -> Has cc false k n x d) as S.
  { intros d H M. destruct (search_sound x C [] d H) as [[]|X]; [|exact X]. right. unfold isMethod in M. destruct k; [congruence| |]; destruct (mk (snd d)); auto; discriminate. }
  assert (forall d, Has cc true k n x d -> mpriv (snd d) = true -> fst d = c) as OWN.
  { intros d H P. inversion H as [c' own' imps' m A1 B E1 E2|c' own' imps' b d' A1 B D V E1 E2]; subst; [reflexivity|].
    exfalso. rewrite V in P by auto. discriminate. }
  destruct (rev (filter (pick c) (findDeclarations cc i x))) as [|d r] eqn:E.
  - apply last_none in E. intros d H. destruct (search_complete x C d (has_weaken _ _ _ H)) as (d' & X & Y).
    assert (pick c d' = false) as P.
    { destruct (pick c d') eqn:P; [|reflexivity]. assert (In d' (filter (pick c) (findDeclarations cc i x))) as Z by (apply filter_In; auto). rewrite E in Z. destruct Z. }
    assert (isMethod (snd d') = false) as M by (unfold isMethod; rewrite Y; destruct k; congruence).
    unfold pick in P. rewrite M in P. cbn in P. destruct (mpriv (snd d')) eqn:Q; [|discriminate]. apply N.eqb_neq in P.
    assert (d = d') as -> by (apply (A K); [apply S; assumption|apply has_weaken in H; exact H|exact Q]).
    exact (P (OWN d' H Q)).
  - apply last_some in E. apply filter_In in E. destruct E as [X P]. unfold pick in P. apply andb_prop in P. destruct P as [P1 P2].
    apply negb_true_iff in P1. pose proof (S d X P1) as H. destruct (mpriv (snd d)) eqn:Q.
    + apply N.eqb_eq in P2. inversion H as [c' own' imps' m A1 B E1 E2|c' own' imps' b d' A1 B D V E1 E2]; subst; [apply H_own; assumption|].
      exfalso. apply NC. apply in_flat_map. exists b. split; [exact B|]. exact (has_ids _ _ _ D).
    + apply has_open; auto.
Qed.
Lemma pick_method x : k = Method -> clear cc strict k n x -> strict = false ->
  match rev (filter (fun d => isMethod (snd d)) (findDeclarations cc i x)) with
  | d :: _ => Has cc true k n x d
  | [] => forall d, ~ Has cc true k n x d
  end.
Proof.
  intros K C ST. destruct (rev (filter (fun d => isMethod (snd d)) (findDeclarations cc i x))) as [|d r] eqn:E.
  - apply last_none in E. intros d H. destruct (search_complete x C d (has_weaken _ _ _ H)) as (d' & X & Y).
    assert (In d' (filter (fun d => isMethod (snd d)) (findDeclarations cc i x))) as Z by (apply filter_In; split; [exact X|]; unfold isMethod; rewrite Y, K; reflexivity).
    rewrite E in Z. destruct Z.
  - apply last_some in E. apply filter_In in E. destruct E as [X P]. apply has_open; [|intros Q; congruence].
    destruct (search_sound x C [] d X) as [[]|H]; [|exact H]. right. rewrite K. unfold isMethod in P. destruct (mk (snd d)); [trivial|discriminate|discriminate].
Qed.
Lemma last_found x : strict = true -> clear cc strict k n x ->
  match lastFound cc i x with Some d => Has cc false k n x d | None => forall d, ~ Has cc false k n x d end.
Proof.
  intros ST C. unfold lastFound. destruct (rev (findDeclarations cc i x)) as [|d r] eqn:E.
  - apply last_none in E. intros d H. destruct (search_complete x C d H) as (d' & X & Y). unfold findDeclarations in E. rewrite E in X. destruct X.
  - apply last_some in E. destruct (search_sound x C [] d E) as [[]|H]; [left; exact ST|exact H].
Qed.
End Kind.
End Search.

(** ** Expressions *)
Section Eval.
Variable cc : CharClass.
Variable w : world.

Definition PO (P : ex -> Prop) (i : option ex) : Prop := match i with Some e => P e | None => True end.
Lemma ex_ind2 (P : ex -> Prop) :
  (forall l t, Forall P l -> P (Node l t)) ->
  (forall p, P (Var p)) ->
  (forall b p n stat args, P b -> Forall P (parts args) -> P (Member b p n stat args)) ->
  (forall b p n stat args, P b -> Forall P (parts args) -> P (VarMember b p n stat args)) ->
  (forall b l, P b -> Forall (PO P) l -> P (Elem b l)) ->
  (forall p q n args, Forall P args -> P (StaticCall p q n args)) ->
  (forall p q n, P (StaticProp p q n)) -> (forall p q n, P (ClassConst p q n)) -> forall e, P e.
Proof.
  intros HN HV HM HD HE HS HP HC. fix go 1. intros [l t|p|b p n stat args|b p n stat args|b l|p q n args|p q n|p q n].
  - apply HN. induction l; constructor; [apply go|assumption].
  - apply HV.
  - apply HM; [apply go|]. destruct args as [l|]; [|constructor]. cbn. induction l; constructor; [apply go|assumption].
  - apply HD; [apply go|]. destruct args as [l|]; [|constructor]. cbn. induction l; constructor; [apply go|assumption].
  - apply HE; [apply go|]. induction l as [|[i|] r IH]; constructor; [apply go|assumption|exact I|assumption].
  - apply HS. induction args; constructor; [apply go|assumption].
  - apply HP.
  - apply HC.
Qed.

Fixpoint all (l : list ex) (s : state) : state := match l with [] => s | k :: r => all r (eval cc w k s) end.
Definition arguments (a : option (list ex)) (s : state) : state := match a with Some l => setTy (ty_ s) (all l s) | None => s end.
Fixpoint idx (l : list (option ex)) (s : state) : state :=
  match l with [] => s | i :: r => idx r (match i with Some k => eval cc w k s | None => s end) end.
Fixpoint lastIdx (l : list (option ex)) (s : state) : state :=
  match l with [] => s | [i] => match i with Some k => eval cc w k s | None => s end | _ :: r => lastIdx r s end.
Fixpoint allPlain (l : list ex) : Prop := match l with [] => True | k :: r => plain cc w k /\ allPlain r end.
Fixpoint idxPlain (l : list (option ex)) : Prop :=
  match l with [] => True | Some k :: r => plain cc w k /\ idxPlain r | None :: r => idxPlain r end.
Definition argsPlain (a : option (list ex)) : Prop := match a with Some l => allPlain l | None => True end.

Definition isSome {A} (o : option A) := match o with Some _ => true | None => false end.
Lemma eval_member b p n st args s : eval cc w (Member b p n st args) s = arguments args (access cc w p n (match args with Some _ => true | None => false end) (eval cc w b s)).
Proof. reflexivity. Qed.
Lemma eval_dyn b p n st args s : eval cc w (VarMember b p n st args) s = arguments args (setTy (varTy w p) (eval cc w b s)).
Proof. reflexivity. Qed.
Lemma eval_elem b l s : eval cc w (Elem b l) s = if isCall b then setTy (Some (Integral KMixed)) (lastIdx l (eval cc w b s)) else idx l (eval cc w b s).
Proof. reflexivity. Qed.
Lemma eval_node l t s : eval cc w (Node l t) s = setTy t (all l s).
Proof. reflexivity. Qed.

Definition Ok (e : ex) : Prop := plain cc w e -> forall s, exists k us,
  Value cc w e k us /\ uses (eval cc w e s) = uses s ++ us /\ (firm cc w e -> Class (ty_ (eval cc w e s)) k).

Lemma class_total t : Class t (targetClass t).
Proof. destruct (targetClass t) as [c|] eqn:E; cbn; [apply target_iff; exact E|]. intros c H. apply target_iff in H. congruence. Qed.
Lemma class_target t k : Class t k -> targetClass t = k.
Proof. destruct k as [c|]; cbn; intros H; [apply target_iff; exact H|apply target_none; exact H]. Qed.
Lemma no_class : Class None None.
Proof. exact (class_total None). Qed.

Lemma all_ok l : Forall Ok l -> allPlain l -> forall s, exists us, Values cc w l us /\ uses (all l s) = uses s ++ us.
Proof.
  induction 1 as [|e r O _ IH]; intros P s.
  - exists []. split; [constructor|]. cbn. rewrite app_nil_r. reflexivity.
  - destruct P as [P1 P2]. destruct (O P1 s) as (k & us & V & U & _). destruct (IH P2 (eval cc w e s)) as (vs & Vs & U2).
    exists (us ++ vs). split; [econstructor; eassumption|]. cbn. rewrite U2, U, app_assoc. reflexivity.
Qed.
Lemma args_ok a : Forall Ok (parts a) -> argsPlain a -> forall s, exists us,
  Values cc w (parts a) us /\ uses (arguments a s) = uses s ++ us /\ ty_ (arguments a s) = ty_ s.
Proof.
  destruct a as [l|]; cbn.
  - intros H P s. destruct (all_ok l H P s) as (us & V & U). exists us. auto.
  - intros _ _ s. exists []. split; [constructor|]. rewrite app_nil_r. auto.
Qed.
Lemma idx_ok l : Forall (PO Ok) l -> idxPlain l -> forall s, exists us, Values cc w (indexes l) us /\ uses (idx l s) = uses s ++ us.
Proof.
  induction 1 as [|[e|] r O _ IH]; intros P s.
  - exists []. split; [constructor|]. cbn. rewrite app_nil_r. reflexivity.
  - destruct P as [P1 P2]. destruct (O P1 s) as (k & us & V & U & _). destruct (IH P2 (eval cc w e s)) as (vs & Vs & U2).
    exists (us ++ vs). split; [cbn; econstructor; eassumption|]. cbn. rewrite U2, U, app_assoc. reflexivity.
  - exact (IH P s).
Qed.
Lemma idx_app l1 l2 s : idx (l1 ++ l2) s = idx l2 (idx l1 s).
Proof. revert s. induction l1 as [|i r IH]; intros s; [reflexivity|]. apply IH. Qed.
Lemma idx_none l s : indexes l = [] -> idx l s = s.
Proof. induction l as [|[e|] r IH]; cbn; intros E; [reflexivity|discriminate|exact (IH E)]. Qed.
Lemma idx_plain_mid l1 i l2 : idxPlain (l1 ++ Some i :: l2) -> plain cc w i.
Proof. induction l1 as [|[e|] r IH]; cbn; intros H; [apply H|apply IH, H|apply IH, H]. Qed.

Lemma is_method_kind stat args : kindOf stat args = Method <-> (match args with Some _ => true | None => false end) = true.
Proof. destruct args; cbn; [tauto|]. destruct stat; split; discriminate. Qed.

Hypothesis SOUND : sound w.

Lemma access_some p n stat args s c x :
  targetClass (ty_ s) = Some c -> ctxOf w c = Some x ->
  clear cc false (kindOf stat args) n x -> alone cc (kindOf stat args) n x ->
  (exists d, Has cc true (kindOf stat args) n x d /\
     access cc w p n (match args with Some _ => true | None => false end) s = emit (used p d) (setTy (result d) s)) \/
  ((forall d, ~ Has cc true (kindOf stat args) n x d) /\
     access cc w p n (match args with Some _ => true | None => false end) s = emit (unknown p) (setTy None s)).
Proof.
  intros T X C A. unfold access. rewrite T, X. destruct args as [l|].
  - cbn [kindOf] in *. pose proof (pick_method cc false Method n x eq_refl C eq_refl) as PM. cbn [name] in PM.
    match goal with |- context [filter ?f ?l] => replace (filter f l) with (filter (fun d : N * member => isMethod (snd d)) l) end.
    2: { apply filter_ext. intros d. reflexivity. }
    destruct (rev (filter (fun d => isMethod (snd d)) (findDeclarations cc (lower cc n) x))) as [|d r].
    + right. auto.
    + left. exists d. split; [exact PM|]. unfold used, result. rewrite (has_kind _ _ _ _ _ _ PM). reflexivity.
  - destruct (SOUND c x X) as (own & imps & -> & NC).
    assert (kindOf stat None <> Method) as K by (cbn; destruct stat; discriminate).
    pose proof (pick_prop cc false (kindOf stat None) n c own imps K NC C eq_refl A) as PP.
    replace (name cc (kindOf stat None) n) with n in PP by (destruct stat; reflexivity).
    match goal with |- context [filter ?f ?l] => replace (filter f l) with (filter (pick c) l) end.
    2: { apply filter_ext. intros d. reflexivity. }
    destruct (rev (filter (pick c) (findDeclarations cc n (Ctx c own imps)))) as [|d r].
    + right. auto.
    + left. exists d. split; [exact PP|]. unfold used, result. rewrite (has_kind _ _ _ _ _ _ PP). destruct stat; reflexivity.
Qed.

Lemma firm_var b p n st args : firm cc w (VarMember b p n st args) -> forall c, ~ oneClass (varTy w p) c.
Proof. intros H. inversion H as [b1 p1 n1 st1 args1 X E|b1 l1 X E|b1 l1 i l2 X1 X2 X3 E|e X1 X2 E]; subst; [exact X|]. exfalso. exact (X2 _ _ _ _ _ eq_refl). Qed.
Lemma firm_elem b l : firm cc w (Elem b l) -> isCall b = true \/
  exists l1 i l2, l = l1 ++ Some i :: l2 /\ indexes l2 = [] /\ firm cc w i /\ forall k us, Value cc w i k us -> k = None.
Proof.
  intros H. inversion H as [b1 p1 n1 st1 args1 X E|b1 l1 X E|b1 l1 i l2 X1 X2 X3 E|e X1 X2 E]; subst; [left; exact X| |exfalso; exact (X1 _ _ eq_refl)].
  right. exists l1, i, l2. auto.
Qed.

Lemma eval_ok e : Ok e.
Proof.
  induction e as [l t IH|p|b p n st args IHb IHa|b p n st args IHb IHa|b l IHb IHl|p q n args IHa|p q n|p q n] using ex_ind2; intros P s.
  - destruct (all_ok l IH P s) as (us & V & U). exists (targetClass t), us. rewrite eval_node.
    split; [constructor; [exact V|apply class_total]|]. split; [exact U|]. intros _. apply class_total.
  - exists (targetClass (varTy w p)), []. split; [constructor; apply class_total|]. split; [cbn; rewrite app_nil_r; reflexivity|].
    intros _. apply class_total.
  - destruct P as (Pb & Fb & Pa & Q). destruct (IHb Pb s) as (k & us & V & U & T). specialize (T Fb).
    rewrite eval_member. set (s1 := eval cc w b s) in *.
    destruct (args_ok args IHa Pa (access cc w p n (match args with Some _ => true | None => false end) s1)) as (vs & Vs & U2 & T2).
    rewrite U2, T2. apply class_target in T.
    destruct k as [c|].
    + destruct (ctxOf w c) as [x|] eqn:X.
      * destruct (Q c us x V X) as [C A]. destruct (access_some p n st args s1 c x T X C A) as [(d & H & E)|(H & E)]; rewrite E.
        -- exists (targetClass (result d)), (us ++ [used p d] ++ vs).
           split; [eapply V_member; eauto; apply class_total|]. split; [cbn; rewrite U, <- !app_assoc; reflexivity|].
           intros _. apply class_total.
        -- exists None, (us ++ [unknown p] ++ vs). split; [eapply V_missing; eauto|]. split; [cbn; rewrite U, <- !app_assoc; reflexivity|].
           intros _. apply no_class.
      * exists None, (us ++ vs). split; [eapply V_nowhere; eauto|]. unfold access. rewrite T, X. cbn.
        split; [rewrite U, app_assoc; reflexivity|]. intros _. apply no_class.
    + exists None, (us ++ vs). split; [eapply V_noclass; eauto|]. unfold access. rewrite T.
      split; [rewrite U, app_assoc; reflexivity|]. intros _. pose proof (class_total (ty_ s1)) as Y. rewrite T in Y. exact Y.
  - destruct P as (Pb & -> & Pa). destruct (IHb Pb s) as (k & us & V & U & _). rewrite eval_dyn.
    destruct (args_ok args IHa Pa (setTy (varTy w p) (eval cc w b s))) as (vs & Vs & U2 & T2). rewrite U2, T2.
    exists None, (us ++ vs). split; [eapply V_dynamic; eauto|]. split; [cbn; rewrite U, app_assoc; reflexivity|].
    intros F. exact (firm_var _ _ _ _ _ F).
  - destruct P as (Pb & PL & Pl). destruct (IHb Pb s) as (k & us & V & U & _). rewrite eval_elem. change (idxPlain l) in Pl.
    destruct (isCall b) eqn:CB.
    + specialize (PL eq_refl). destruct l as [|i [|j r]]; [| |cbn in PL; lia].
      * exists None, (us ++ []). split; [eapply V_elem; [exact V|constructor]|]. split; [cbn; rewrite app_nil_r; exact U|].
        intros _. exact (class_total (Some (Integral KMixed))).
      * destruct (idx_ok [i] IHl Pl (eval cc w b s)) as (vs & Vs & U2). exists None, (us ++ vs).
        split; [eapply V_elem; eauto|]. split; [cbn in U2 |- *; rewrite U2, U, app_assoc; reflexivity|].
        intros _. exact (class_total (Some (Integral KMixed))).
    + destruct (idx_ok l IHl Pl (eval cc w b s)) as (vs & Vs & U2). exists None, (us ++ vs).
      split; [eapply V_elem; eauto|]. split; [rewrite U2, U, app_assoc; reflexivity|].
      intros F. destruct (firm_elem _ _ F) as [F1|(l1 & i & l2 & -> & E & Fi & N)]; [congruence|].
      rewrite idx_app. cbn [idx]. rewrite (idx_none l2) by exact E.
      apply Forall_app in IHl. destruct IHl as [_ IHl]. inversion IHl as [|? ? Oi _]; subst.
      destruct (Oi (idx_plain_mid _ _ _ Pl) (idx l1 (eval cc w b s))) as (ki & ui & Vi & _ & Ti). rewrite (N _ _ Vi) in Ti. exact (Ti Fi).
  - destruct P as (Pa & Q). change (allPlain args) in Pa. destruct (all_ok args IHa Pa s) as (vs & Vs & U).
    destruct (staticOf w p) as [x|] eqn:X.
    + destruct (Q x eq_refl) as (C & d0 & H0). pose proof (last_found cc true Method n x eq_refl C) as L.
      cbn [name] in L. destruct (lastFound cc (lower cc n) x) as [d|] eqn:LF; [|exfalso; exact (L d0 H0)].
      exists (targetClass (result d)), (vs ++ [used q d]). split; [eapply V_call; eauto; apply class_total|].
      cbn [eval]. rewrite X, LF. assert (isMethod (snd d) = true) as M by (unfold isMethod; rewrite (has_kind _ _ _ _ _ _ L); reflexivity).
      rewrite M. change (uses (emit ?u (setTy ?t ?z))) with (uses z ++ [u]). change (ty_ (emit ?u (setTy ?t ?z))) with t.
      split; [change (uses (setTy ?t ?z)) with (uses z); fold all; rewrite U, app_assoc; reflexivity|].
      intros _. unfold result. rewrite (has_kind _ _ _ _ _ _ L). apply class_total.
    + exists None, (vs ++ [unknown q]). split; [apply V_badcall; auto|].
      cbn [eval]. rewrite X. split; [cbn [emit setTy uses]; fold all; rewrite U, app_assoc; reflexivity|].
      intros _. apply no_class.
  - cbn [eval]. cbn [plain] in P. destruct (staticOf w p) as [x|] eqn:X.
    + pose proof (last_found cc true Property n x eq_refl (P x eq_refl)) as L. cbn [name] in L. destruct (lastFound cc n x) as [d|].
      * exists (targetClass (result d)), [used q d]. split; [eapply V_prop; [exact X|exact L|apply class_total]|]. split; [reflexivity|].
        intros _. cbn. unfold declTy, isMethod, result. rewrite (has_kind _ _ _ _ _ _ L). apply class_total.
      * exists None, [unknown q]. split; [eapply V_noprop; eauto|]. split; [reflexivity|]. intros _. apply no_class.
    + exists None, []. split; [apply V_badprop; exact X|]. split; [cbn; rewrite app_nil_r; reflexivity|]. intros _. apply no_class.
  - cbn [eval]. cbn [plain] in P. destruct (staticOf w p) as [x|] eqn:X.
    + pose proof (last_found cc true Constant n x eq_refl (P x eq_refl)) as L. cbn [name] in L. destruct (lastFound cc n x) as [d|].
      * exists (targetClass (result d)), [used q d]. split; [eapply V_const; [exact X|exact L|apply class_total]|]. split; [reflexivity|].
        intros _. cbn. unfold declTy, isMethod, result. rewrite (has_kind _ _ _ _ _ _ L). apply class_total.
      * exists None, [unknown q]. split; [eapply V_noconst; eauto|]. split; [reflexivity|]. intros _. apply no_class.
    + exists None, []. split; [apply V_badconst; exact X|]. split; [cbn; rewrite app_nil_r; reflexivity|]. intros _. apply no_class.
Qed.

Lemma chain_ok e s : plain cc w e -> exists k us,
  Value cc w e k us /\ uses (eval cc w e s) = uses s ++ us /\ (firm cc w e -> Class (ty_ (eval cc w e s)) k).
Proof. intros P. exact (eval_ok e P s). Qed.
End Eval.
