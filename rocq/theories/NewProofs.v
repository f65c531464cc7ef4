(** Proofs about NewModel.v. *)
From Coq Require Import List Bool Arith NArith Lia.
From Verif Require Import PhpTypes Chars LookModel ExprModel ExprSpec ExprProofs ChainModel ChainSpec ChainProofs NewModel NewSpec.
Import ListNotations.

Section P.
Variable cc : CharClass.
Variable w : world.

Lemma visits_uses l : forall s, s_uses (visits l s) = s_uses s ++ all l.
Proof.
  induction l as [|e l IH]; intros s; cbn; [now rewrite app_nil_r|].
  unfold visits in IH. rewrite IH. cbn. now rewrite <- app_assoc.
Qed.

(** What is known about m_result behind a value of class [k]. *)
Definition Rel (k : option N) (s : st) : Prop :=
  match k with
  | Some c => s_found s = Some (Some (Struct c))
  | None => s_found s = None \/ exists t, s_found s = Some t /\ classOf w t = None
  end.
Lemma pure_class t k s : pure t -> Class t k -> s_found s = Some t -> Rel k s.
Proof.
  intros Hp Hk Hs. destruct k as [c|].
  - destruct Hk as [->|(l1 & l2 & -> & _)]; [exact Hs|]. exfalso. now apply (Hp (l1 ++ Struct c :: l2)).
  - right. exists t. split; [exact Hs|]. destruct t as [t|]; [|reflexivity]. destruct t; try reflexivity.
    exfalso. apply (Hk d). now left.
Qed.

Lemma declTy_result n x d : Has cc false Property n x d -> declTy d = result d.
Proof.
  intros H. assert (E : mk (snd d) = Property).
  { induction H as [c own imps m _ [Hk _]|c own imps b d _ _ _ IH _]; [exact Hk|exact IH]. }
  unfold declTy, result, isMethod. now rewrite E.
Qed.

(** Looking a property up. *)
Lemma use_ok p n x s : clear cc true Property n x -> (forall d, Has cc false Property n x d -> pure (result d)) ->
  (exists d, Has cc false Property n x d /\ s_found (useDeclaration cc p n x s) = Some (result d) /\
             s_uses (useDeclaration cc p n x s) = s_uses s ++ [used p d]) \/
  ((forall d, ~ Has cc false Property n x d) /\ s_found (useDeclaration cc p n x s) = None /\
             s_uses (useDeclaration cc p n x s) = s_uses s ++ [unknown p]).
Proof.
  intros Hc Hp. pose proof (last_found cc true Property n x eq_refl Hc) as L. cbn [name] in L.
  unfold useDeclaration. destruct (lastFound cc n x) as [d|].
  - left. exists d. split; [exact L|]. split; [|reflexivity]. cbn. f_equal. exact (declTy_result _ _ _ L).
  - right. split; [exact L|]. split; reflexivity.
Qed.

Lemma step_written k p n l s : written k = Some (p, n, l) ->
  step cc w k s = Some (match s_found s with
                        | None => s
                        | Some t => match classOf w t with Some x => visits l (useDeclaration cc p n x s) | None => visits l s end
                        end).
Proof.
  destruct k; cbn; intros E; try discriminate E; injection E as -> -> ->; destruct (s_found s) as [t|]; try reflexivity;
    destruct (classOf w t); reflexivity.
Qed.
Lemma inside_written k p n l : written k = Some (p, n, l) -> inside k = all l.
Proof. destruct k; cbn; intros E; try discriminate E; now injection E as -> -> ->. Qed.

Lemma names_none l : Forall noIndex l -> forall s, Rel None s -> Path cc w None l [] /\
  exists s', steps cc w l s = Some s' /\ s_uses s' = s_uses s.
Proof.
  induction 1 as [|k r (p & n & Hk) _ IH]; intros s Hs; [split; [constructor|exists s; auto]|].
  assert (E : step cc w k s = Some s).
  { rewrite (step_written _ _ _ _ _ Hk). destruct Hs as [-> |(t & -> & ->)]; reflexivity. }
  destruct (IH s Hs) as (HP & s' & Hr & Hu). split.
  - pose proof (P_noclass cc w k r [] HP) as X. rewrite (inside_written _ _ _ _ Hk) in X. exact X.
  - exists s'. cbn [steps]. rewrite E. auto.
Qed.

Lemma found_written k p n l c x s : written k = Some (p, n, l) -> s_found s = Some (Some (Struct c)) -> ctxOf w c = Some x ->
  step cc w k s = Some (visits l (useDeclaration cc p n x s)).
Proof. intros Hk Hs Hx. rewrite (step_written _ _ _ _ _ Hk), Hs. cbn [classOf]. now rewrite Hx. Qed.

Lemma names_ok : tidy cc w -> forall l, Forall noIndex l -> forall k s, Rel k s ->
  exists us s', Path cc w k l us /\ steps cc w l s = Some s' /\ s_uses s' = s_uses s ++ us.
Proof.
  intros T. induction 1 as [|k r (p & n & Hk) Hr IH]; intros c s Hs.
  - exists [], s. repeat split; [constructor|]. now rewrite app_nil_r.
  - destruct c as [c|].
    + cbn [Rel] in Hs. destruct (ctxOf w c) as [x|] eqn:Hx.
      * pose proof (found_written _ _ _ _ _ _ _ Hk Hs Hx) as E. cbn [visits fold_left] in E.
        destruct (T c x n Hx) as (Tc & Tp). destruct (use_ok p n x s Tc Tp) as [(d & Hd & Ef & Eu)|(Hn & Ef & Eu)].
        -- pose proof (pure_class _ _ (useDeclaration cc p n x s) (Tp d Hd) (class_total (result d)) Ef) as HR.
           destruct (IH _ _ HR) as (us & s' & HP & Es & Euu).
           exists ([used p d] ++ all [] ++ us), s'. split; [|split].
           ++ apply (P_property cc w c x k r p n [] d (targetClass (result d)) us); auto. cbn. apply class_total.
           ++ cbn [steps]. rewrite E. exact Es.
           ++ rewrite Euu, Eu, <- app_assoc. reflexivity.
        -- destruct (names_none r Hr (useDeclaration cc p n x s) (or_introl Ef)) as (HP & s' & Es & Euu).
           exists ([unknown p] ++ all [] ++ []), s'. split; [|split].
           ++ apply (P_missing cc w c x k r p n [] []); auto.
           ++ cbn [steps]. rewrite E. exact Es.
           ++ rewrite Euu, Eu. reflexivity.
      * assert (E : step cc w k s = Some s).
        { rewrite (step_written _ _ _ _ _ Hk), Hs. cbn [classOf]. now rewrite Hx. }
        assert (HN : Rel None s) by (right; exists (Some (Struct c)); cbn; auto).
        destruct (names_none r Hr s HN) as (HP & s' & Es & Euu). exists (inside k ++ []), s'. split; [|split].
        -- now apply P_nowhere.
        -- cbn [steps]. rewrite E. exact Es.
        -- rewrite Euu, (inside_written _ _ _ _ Hk). cbn. now rewrite app_nil_r.
    + destruct (names_none (k :: r) (Forall_cons _ (ex_intro _ p (ex_intro _ n Hk)) Hr) s Hs) as (HP & s' & Es & Eu).
      exists [], s'. rewrite app_nil_r. auto.
Qed.

Lemma parts_ok : tidy cc w -> forall k l, smooth cc w k l -> forall s, Rel k s ->
  exists us s', Path cc w k l us /\ steps cc w l s = Some s' /\ s_uses s' = s_uses s ++ us.
Proof.
  intros T k l H. induction H as [k l Hl|c x k p n l Hk Hx|c x k r p n Hk Hx (d0 & Hd0) Hr IH]; intros s Hs.
  - now apply names_ok.
  - cbn [Rel] in Hs. pose proof (found_written _ _ _ _ _ _ _ Hk Hs Hx) as E. destruct (T c x n Hx) as (Tc & Tp).
    destruct (use_ok p n x s Tc Tp) as [(d & Hd & _ & Eu)|(Hn & _ & Eu)].
    + exists ([used p d] ++ all l ++ []), (visits l (useDeclaration cc p n x s)). split; [|split].
      * apply (P_property cc w c x k [] p n l d (match l with [] => targetClass (result d) | _ => None end) []); auto; [|constructor].
        destruct l; cbn; [apply class_total|reflexivity].
      * cbn [steps]. now rewrite E.
      * rewrite visits_uses, Eu, app_nil_r, <- app_assoc. reflexivity.
    + exists ([unknown p] ++ all l ++ []), (visits l (useDeclaration cc p n x s)). split; [|split].
      * apply (P_missing cc w c x k [] p n l []); auto. constructor.
      * cbn [steps]. now rewrite E.
      * rewrite visits_uses, Eu, app_nil_r, <- app_assoc. reflexivity.
  - cbn [Rel] in Hs. pose proof (found_written _ _ _ _ _ _ _ Hk Hs Hx) as E. cbn [visits fold_left] in E.
    destruct (T c x n Hx) as (Tc & Tp). destruct (use_ok p n x s Tc Tp) as [(d & Hd & Ef & Eu)|(Hn & _)]; [|exfalso; exact (Hn d0 Hd0)].
    pose proof (pure_class _ _ (useDeclaration cc p n x s) (Tp d Hd) (class_total (result d)) Ef) as HR.
    destruct (IH d _ Hd (class_total (result d)) _ HR) as (us & s' & HP & Es & Euu).
    exists ([used p d] ++ all [] ++ us), s'. split; [|split].
    + apply (P_property cc w c x k r p n [] d (targetClass (result d)) us); auto. cbn. apply class_total.
    + cbn [steps]. rewrite E. exact Es.
    + rewrite Euu, Eu, <- app_assoc. reflexivity.
Qed.

Lemma steps_none l : forall s, s_found s = None -> Forall noIndex l -> steps cc w l s = Some s.
Proof.
  induction l as [|k r IH]; intros s Hs H; [reflexivity|]. inversion H as [|? ? (p & n & Hk) Hr]; subst.
  cbn [steps]. rewrite (step_written _ _ _ _ _ Hk), Hs. now apply IH.
Qed.
Lemma smooth_none k l : smooth cc w k l -> k = None -> Forall noIndex l.
Proof. intros H. destruct H; intros E; [assumption|discriminate E|discriminate E]. Qed.

Lemma reference_ok : tidy cc w -> forall b r s, smoothFront cc b r -> (forall k us, Front cc b k us -> smooth cc w k r) ->
  exists k us vs s', Front cc b k us /\ Path cc w k r vs /\ classNameReference cc w b r s = Some s' /\ s_uses s' = s_uses s ++ us ++ vs.
Proof.
  intros T b r s Hb Hk.
  assert (G : forall k us, Front cc b k us -> s_uses (begin cc b s) = s_uses s ++ us -> (r = [] \/ Rel k (begin cc b s)) ->
    exists k us vs s', Front cc b k us /\ Path cc w k r vs /\ classNameReference cc w b r s = Some s' /\ s_uses s' = s_uses s ++ us ++ vs).
  { intros k us Hf Hu HR. unfold classNameReference. destruct HR as [-> |HR].
    - exists k, us, [], (begin cc b s). split; [exact Hf|]. split; [constructor|]. rewrite app_nil_r.
      destruct (s_found (begin cc b s)); auto.
    - destruct (parts_ok T k r (Hk k us Hf) _ HR) as (vs & s' & HP & Es & Eu).
      exists k, us, vs, s'. split; [exact Hf|]. split; [exact HP|]. split.
      + destruct (s_found (begin cc b s)) eqn:Ef; [exact Es|].
        destruct k as [c|]; [unfold Rel in HR; congruence|].
        rewrite (steps_none r _ Ef (smooth_none None r (Hk None us Hf) eq_refl)) in Es. exact Es.
      + rewrite Eu, Hu, <- app_assoc. reflexivity. }
  destruct b as [v l|[x|] p n l]; cbn [smoothFront] in Hb.
  - destruct Hb as (Hv & Hl). destruct (i_found v) as [f|] eqn:Ev; [|destruct Hv].
    assert (Hu : s_uses (begin cc (FromVar v l) s) = s_uses s ++ i_uses v ++ all l).
    { cbn [begin]. rewrite visits_uses. cbn. now rewrite <- app_assoc. }
    destruct Hl as [-> | ->].
    + destruct f as [t|].
      * apply (G (targetClass t) (i_uses v ++ all [])); auto.
        -- apply F_var. rewrite Ev. cbn. apply class_total.
        -- right. apply (pure_class t); auto; [apply class_total|]. cbn. now rewrite Ev.
      * apply (G None (i_uses v ++ all [])); auto.
        -- apply F_var. now rewrite Ev.
        -- right. left. cbn. now rewrite Ev.
    + destruct f as [t|].
      * apply (G (match l with [] => targetClass t | _ => None end) (i_uses v ++ all l)); auto.
        apply F_var. rewrite Ev. destruct l; cbn; [apply class_total|reflexivity].
      * apply (G None (i_uses v ++ all l)); auto. apply F_var. now rewrite Ev.
  - destruct Hb as (Hc & Hp & Hl). destruct (use_ok p n x s Hc Hp) as [(d & Hd & Ef & Eu)|(Hn & Ef & Eu)].
    + assert (Hu : s_uses (begin cc (FromStatic (Some x) p n l) s) = s_uses s ++ [used p d] ++ all l).
      { cbn [begin]. rewrite visits_uses, Eu. now rewrite <- app_assoc. }
      apply (G (match l with [] => targetClass (result d) | _ => None end) ([used p d] ++ all l)); auto.
      * apply F_static; [exact Hd|]. destruct l; cbn; [apply class_total|reflexivity].
      * destruct Hl as [-> | ->]; [right|now left]. apply (pure_class (result d)); auto. apply class_total.
    + assert (Hu : s_uses (begin cc (FromStatic (Some x) p n l) s) = s_uses s ++ [unknown p] ++ all l).
      { cbn [begin]. rewrite visits_uses, Eu. now rewrite <- app_assoc. }
      apply (G None ([unknown p] ++ all l)); auto; [now apply F_missing|].
      destruct Hl as [-> | ->]; [right; left; exact Ef|now left].
  - destruct Hb.
Qed.

(** ** No crash *)
Definition calm (k : part) : Prop := match k with StaticExpr _ e _ => i_found e <> Some None | _ => True end.
Lemma step_calm k s : calm k -> step cc w k s <> None.
Proof.
  intros H. destruct k; cbn [step]; try (destruct (s_found s) eqn:E; discriminate); try discriminate.
  destruct (s_found s) as [t|] eqn:E; [|discriminate]. cbn. cbn in H. destruct (i_found e) as [[f|]|]; [discriminate|exfalso; now apply H|].
  rewrite E. discriminate.
Qed.
Lemma steps_calm l : Forall calm l -> forall s, steps cc w l s <> None.
Proof.
  induction 1 as [|k r Hk _ IH]; intros s; cbn [steps]; [discriminate|].
  destruct (step cc w k s) eqn:E; [apply IH|]. exfalso. now apply (step_calm k s Hk).
Qed.
Lemma reference_calm b l s : Forall calm l -> classNameReference cc w b l s <> None.
Proof.
  intros H. unfold classNameReference. destruct (s_found (begin cc b s)); [now apply steps_calm|discriminate].
Qed.
Lemma crash_general v p e l r t s : i_found v = Some (Some t) -> i_found e = Some None ->
  classNameReference cc w (FromVar v []) (StaticExpr p e l :: r) s = None.
Proof. intros Hv He. unfold classNameReference. cbn. rewrite Hv. cbn. now rewrite He. Qed.
End P.
