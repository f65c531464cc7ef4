From Coq Require Import List Bool Arith Lia.
From Verif Require Import NamedModel NamedSpec NamedProofs.
Import ListNotations.
Open Scope nat_scope.

Lemma within_trans a b c : Within a b -> Within b c -> Within a c.
Proof. intros H K. induction H; [exact K|]. eapply W_part; [eassumption|]. apply IHWithin. exact K. Qed.
Lemma within_closure n m : Within n m -> forall e s, n = E e -> m = S s -> exists h d r b, Within n (E (Closure h d r b)) /\ Within (S b) (S s).
Proof.
  induction 1 as [n|n k m I W IH]; intros e s En Em; [subst; discriminate|].
  destruct k as [e'|b].
  - destruct (IH e' s eq_refl Em) as (h & d & r & b & W1 & W2). exists h, d, r, b. split; [eapply W_part; eassumption|exact W2].
  - subst. assert (exists h d r, e = Closure h d r b) as (h & d & r & ->).
    { destruct e; cbn in I; rewrite ?in_app_iff, ?in_map_iff in I; cbn [In] in I;
        repeat match goal with
        | I : _ \/ _ |- _ => destruct I as [I|I]
        | I : exists _, _ |- _ => destruct I as (? & I & _)
        | I : False |- _ => destruct I
        | I : E _ = S _ |- _ => discriminate I
        end.
      injection I as I. rewrite I. eauto. }
    exists h, d, r, b. split; [constructor|exact W].
Qed.

Section Found.
Variable known : nat -> bool.
Local Notation walkE := (walkE known).
Local Notation walkS := (walkS known).
Local Notation walk := (walk known).

(** What a node of an expression, or of a closure, loses. *)
Definition lostAt (m : node) (x : nat * kind) : Prop :=
  match m with
  | E (StaticCallVar c _ _) => x = (c, Class)
  | S (Catch cs _) => In x (asClasses cs)
  | S (ClassDecl e i _) => In x (asClasses e ++ asClasses i)
  | S (Traits cs im) => In x (written (Traits cs im))
  | S (Use l) => In x l
  | _ => False
  end.
Definition lostIn (n : node) (x : nat * kind) : Prop := exists m, Within n m /\ lostAt m x.
Lemma lost_part n k x : In k (children n) -> lostIn k x -> lostIn n x.
Proof. intros I (m & W & L). exists m. split; [eapply W_part; eassumption|exact L]. Qed.
Definition foundN (n : node) : Prop :=
  match n with
  | E e => forall x, In x (writtenE e) -> In (asUse x) (walkE e) \/ lostIn n x
  | S s => forall x, In x (written s) -> In (asUse x) (walkS s) \/ lostIn n x
  end.
Lemma flat_found {A} (P : A -> Prop) (f : A -> list event) (g : A -> list (nat * kind)) (c : A -> node) l :
  (forall a, In a l -> P a) -> (forall a x, P a -> In x (g a) -> In (asUse x) (f a) \/ lostIn (c a) x) ->
  forall x, In x (flat_map g l) -> In (asUse x) (flat_map f l) \/ exists a, In a l /\ lostIn (c a) x.
Proof.
  intros F H x I. apply in_flat_map in I. destruct I as (a & I & J). destruct (H a x (F a I) J) as [K|K].
  - left. apply in_flat_map. exists a. split; assumption.
  - right. exists a. split; assumption.
Qed.
Lemma ref_used x c : In x (optional c) -> In (asUse x) (reference c).
Proof. destruct c; cbn; [|intros []]. intros [<-|[]]. left. reflexivity. Qed.

Lemma found_names n : foundN n.
Proof.
  induction n as [n IH] using node_induction. rewrite Forall_forall in IH.
  assert (LE : forall l, (forall a, In a l -> In (E a) (children n)) -> forall x, In x (flat_map writtenE l) -> In (asUse x) (flat_map walkE l) \/ lostIn n x).
  { intros l F x I. destruct (flat_found (fun a => In (E a) (children n)) walkE writtenE E l F (fun a y Ha => IH (E a) Ha y) x I) as [J|(a & J & K)]; [left; exact J|].
    right. eapply lost_part; [exact (F a J)|exact K]. }
  assert (LS : forall l, (forall a, In a l -> In (S a) (children n)) -> forall x, In x (flat_map written l) -> In (asUse x) (flat_map walkS l) \/ lostIn n x).
  { intros l F x I. destruct (flat_found (fun a => In (S a) (children n)) walkS written S l F (fun a y Ha => IH (S a) Ha y) x I) as [J|(a & J & K)]; [left; exact J|].
    right. eapply lost_part; [exact (F a J)|exact K]. }
  assert (IE : forall e, In (E e) (children n) -> forall x, In x (writtenE e) -> In (asUse x) (walkE e) \/ lostIn n x).
  { intros e F x I. destruct (IH _ F x I) as [J|J]; [left; exact J|right; eapply lost_part; eassumption]. }
  assert (IS : forall e, In (S e) (children n) -> forall x, In x (written e) -> In (asUse x) (walkS e) \/ lostIn n x).
  { intros e F x I. destruct (IH _ F x I) as [J|J]; [left; exact J|right; eapply lost_part; eassumption]. }
  clear IH.
  assert (HERE : forall x, lostAt n x -> lostIn n x) by (intros x L; exists n; split; [constructor|exact L]).
  assert (ME : forall l a, In a l -> In (E a) (map E l)) by (intros; apply in_map; assumption).
  assert (MS : forall l a, In a l -> In (S a) (map S l)) by (intros; apply in_map; assumption).
  destruct n as [[]|[]]; intros x; cbn [NamedModel.walkE NamedModel.walkS writtenE written]; cbn [In];
    rewrite ?in_app_iff; cbn [In]; rewrite ?in_app_iff; intros G; cbn [children] in *; cbn [lostAt] in HERE; rewrite ?in_classes;
    repeat match goal with G : _ \/ _ |- _ => destruct G as [G|G] | G : False |- _ => destruct G end;
    try (subst x; cbn; rewrite ?in_app_iff; auto 8; fail);
    try (right; apply HERE; cbn [written]; rewrite ?in_app_iff; auto; fail);
    try (apply ref_used in G; auto 8; fail);
    try match goal with
    | G : In _ (flat_map writtenE _) |- _ => apply LE in G; [destruct G as [G|G]; auto 8|intros; rewrite ?in_app_iff; cbn [In]; rewrite ?in_app_iff; auto 8]
    | G : In _ (flat_map written _) |- _ => apply LS in G; [destruct G as [G|G]; auto 8|intros; rewrite ?in_app_iff; cbn [In]; auto 8]
    | G : In _ (writtenE _) |- _ => apply IE in G; [destruct G as [G|G]; auto 8|cbn [In]; rewrite ?in_app_iff; cbn [In]; auto 8]
    | G : In _ (written _) |- _ => apply IS in G; [destruct G as [G|G]; auto 8|cbn [In]; rewrite ?in_app_iff; cbn [In]; auto 8]
    end; auto 8.
  all: try (rewrite in_classes; auto 8).
Qed.

(** Statements outside of closures. *)
Lemma lost_expr n e x : In (E e) (children (S n)) -> (forall v, n <> StaticVar v) -> lostIn (E e) x -> Missed n x.
Proof.
  intros I _ ([e'|s] & W & L).
  - destruct e'; cbn in L; try contradiction. subst x. eapply M_call. eapply W_part; eassumption.
  - destruct (within_closure _ _ W e s eq_refl eq_refl) as (h & d & r & b & W1 & W2).
    assert (C : InClosure n s) by (exists h, d, r, b; split; [eapply W_part; eassumption|exact W2]).
    destruct s; cbn [lostAt] in L; try contradiction.
    + unfold asClasses in L. apply in_map_iff in L. destruct L as (c & <- & J). eapply M_catch; eassumption.
    + unfold asClasses in L. rewrite <- map_app in L. apply in_map_iff in L. destruct L as (c & <- & J). eapply M_class; eassumption.
    + eapply M_traits; eassumption.
    + eapply M_use; eassumption.
Qed.
Lemma missed_part n k x : In (S k) (children (S n)) -> Missed k x -> Missed n x.
Proof.
  intros I H. assert (W : forall m, Within (S k) m -> Within (S n) m) by (intros m K; eapply W_part; eassumption).
  assert (C : forall s, InClosure k s -> InClosure n s) by (intros s (h & d & r & b & K & L); exists h, d, r, b; split; [apply W; exact K|exact L]).
  destruct H.
  - eapply M_call. apply W. eassumption.
  - eapply M_static; [|eassumption]. eapply D_part; eassumption.
  - eapply M_catch; [apply C|]; eassumption.
  - eapply M_class; [apply C|]; eassumption.
  - eapply M_traits; [apply C|]; eassumption.
  - eapply M_use; [apply C|]; eassumption.
Qed.
Definition foundS (n : node) : Prop := match n with E _ => True | S s => forall x, In x (written s) -> In (asUse x) (walk s) \/ Missed s x end.
Lemma found_all n : foundS n.
Proof.
  induction n as [n IH] using node_induction. rewrite Forall_forall in IH. destruct n as [e|n]; [exact I|].
  assert (IE : forall e, In (E e) (children (S n)) -> (forall v, n <> StaticVar v) -> forall x, In x (writtenE e) -> In (asUse x) (walkE e) \/ Missed n x).
  { intros e F N x I. destruct (found_names (E e) x I) as [J|J]; [left; exact J|right; eapply lost_expr; eassumption]. }
  assert (LE : forall l, (forall a, In a l -> In (E a) (children (S n))) -> (forall v, n <> StaticVar v) -> forall x, In x (flat_map writtenE l) -> In (asUse x) (flat_map walkE l) \/ Missed n x).
  { intros l F N x I. apply in_flat_map in I. destruct I as (a & I & J). destruct (IE a (F a I) N x J) as [K|K]; [left|right; exact K].
    apply in_flat_map. exists a. split; assumption. }
  assert (IS : forall k, In (S k) (children (S n)) -> forall x, In x (written k) -> In (asUse x) (walk k) \/ Missed n x).
  { intros k F x I. destruct (IH _ F x I) as [J|J]; [left; exact J|right; eapply missed_part; eassumption]. }
  assert (LS : forall l, (forall a, In a l -> In (S a) (children (S n))) -> forall x, In x (flat_map written l) -> In (asUse x) (flat_map walk l) \/ Missed n x).
  { intros l F x I. apply in_flat_map in I. destruct I as (a & I & J). destruct (IS a (F a I) x J) as [K|K]; [left|right; exact K].
    apply in_flat_map. exists a. split; assumption. }
  clear IH.
  assert (ME : forall l a, In a l -> In (E a) (map E l)) by (intros; apply in_map; assumption).
  assert (MS : forall l a, In a l -> In (S a) (map S l)) by (intros; apply in_map; assumption).
  destruct n; intros x; cbn [NamedModel.walk written]; try destruct isVar; rewrite ?in_app_iff; intros G; cbn [children] in *;
    try (right; eapply M_static; [constructor|exact G]; fail);
    repeat match goal with G : _ \/ _ |- _ => destruct G as [G|G] | G : False |- _ => destruct G end; rewrite ?in_classes;
    try match goal with
    | G : In _ (flat_map writtenE _) |- _ => apply LE in G; [destruct G as [G|G]; auto 8|intros; rewrite ?in_app_iff; cbn [In]; rewrite ?in_app_iff; auto 8|discriminate]
    | G : In _ (flat_map written _) |- _ => apply LS in G; [destruct G as [G|G]; auto 8|intros; rewrite ?in_app_iff; cbn [In]; auto 8]
    | G : In _ (writtenE _) |- _ => apply IE in G; [destruct G as [G|G]; auto 8|cbn [In]; rewrite ?in_app_iff; cbn [In]; auto 8|discriminate]
    | G : In _ (written _) |- _ => apply IS in G; [destruct G as [G|G]; auto 8|cbn [In]; rewrite ?in_app_iff; cbn [In]; auto 8]
    end; auto 8.
  - (* imports *) left. right. left. apply in_flat_map in G. destruct G as (i & I & J). apply in_flat_map. exists i. split; [exact I|].
    unfold import. apply in_app_iff. apply in_app_iff in J. destruct J as [J|[<-|[]]]; [left; apply in_classes; exact J|right; left; reflexivity].
  - left. apply in_map_iff. exists x. split; [reflexivity|exact G].
Qed.
End Found.
