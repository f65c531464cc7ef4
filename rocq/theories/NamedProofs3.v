From Coq Require Import List Bool Arith Lia.
From Verif Require Import NamedModel NamedSpec NamedProofs.
Import ListNotations.
Open Scope nat_scope.

Definition kind_dec (a b : kind) : {a = b} + {a <> b}.
Proof. decide equality. Defined.
Definition event_dec (a b : event) : {a = b} + {a <> b}.
Proof. decide equality; [apply kind_dec|apply Nat.eq_dec]. Defined.
(** How often a name is used. *)
Definition times (x : nat * kind) (l : list event) : nat := count_occ event_dec l (asUse x).
Definition noted (x : nat * kind) (l : list (nat * kind)) : nat := times x (map asUse l).
Lemma times_app x l m : times x (l ++ m) = times x l + times x m.
Proof. apply count_occ_app. Qed.
Lemma noted_app x l m : noted x (l ++ m) = noted x l + noted x m.
Proof. unfold noted. rewrite map_app. apply times_app. Qed.
Lemma noted_cons x a l : noted x (a :: l) = noted x [a] + noted x l.
Proof. apply (noted_app x [a] l). Qed.
Lemma times_cons x a l : times x (a :: l) = times x [a] + times x l.
Proof. apply (times_app x [a] l). Qed.
Lemma times_classes x l : times x (classes l) = noted x (asClasses l).
Proof. unfold noted, asClasses, classes. rewrite map_map. reflexivity. Qed.
Lemma times_one x a : times x [asUse a] = noted x [a].
Proof. reflexivity. Qed.
Lemma times_class x c k : times x [Used c k] = noted x [(c, k)].
Proof. reflexivity. Qed.
Lemma times_ref x c : times x (reference c) = noted x (optional c).
Proof. destruct c; [reflexivity|]. unfold times, noted, asUse. cbn. reflexivity. Qed.
Lemma times_flat {A} x (f : A -> list event) (g : A -> list (nat * kind)) l :
  (forall a, In a l -> times x (f a) <= noted x (g a)) -> times x (flat_map f l) <= noted x (flat_map g l).
Proof.
  induction l as [|a l IH]; intros H; [cbn; lia|]. cbn [flat_map]. rewrite times_app, noted_app.
  pose proof (H a (or_introl eq_refl)). assert (forall b, In b l -> times x (f b) <= noted x (g b)) by (intros; apply H; right; assumption).
  specialize (IH H1). lia.
Qed.
Lemma noted_flat {A} x (f g : A -> list (nat * kind)) l :
  (forall a, In a l -> noted x (f a) <= noted x (g a)) -> noted x (flat_map f l) <= noted x (flat_map g l).
Proof.
  induction l as [|a l IH]; intros H; [cbn; lia|]. cbn [flat_map]. rewrite !noted_app.
  pose proof (H a (or_introl eq_refl)). assert (forall b, In b l -> noted x (f b) <= noted x (g b)) by (intros; apply H; right; assumption).
  specialize (IH H1). lia.
Qed.

Section Once.
Variable known : nat -> bool.
Local Notation walkE := (walkE known).
Local Notation walkS := (walkS known).
Local Notation walkV := (walkV known).
Local Notation walk := (walk known).
(** Conditions on expressions. *)
Definition plain (n : node) : Prop :=
  (forall c i, Within n (E (StaticMember c i)) -> known c = true) /\
  (forall c i a, ~ Within n (E (NewStatic c i a))) /\
  (forall e c i, ~ Within n (E (InstanceOfStatic e c i))).
Lemma plain_part n k : plain n -> In k (children n) -> plain k.
Proof.
  intros (A & B & C) I. assert (W : forall m, Within k m -> Within n m) by (intros m K; eapply W_part; eassumption).
  split; [|split]; intros; [eapply A; apply W; eassumption|intros K; eapply B; apply W; exact K|intros K; eapply C; apply W; exact K].
Qed.
Definition onceN (n : node) : Prop := plain n -> forall x,
  match n with
  | E e => times x (walkE e) <= noted x (writtenE e) /\ times x (walkV e) <= noted x (nested e)
  | S s => times x (walkS s) <= noted x (written s)
  end.
Ltac counts :=
  repeat (rewrite ?times_app, ?noted_app, ?times_classes, ?times_ref;
          match goal with
          | |- context [times ?x (?a :: ?b :: ?l)] => rewrite (times_cons x a (b :: l))
          | |- context [noted ?x (?a :: ?b :: ?l)] => rewrite (noted_cons x a (b :: l))
          | |- context [times ?x (?a :: ?l)] => lazymatch l with [] => fail | _ => rewrite (times_cons x a l) end
          | |- context [noted ?x (?a :: ?l)] => lazymatch l with [] => fail | _ => rewrite (noted_cons x a l) end
          end);
  rewrite ?times_app, ?noted_app, ?times_classes, ?times_ref, ?times_class.
Ltac side := cbn [children]; rewrite ?in_app_iff; cbn [In]; rewrite ?in_app_iff; cbn [In]; auto 8.
Ltac fact T N := assert (T <= N) by (match goal with H : _ |- _ => apply H; intros; solve [side] end); generalize dependent T; intros.
Lemma once_names n : onceN n.
Proof.
  induction n as [n IH] using node_induction. rewrite Forall_forall in IH. intros P x.
  assert (FE : forall e, In (E e) (children n) -> times x (walkE e) <= noted x (writtenE e)) by (intros e I; exact (proj1 (IH _ I (plain_part _ _ P I) x))).
  assert (FV : forall e, In (E e) (children n) -> times x (walkV e) <= noted x (nested e)) by (intros e I; exact (proj2 (IH _ I (plain_part _ _ P I) x))).
  assert (FS : forall s, In (S s) (children n) -> times x (walkS s) <= noted x (written s)) by (intros e I; exact (IH _ I (plain_part _ _ P I) x)).
  assert (LE : forall l, (forall a, In a l -> In (E a) (children n)) -> times x (flat_map walkE l) <= noted x (flat_map writtenE l)) by (intros; apply times_flat; auto).
  assert (LV : forall l, (forall a, In a l -> In (E a) (children n)) -> times x (flat_map walkV l) <= noted x (flat_map nested l)) by (intros; apply times_flat; auto).
  assert (LS : forall l, (forall a, In a l -> In (S a) (children n)) -> times x (flat_map walkS l) <= noted x (flat_map written l)) by (intros; apply times_flat; auto).
  clear IH.
  assert (ME : forall l a, In a l -> In (E a) (map E l)) by (intros; apply in_map; assumption).
  assert (MS : forall l a, In a l -> In (S a) (map S l)) by (intros; apply in_map; assumption).
  destruct P as (PM & PN & PI).
  destruct n as [[]|[]].
  all: try (exfalso; eapply PN; constructor); try (exfalso; eapply PI; constructor).
  all: try split; cbn [NamedModel.walkE NamedModel.walkV NamedModel.walkS writtenE nested written]; try (cbn; lia).
  all: try match goal with |- context [known ?c] => rewrite (PM c _ (W_here _)); cbn [app] end.
  all: try fold walkE; try fold walkS.
  all: counts.
  all: repeat match goal with
       | |- context [times ?y (flat_map walkE ?l)] => fact (times y (flat_map walkE l)) (noted y (flat_map writtenE l))
       | |- context [times ?y (flat_map walkV ?l)] => fact (times y (flat_map walkV l)) (noted y (flat_map nested l))
       | |- context [times ?y (flat_map walkS ?l)] => fact (times y (flat_map walkS l)) (noted y (flat_map written l))
       | |- context [times ?y (walkE ?l)] => fact (times y (walkE l)) (noted y (writtenE l))
       | |- context [times ?y (walkV ?l)] => fact (times y (walkV l)) (noted y (nested l))
       | |- context [times ?y (walkS ?l)] => fact (times y (walkS l)) (noted y (written l))
       end.
  all: lia.
Qed.
Lemma member_part known' n k : single known' n -> In (S k) (children (S n)) -> single known' k.
Proof.
  intros [A B C D F G] I. assert (W : forall m, Within (S k) m -> Within (S n) m) by (intros m K; eapply W_part; eassumption).
  constructor; intros.
  - eapply A. apply W. eassumption.
  - intros K. eapply B. apply W. exact K.
  - intros K. eapply C. apply W. exact K.
  - eapply D. eapply D_part; eassumption.
  - eapply F. eapply D_part; eassumption.
  - eapply G. eapply D_part; eassumption.
Qed.
Lemma single_expr n e : single known n -> In (E e) (children (S n)) -> plain (E e).
Proof.
  intros [A B C _ _ _] I. assert (W : forall m, Within (E e) m -> Within (S n) m) by (intros m K; eapply W_part; eassumption).
  split; [|split]; intros; [eapply A; apply W; eassumption|intros K; eapply B; apply W; exact K|intros K; eapply C; apply W; exact K].
Qed.
Definition onceS (n : node) : Prop := match n with E _ => True | S s => single known s -> forall x, times x (walk s) <= noted x (written s) end.
Lemma times_uses x l : times x (map (fun y => Used (fst y) (snd y)) l) = noted x l.
Proof. reflexivity. Qed.
Lemma once_all n : onceS n.
Proof.
  induction n as [n IH] using node_induction. rewrite Forall_forall in IH. destruct n as [e|n]; [exact I|]. intros P x.
  assert (FE : forall e, In (E e) (children (S n)) -> times x (walkE e) <= noted x (writtenE e)) by (intros e I; exact (proj1 (once_names (E e) (single_expr _ _ P I) x))).
  assert (FV : forall e, In (E e) (children (S n)) -> times x (walkV e) <= noted x (nested e)) by (intros e I; exact (proj2 (once_names (E e) (single_expr _ _ P I) x))).
  assert (FS : forall s, In (S s) (children (S n)) -> times x (walk s) <= noted x (written s)) by (intros e I; exact (IH _ I (member_part _ _ _ P I) x)).
  assert (LE : forall l, (forall a, In a l -> In (E a) (children (S n))) -> times x (flat_map walkE l) <= noted x (flat_map writtenE l)) by (intros; apply times_flat; auto).
  assert (LV : forall l, (forall a, In a l -> In (E a) (children (S n))) -> times x (flat_map walkV l) <= noted x (flat_map nested l)) by (intros; apply times_flat; auto).
  assert (LS : forall l, (forall a, In a l -> In (S a) (children (S n))) -> times x (flat_map walk l) <= noted x (flat_map written l)) by (intros; apply times_flat; auto).
  clear IH.
  assert (ME : forall l a, In a l -> In (E a) (map E l)) by (intros; apply in_map; assumption).
  assert (MS : forall l a, In a l -> In (S a) (map S l)) by (intros; apply in_map; assumption).
  destruct P as [_ _ _ PF PU PT].
  destruct n; cbn [NamedModel.walk written]; try (cbn; lia).
  all: try (pose proof (PU _ (D_here _)) as Q1).
  all: try (pose proof (PT _ _ (D_here _)) as Q2; subst imports; cbn [flat_map]; rewrite !app_nil_r).
  all: try (destruct (PF _ _ _ _ (D_here _)) as [Q3 Q4]; destruct isVar; [specialize (Q4 eq_refl)|clear Q4]; cbn [app]).
  all: rewrite ?times_uses; counts.
  all: repeat match goal with
       | |- context [times ?y (flat_map walkE ?l)] => fact (times y (flat_map walkE l)) (noted y (flat_map writtenE l))
       | |- context [times ?y (flat_map walkV ?l)] => fact (times y (flat_map walkV l)) (noted y (flat_map nested l))
       | |- context [times ?y (flat_map walk ?l)] => fact (times y (flat_map walk l)) (noted y (flat_map written l))
       | |- context [times ?y (walkE ?l)] => fact (times y (walkE l)) (noted y (writtenE l))
       | |- context [times ?y (walkV ?l)] => fact (times y (walkV l)) (noted y (nested l))
       | |- context [times ?y (walk ?l)] => fact (times y (walk l)) (noted y (written l))
       end.
  all: try lia.
  all: rewrite ?Q1, ?Q3, ?Q4 in *; change (noted x []) with 0 in *; try lia.
Qed.
End Once.
