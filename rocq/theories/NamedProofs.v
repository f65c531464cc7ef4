From Coq Require Import List Bool Arith Lia.
From Verif Require Import NamedModel NamedSpec.
Import ListNotations.
Open Scope nat_scope.


Definition listInd (P : node -> Prop) {A} (c : A -> node) (f : forall a, P (c a)) : forall l, Forall P (map c l) :=
  fix go l := match l with [] => Forall_nil P | a :: r => Forall_cons (c a) (f a) (go r) end.

Section Ind2.
Variable P : node -> Prop.
Hypothesis H : forall n, Forall P (children n) -> P n.
Fixpoint indE (e : ex) : P (E e)
with indS (s : st) : P (S s).
Proof.
  - apply H. destruct e; cbn [children]; repeat (apply Forall_app; split);
    repeat first [exact (listInd P E indE _)|apply Forall_cons; [first [exact (indE _)|exact (indS _)]|]|apply Forall_nil].
  - apply H. destruct s; cbn [children]; repeat (apply Forall_app; split);
    repeat first [exact (listInd P E indE _)|exact (listInd P S indS _)|apply Forall_app; split|apply Forall_cons; [first [exact (indE _)|exact (indS _)]|]|apply Forall_nil].
Qed.
Lemma node_induction n : P n.
Proof. destruct n; [apply indE|apply indS]. Qed.
End Ind2.

Section Names.
Variable known : nat -> bool.
Local Notation walkE := (walkE known).
Local Notation walkS := (walkS known).
Local Notation walkV := (walkV known).
Local Notation walk := (walk known).
Definition writtenN (n : node) : list (nat * kind) := match n with E e => writtenE e | S s => written s end.

Lemma in_classes x l : In (asUse x) (classes l) <-> In x (asClasses l).
Proof.
  unfold classes, asClasses, asUse. rewrite !in_map_iff. destruct x as [p k]. split.
  - intros (q & H & I). injection H as -> <-. exists p. split; [reflexivity|exact I].
  - intros (q & H & I). injection H as -> <-. exists p. split; [reflexivity|exact I].
Qed.
Lemma used_inj x y : asUse x = asUse y -> x = y.
Proof. destruct x, y. unfold asUse. cbn. intros H. injection H as -> ->. reflexivity. Qed.
Lemma in_flat {A} (P : A -> Prop) (f : A -> list event) (g : A -> list (nat * kind)) l : Forall P l ->
  (forall a x, P a -> In (asUse x) (f a) -> In x (g a)) -> forall x, In (asUse x) (flat_map f l) -> In x (flat_map g l).
Proof.
  intros F H x I. apply in_flat_map in I. destruct I as (a & I & J). apply in_flat_map. exists a. split; [exact I|].
  apply H; [exact (proj1 (Forall_forall _ _) F a I)|exact J].
Qed.
Lemma forall_map {A B} (P : B -> Prop) (f : A -> B) l : Forall P (map f l) -> Forall (fun a => P (f a)) l.
Proof. intros H. induction l; inversion H; constructor; auto. Qed.

(** ** Every use is of a name that is written *)
Definition onlyN (n : node) : Prop :=
  match n with
  | E e => (forall x, In (asUse x) (walkE e) -> In x (writtenE e)) /\ (forall x, In (asUse x) (walkV e) -> In x (writtenE e))
  | S s => (forall x, In (asUse x) (walkS s) -> In x (written s)) /\ (forall x, In (asUse x) (walk s) -> In x (written s))
  end.
Lemma in_ref x c : In (asUse x) (reference c) -> In x (optional c).
Proof. destruct c; cbn; [|intros [H|[]]; discriminate H]. intros [H|[]]. left. change (Used n Class) with (asUse (n, Class)) in H. exact (used_inj _ _ H). Qed.
Lemma in_again x c : In (asUse x) (again c) -> In x (optional c).
Proof. destruct c; cbn; [|intros []]. intros [H|[]]. left. change (Used n Class) with (asUse (n, Class)) in H. exact (used_inj _ _ H). Qed.
Lemma in_import x l : In (asUse x) (flat_map import l) -> In x (flat_map (fun i => asClasses (fst i) ++ [(snd i, Class)]) l).
Proof.
  rewrite !in_flat_map. intros (i & I & H). exists i. split; [exact I|]. unfold import in H. apply in_app_iff. apply in_app_iff in H.
  destruct H as [H|[H|[]]]; [left; apply in_classes; exact H|right; left]. change (Used (snd i) Class) with (asUse (snd i, Class)) in H. exact (used_inj _ _ H).
Qed.

Ltac forw IH := repeat match goal with
  | F : Forall _ (_ ++ _) |- _ => apply Forall_app in F; destruct F
  | F : Forall _ (_ :: _) |- _ => inversion_clear F
  | F : Forall _ (map _ _) |- _ => apply forall_map in F
  | F : Forall _ [] |- _ => clear F
  | F : _ /\ _ |- _ => destruct F
  end.
Lemma only_names n : onlyN n.
Proof.
  induction n as [n IH] using node_induction.
  assert (LE : forall l x, Forall (fun e => onlyN (E e)) l -> In (asUse x) (flat_map walkE l) -> In x (flat_map writtenE l)).
  { intros l x F. refine (in_flat _ _ _ l F _ x). intros a y [Ha _]. exact (Ha y). }
  assert (LV : forall l x, Forall (fun e => onlyN (E e)) l -> In (asUse x) (flat_map walkV l) -> In x (flat_map writtenE l)).
  { intros l x F. refine (in_flat _ _ _ l F _ x). intros a y [_ Ha]. exact (Ha y). }
  assert (LS : forall l x, Forall (fun e => onlyN (S e)) l -> In (asUse x) (flat_map walkS l) -> In x (flat_map written l)).
  { intros l x F. refine (in_flat _ _ _ l F _ x). intros a y [Ha _]. exact (Ha y). }
  assert (LW : forall l x, Forall (fun e => onlyN (S e)) l -> In (asUse x) (flat_map walk l) -> In x (flat_map written l)).
  { intros l x F. refine (in_flat _ _ _ l F _ x). intros a y [_ Ha]. exact (Ha y). }
  assert (U : forall x p k, asUse x = Used p k -> x = (p, k)).
  { intros [a b] p k. unfold asUse. cbn. intros H. injection H as -> ->. reflexivity. }
  destruct n as [[]|[]]; cbn [children] in IH; forw IH; split; intros x;
    cbn [NamedModel.walkE NamedModel.walkS NamedModel.walkV NamedModel.walk writtenE written]; cbn [In];
    try (destruct isVar); try (destruct (known c)); rewrite ?in_app_iff; cbn [In]; rewrite ?in_app_iff; cbn [In]; rewrite ?in_classes; intros G;
    repeat match goal with
    | G : _ \/ _ |- _ => destruct G as [G|G]
    | G : Used ?p ?k = asUse ?x |- _ => apply eq_sym, U in G; subst x
    | G : In (asUse _) (flat_map walkE _) |- _ => apply LE in G; [|assumption]
    | G : In (asUse _) (flat_map walkV _) |- _ => apply LV in G; [|assumption]
    | G : In (asUse _) (flat_map walkS _) |- _ => apply LS in G; [|assumption]
    | G : In (asUse _) (flat_map walk _) |- _ => apply LW in G; [|assumption]
    | G : In (asUse _) (reference _) |- _ => apply in_ref in G
    | G : In (asUse _) (again _) |- _ => apply in_again in G
    | G : In (asUse _) (flat_map import _) |- _ => apply in_import in G
    | G : False |- _ => destruct G
    | G : In (asUse _) [] |- _ => destruct G
    | G : onlyN (E _) |- _ => destruct G
    | G : onlyN (S _) |- _ => destruct G
    | G : In (asUse _) (map _ _) |- _ => apply in_map_iff in G; destruct G as ([] & G & ?); apply used_inj in G; subst x
    end; try (solve [auto 8]).
  all: try (match goal with |- _ => auto 8 end).
Qed.
End Names.
