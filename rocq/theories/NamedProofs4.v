From Coq Require Import List Bool Arith Lia.
From Verif Require Import NamedModel NamedSpec NamedProofs NamedProofs2 NamedProofs3.
Import ListNotations.
Open Scope nat_scope.

(** Null pointers come from [static] in front of a member behind new or instanceof. *)
Definition staticNew (n : node) : Prop := (exists i a, Within n (E (NewStatic None i a))) \/ (exists e i, Within n (E (InstanceOfStatic e None i))).
Lemma static_part n k : In k (children n) -> staticNew k -> staticNew n.
Proof.
  intros I [(i & a & W)|(e & i & W)]; [left; exists i, a|right; exists e, i]; (eapply W_part; eassumption).
Qed.

Ltac side := cbn [children]; rewrite ?in_app_iff; cbn [In]; rewrite ?in_app_iff; cbn [In]; auto 8.
Section Nulls.
Variable known : nat -> bool.
Local Notation walkE := (walkE known).
Local Notation walkS := (walkS known).
Local Notation walkV := (walkV known).
Local Notation walk := (walk known).
Definition nullN (n : node) : Prop :=
  match n with
  | E e => (In Null (walkE e) -> staticNew n) /\ (In Null (walkV e) -> staticNew n)
  | S s => (In Null (walkS s) -> staticNew n) /\ (In Null (walk s) -> staticNew n)
  end.
Lemma null_classes l : ~ In Null (classes l).
Proof. unfold classes. rewrite in_map_iff. intros (p & H & _). discriminate H. Qed.
Lemma null_import l : ~ In Null (flat_map import l).
Proof. rewrite in_flat_map. intros (i & _ & H). unfold import in H. apply in_app_iff in H. destruct H as [H|[H|[]]]; [exact (null_classes _ H)|discriminate H]. Qed.
Lemma null_again c : ~ In Null (again c).
Proof. destruct c; cbn; [intros [H|[]]; discriminate H|auto]. Qed.
Lemma null_uses l : ~ In Null (map (fun x : nat * kind => Used (fst x) (snd x)) l).
Proof. rewrite in_map_iff. intros (p & H & _). discriminate H. Qed.
Lemma nulls n : nullN n.
Proof.
  induction n as [n IH] using node_induction. rewrite Forall_forall in IH.
  assert (FE : forall e, In (E e) (children n) -> In Null (walkE e) -> staticNew n) by (intros e I J; exact (static_part _ _ I (proj1 (IH _ I) J))).
  assert (FV : forall e, In (E e) (children n) -> In Null (walkV e) -> staticNew n) by (intros e I J; exact (static_part _ _ I (proj2 (IH _ I) J))).
  assert (FS : forall e, In (S e) (children n) -> In Null (walkS e) -> staticNew n) by (intros e I J; exact (static_part _ _ I (proj1 (IH _ I) J))).
  assert (FW : forall e, In (S e) (children n) -> In Null (walk e) -> staticNew n) by (intros e I J; exact (static_part _ _ I (proj2 (IH _ I) J))).
  assert (LE : forall l, (forall a, In a l -> In (E a) (children n)) -> In Null (flat_map walkE l) -> staticNew n) by (intros l F J; apply in_flat_map in J; destruct J as (a & I & J); eauto).
  assert (LV : forall l, (forall a, In a l -> In (E a) (children n)) -> In Null (flat_map walkV l) -> staticNew n) by (intros l F J; apply in_flat_map in J; destruct J as (a & I & J); eauto).
  assert (LS : forall l, (forall a, In a l -> In (S a) (children n)) -> In Null (flat_map walkS l) -> staticNew n) by (intros l F J; apply in_flat_map in J; destruct J as (a & I & J); eauto).
  assert (LW : forall l, (forall a, In a l -> In (S a) (children n)) -> In Null (flat_map walk l) -> staticNew n) by (intros l F J; apply in_flat_map in J; destruct J as (a & I & J); eauto).
  clear IH.
  assert (ME : forall l a, In a l -> In (E a) (map E l)) by (intros; apply in_map; assumption).
  assert (MS : forall l a, In a l -> In (S a) (map S l)) by (intros; apply in_map; assumption).
  destruct n as [[]|[]]; split; cbn [NamedModel.walkE NamedModel.walkV NamedModel.walkS NamedModel.walk]; try destruct isVar; try destruct (known c); cbn [app];
    repeat (cbn [In]; rewrite ?in_app_iff); intros G;
    repeat match goal with
    | G : _ \/ _ |- _ => destruct G as [G|G]
    | G : False |- _ => destruct G
    | G : Used _ _ = Null |- _ => discriminate G
    | G : In Null (classes _) |- _ => destruct (null_classes _ G)
    | G : In Null (flat_map import _) |- _ => destruct (null_import _ G)
    | G : In Null (again _) |- _ => destruct (null_again _ G)
    | G : In Null (map (fun _ => Used _ _) _) |- _ => destruct (null_uses _ G)
    | G : In Null [] |- _ => destruct G
    end;
    try (match goal with c : option nat |- _ => destruct c end);
    try (match goal with G : In Null (reference (Some _)) |- _ => destruct G as [G|[]]; discriminate G end);
    try (left; do 2 eexists; constructor); try (right; do 2 eexists; constructor).
  all: try match goal with
    | G : In Null (flat_map _ ?l) |- _ => first [apply LE in G; [exact G|]|apply LV in G; [exact G|]|apply LS in G; [exact G|]|apply LW in G; [exact G|]]; intros; side
    | G : In Null _ |- _ => first [apply FE in G; [exact G|]|apply FV in G; [exact G|]|apply FS in G; [exact G|]|apply FW in G; [exact G|]]; side
    end.
Qed.
End Nulls.
