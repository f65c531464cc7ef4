(** C81: the members offered behind -> and :: for a value that may be of several classes. *)
From Coq Require Import List Bool Arith NArith.
From Verif Require Import PhpTypes MergeModel MergeSpec MemModel MemSpec MemProofs.
Import ListNotations.
Open Scope nat_scope.

(** For a variable that was assigned plain values, in any order and number: exactly the members of the classes assigned. *)
Theorem C81_offered_partial : forall ctxOf stat ts t m, Forall plain ts -> variableType ts = Some t ->
  (forall d c, In (Struct d) ts -> ctxOf d = Some c -> coherent c) ->
  (In m (offered ctxOf stat t) <-> usable stat m /\ exists d c, In (Struct d) ts /\ ctxOf d = Some c /\ has c m).
Proof. exact assigned. Qed.
Print Assumptions C81_offered_partial.

(** Every member an access reaches is offered. *)
Theorem C81_reached_partial : forall ctxOf stat ts t d c n m, Forall plain ts -> variableType ts = Some t ->
  (forall d c, In (Struct d) ts -> ctxOf d = Some c -> coherent c) ->
  In (Struct d) ts -> ctxOf d = Some c -> reaches c n m -> usable stat m -> In m (offered ctxOf stat t).
Proof.
  intros ctxOf stat ts t d c n m F E Hc I Ed R Us. apply (assigned ctxOf stat ts t m F E Hc). split; [exact Us|].
  exists d, c. split; [exact I|]. split; [exact Ed|]. exact (proj1 (reaches_has c n m R)).
Qed.
Print Assumptions C81_reached_partial.

(** A value of one class: every member once, also one inherited along several ways. *)
Theorem C81_once_partial : forall ctxOf stat d c, ctxOf d = Some c -> coherent c -> distinct c ->
  NoDup (map mid (offered ctxOf stat (Struct d))) /\ NoDup (map mid (offered ctxOf stat (Ref (Struct d)))).
Proof.
  intros ctxOf stat d c E Hc Hd. assert (K : NoDup (map mid (filter (fits stat) (snd (all c []))))).
  { generalize (all_once c Hd). induction (snd (all c [])) as [|m l IH]; cbn [filter map]; [auto|].
    intros N. inversion N as [|? ? X Y]; subst. destruct (fits stat m); [|now apply IH]. cbn [map]. constructor; [|now apply IH].
    intros Z. apply X. apply in_map_iff in Z. destruct Z as (y & Ey & Iy). apply filter_In in Iy. rewrite <- Ey. now apply in_map. }
  unfold offered, containers, targets. cbn [flat_map]. rewrite E. cbn [app flat_map]. rewrite app_nil_r. now split.
Qed.
Print Assumptions C81_once_partial.

(** A member hidden by one of the same name is offered as well. *)
Theorem C81_hidden_refuted : forall ctxOf d c i m m' stat, ctxOf d = Some c -> coherent c -> In m' (ownOf c) -> mname m' = mname m ->
  In i (impsOf c) -> In m (ownOf i) -> ~ In m (ownOf c) -> usable stat m ->
  In m (offered ctxOf stat (Struct d)) /\ ~ reaches c (mname m) m.
Proof. exact hidden. Qed.
Print Assumptions C81_hidden_refuted.

(** A member that two possible classes inherit is offered twice. *)
Theorem C81_twice_refuted : forall ctxOf a b ca cb m stat, a <> b -> ctxOf a = Some ca -> ctxOf b = Some cb -> coherent ca -> coherent cb ->
  has ca m -> has cb m -> usable stat m ->
  exists t, variableType [Struct a; Struct b] = Some t /\ ~ NoDup (map mid (offered ctxOf stat t)).
Proof. exact twice. Qed.
Print Assumptions C81_twice_refuted.

(** A reference, such as a parameter passed by reference, to which a value of another class is assigned: nothing is offered. *)
Theorem C81_reference_refuted : forall ctxOf a b, a <> b ->
  exists t, variableType [Ref (Struct a); Struct b] = Some t /\ forall stat, offered ctxOf stat t = [].
Proof. exact reference. Qed.
Print Assumptions C81_reference_refuted.

(** A value of several possible classes, such as the result of a function, assigned after one of a single class does not count;
    assigned before it does. *)
Theorem C81_order_refuted : forall ctxOf a l, (forall d, In (Struct d) l -> d <> a) -> exists t u,
  variableType [Struct a; Unsure l] = Some t /\ variableType [Unsure l; Struct a] = Some u /\
  (forall stat, offered ctxOf stat t = offered ctxOf stat (Struct a)) /\
  (forall stat, offered ctxOf stat u = offered ctxOf stat (Unsure l) ++ offered ctxOf stat (Struct a)).
Proof. exact order. Qed.
Print Assumptions C81_order_refuted.

(** ** interface I { function f(); }  class A implements I { function f(); static $s; }  class B extends A implements I { $p }
    class C extends A { function f() } *)
Definition kI : cls := Cls 1 [{| mname := 1; mstatic := false; mid := 1 |}] [].
Definition kA : cls := Cls 2 [{| mname := 1; mstatic := false; mid := 2 |}; {| mname := 2; mstatic := true; mid := 3 |}] [kI].
Definition kB : cls := Cls 3 [{| mname := 3; mstatic := false; mid := 4 |}] [kA; kI].
Definition kC : cls := Cls 4 [{| mname := 1; mstatic := false; mid := 5 |}] [kA].
Definition w (d : N) : option cls := match d with 1%N => Some kI | 2%N => Some kA | 3%N => Some kB | 4%N => Some kC | _ => None end.
Lemma above_I x : Above x kI -> x = kI.
Proof. intros A. inversion A as [|? ? ? I]; subst; [reflexivity|destruct I]. Qed.
Lemma above_A x : Above x kA -> x = kA \/ x = kI.
Proof. intros A. inversion A as [|? ? ? I B]; subst; [now left|]. right. destruct I as [<-|[]]. now apply above_I. Qed.
Lemma above_B x : Above x kB -> x = kB \/ x = kA \/ x = kI.
Proof. intros A. inversion A as [|? ? ? I B]; subst; [now left|]. right. destruct I as [<-|[<-|[]]]; [now apply above_A|right; now apply above_I]. Qed.
Lemma above_C x : Above x kC -> x = kC \/ x = kA \/ x = kI.
Proof. intros A. inversion A as [|? ? ? I B]; subst; [now left|]. right. destruct I as [<-|[]]. now apply above_A. Qed.
Lemma coherent_B : coherent kB.
Proof. intros x y A B E. destruct (above_B x A) as [->|[->| ->]], (above_B y B) as [->|[->| ->]]; try reflexivity; discriminate E. Qed.
Lemma coherent_C : coherent kC.
Proof. intros x y A B E. destruct (above_C x A) as [->|[->| ->]], (above_C y B) as [->|[->| ->]]; try reflexivity; discriminate E. Qed.
Lemma distinct_B : distinct kB.
Proof.
  split.
  - intros x A. destruct (above_B x A) as [->|[->| ->]]; cbn; repeat constructor; cbn; intuition discriminate.
  - intros x y a b A B I J E. destruct (above_B x A) as [->|[->| ->]], (above_B y B) as [->|[->| ->]]; try reflexivity; exfalso; cbn in I, J;
      repeat match goal with H : _ \/ _ |- _ => destruct H | H : False |- _ => destruct H end; subst; cbn in E; discriminate E.
Qed.
Example C81_case : let ts := [Integral KMixed; Struct 3; Integral KNull; Struct 4; Struct 3] in
  Forall plain ts /\ variableType ts = Some (Unsure [Struct 3; Integral KNull; Struct 4]) /\
  (forall d c, In (Struct d) ts -> w d = Some c -> coherent c) /\
  map mid (offered w false (Unsure [Struct 3; Integral KNull; Struct 4])) = [4; 2; 1; 5; 2; 1] /\
  map mid (offered w true (Struct 3)) = [3].
Proof.
  cbv zeta. split; [repeat constructor|]. split; [reflexivity|]. split; [|split; reflexivity].
  intros d c I E. cbn in I. destruct I as [I|[I|[I|[I|[I|[]]]]]]; try discriminate I; injection I as <-; injection E as <-; auto using coherent_B, coherent_C.
Qed.
Example C81_once_case : w 3 = Some kB /\ coherent kB /\ distinct kB /\ map mid (offered w false (Struct 3)) = [4; 2; 1].
Proof. split; [reflexivity|]. split; [exact coherent_B|]. split; [exact distinct_B|reflexivity]. Qed.
(** C overrides f: the f of A is offered too. *)
Example C81_hidden_case : let m := {| mname := 1; mstatic := false; mid := 2 |} in
  In m (offered w false (Struct 4)) /\ ~ reaches kC 1 m.
Proof.
  cbv zeta. apply (C81_hidden_refuted w 4 kC kA {| mname := 1; mstatic := false; mid := 2 |} {| mname := 1; mstatic := false; mid := 5 |} false);
    [reflexivity|exact coherent_C|now left|reflexivity|now left|now left| |split; [reflexivity|discriminate]].
  intros [I|[]]. discriminate I.
Qed.
Example C81_order_case : map mid (offered w false (Unsure [Struct 3; Unsure [Struct 4; Struct 1]])) = [4; 2; 1] /\
  map mid (offered w false (Unsure [Struct 4; Struct 1; Struct 3])) = [5; 2; 1; 1; 4; 2; 1].
Proof. split; reflexivity. Qed.
