(** C75: every class, function and constant named becomes a use, once. *)
From Coq Require Import List Bool Arith Lia.
From Verif Require Import NamedModel NamedSpec NamedProofs5.
Import ListNotations.
Open Scope nat_scope.

(** Every use is of a name that is written there. *)
Theorem C75_only : forall known n x, In (asUse x) (walk known n) -> In x (written n).
Proof. exact walk_only. Qed.
Print Assumptions C75_only.
(** Every name written is used, but for those listed in [Missed]. *)
Theorem C75_found_partial : forall known n x, In x (written n) -> ~ Missed n x -> In (asUse x) (walk known n).
Proof. exact walk_found. Qed.
Print Assumptions C75_found_partial.
(** And once, but for the places listed in [single]. *)
Theorem C75_once_partial : forall known n, NoDup (written n) -> single known n -> NoDup (walk known n).
Proof. exact walk_once. Qed.
Print Assumptions C75_once_partial.
(** No null pointer is followed, but for a static in front of a member behind new or instanceof. *)
Theorem C75_null_partial : forall known n, In Null (walk known n) -> exists m, Within (S n) (E m) /\
  ((exists i a, m = NewStatic None i a) \/ (exists e i, m = InstanceOfStatic e None i)).
Proof. exact walk_null. Qed.
Print Assumptions C75_null_partial.

(** ** Where the code goes wrong *)
Definition all (_ : nat) := true.
(** class { use T { T::f as g; } }: the T in front of f is used twice. *)
Theorem C75_alias_refuted : walk all (ClassDecl [] [] [Traits [1] [([], 2)]]) = [Used 1 Class; Used 2 Class; Used 2 Class].
Proof. reflexivity. Qed.
Print Assumptions C75_alias_refuted.
(** foreach ($a as $b[f()]) {}, foreach ($a[f()] as $b) {} and unset($a[f()]); f is used twice. *)
Theorem C75_foreach_refuted :
  walk all (Foreach (Expr (Sub [])) false [Sub [Expr (Call 1 [])]] (Seq [])) = [Used 1 Function; Used 1 Function] /\
  walk all (Foreach (Sub [Expr (Call 1 [])]) true [Sub []] (Seq [])) = [Used 1 Function; Used 1 Function] /\
  walk all (Unset [Sub [Expr (Call 1 [])]]) = [Used 1 Function; Used 1 Function].
Proof. repeat split. Qed.
Print Assumptions C75_foreach_refuted.
(** new C::$x and $a instanceof C::$x: C is used twice; with static for C, a null pointer is followed. *)
Theorem C75_new_refuted :
  walk all (Do (NewStatic (Some 1) [] [])) = [Used 1 Class; Used 1 Class] /\
  walk all (Do (InstanceOfStatic (Sub []) (Some 1) [])) = [Used 1 Class; Used 1 Class] /\
  walk all (Do (NewStatic None [] [])) = [Null] /\ walk all (Do (InstanceOfStatic (Sub []) None [])) = [Null].
Proof. repeat split. Qed.
Print Assumptions C75_new_refuted.
(** C::$x: a class that is not known is used twice, and so reported twice. *)
Theorem C75_member_refuted : walk (fun _ => false) (Do (StaticMember 1 [])) = [Used 1 Class; Used 1 Class].
Proof. reflexivity. Qed.
Print Assumptions C75_member_refuted.
(** C::$f(), and static $a = C::X; in a function: C is no use. *)
Theorem C75_lost_refuted : walk all (Do (StaticCallVar 1 [] [])) = [] /\ walk all (StaticVar (ClassConst 1)) = [].
Proof. split; reflexivity. Qed.
Print Assumptions C75_lost_refuted.
(** In a closure the classes that are caught, extended, implemented and used as traits are no uses; the same statements
    outside of it make them so. *)
Theorem C75_closure_refuted : let body := Seq [Catch [1] (Seq []); ClassDecl [2] [3] [Traits [4] []]] in
  walk all (Do (Closure [] [] [] body)) = [] /\ walk all body = [Used 1 Class; Used 2 Class; Used 3 Class; Used 4 Class].
Proof. split; reflexivity. Qed.
Print Assumptions C75_closure_refuted.
(** A static variable in a closure, though, is read. *)
Theorem C75_closure_static : walk all (Do (Closure [] [] [] (StaticVar (ClassConst 1)))) = [Used 1 Class].
Proof. reflexivity. Qed.
Print Assumptions C75_closure_static.

(** ** Cases *)
(** class C extends A { function f(B $b = X) : D { foreach (g(new E) as $v) { try {} catch (F $e) { return function(G $g) { return H::h(I::J); }; } } } } *)
Definition example : st :=
  ClassDecl [1] [] [Method [2] [Const 3] [4] (Foreach (Expr (Call 5 [New 6 []])) false [Sub []]
    (Seq [Seq []; Catch [7] (Seq [Do (Expr (Closure [8] [] [] (Seq [Do (StaticCall 9 [ClassConst 10])])))])]))].
Example C75_example_walk : walk all example =
  [Used 1 Class; Used 2 Class; Used 3 Constant; Used 4 Class; Used 6 Class; Used 5 Function; Used 7 Class; Used 10 Class; Used 9 Class; Used 8 Class].
Proof. reflexivity. Qed.
Ltac part I := cbn in I; repeat (destruct I as [I|I]; [|]); try contradiction; try discriminate I.
Ltac within :=
  repeat match goal with
  | H : Within ?n ?m |- _ => apply within_inv in H; destruct H as [H|(?k & ?I & H)];
      [try discriminate H; try (injection H as; subst)
      |match goal with I : In ?k _ |- _ => part I; subst k end]
  | H : Direct ?n ?m |- _ => apply direct_inv in H; destruct H as [H|(?k & ?I & H)];
      [try discriminate H; try (injection H as; subst)
      |match goal with I : In (S ?k) _ |- _ => part I; injection I as I; subst k end]
  end.
Example C75_example_single : NoDup (written example) /\ single all example.
Proof.
  split.
  - repeat (constructor; [cbn; intuition discriminate|]). constructor.
  - constructor; unfold example; intros; try intros ?; within; try reflexivity; try (split; [reflexivity|intros; discriminate]).
Qed.
Example C75_example_found : In (9, Class) (written example) /\ ~ Missed example (9, Class).
Proof.
  split; [cbn; tauto|]. unfold example. intros M. inversion M as [c i a W|v x W I|cs b c W I|e i l c W I|cs im x W I|l x W I]; clear M; subst;
    try (destruct W as (h & d & r & b' & W & W')); within.
Qed.
