(** C72: variables are connected to their declarations, and undeclared variables are marked. *)
From Coq Require Import List Bool Arith Lia.
From Verif Require Import PhpTypes MergeModel VarModel VarSpec OccModel OccSpec OccProofs6.
Import ListNotations.
Open Scope nat_scope.

(** A variable is marked as undeclared only where it is neither a parameter nor given a value, at this place or before
    in its scope, and is no superglobal. *)
Theorem C72_unknown_partial : forall T F isSuper home V G n s x p, proper V G n s -> x <> this ->
  In {| up := p; ux := x; ut := Unknown |} (usesOf T F isSuper home n s) ->
  exists b D A m, ScopeIn s n b D A m /\ Occurs b x p /\ (forall q, D x q -> p < q) /\
    forall e, ~ Super isSuper (topOf (visit T F n s)) x p e.
Proof. intros T F isSuper home V G n s x p HP. exact (uses_unknown T F isSuper home V G n s HP x p). Qed.
Print Assumptions C72_unknown_partial.

(** .. and all such variables are marked, except in an index on the left of [=]. *)
Theorem C72_marked_partial : forall T F isSuper home V G n s b D A m x p, proper V G n s -> ScopeIn s n b D A m -> x <> this ->
  Occurs b x p -> ~ Hidden b x p -> (forall q, D x q -> p < q) -> (forall e, ~ Super isSuper (topOf (visit T F n s)) x p e) ->
  In {| up := p; ux := x; ut := Unknown |} (usesOf T F isSuper home n s).
Proof. intros T F isSuper home V G n s b D A m x p HP. exact (uses_marked T F isSuper home V G n s HP b D A m x p). Qed.
Print Assumptions C72_marked_partial.

(** A use is connected to a declaration with the name written there: one of the scope, made where the variable is a
    parameter or given a value, before the use; or else a superglobal variable; the variable in a [global] statement to
    a variable of the file. *)
Theorem C72_declaration_partial : forall T F isSuper home V G n s x p e, proper V G n s -> x <> this ->
  In {| up := p; ux := x; ut := Declared e |} (usesOf T F isSuper home n s) ->
  en e = x /\ exists b D A m, ScopeIn s n b D A m /\
    ((Occurs b x p /\ D x (ep e) /\ ep e <= p /\ (~ A x -> ep e < p)) \/
     (Occurs b x p /\ (forall q, D x q -> p < q) /\ Super isSuper (topOf (visit T F n s)) x p e) \/
     (GivesAt b x p ByGlobal /\ In e (own (topOf (visit T F n s)) ++ imps (topOf (visit T F n s))) /\ isVar e = true)).
Proof. intros T F isSuper home V G n s x p e HP. exact (uses_declared T F isSuper home V G n s HP x p e). Qed.
Print Assumptions C72_declaration_partial.

(** A variable given a value before is connected to a declaration before, unless it is given a value again at this very
    place, or stands for a variable declared elsewhere. *)
Theorem C72_connected_partial : forall T F isSuper home V G n s b D A m x p q, proper V G n s -> ScopeIn s n b D A m -> x <> this ->
  Occurs b x p -> q < p -> D x q -> ~ D x p -> ~ A x ->
  exists e, In {| up := p; ux := x; ut := Declared e |} (usesOf T F isSuper home n s) /\ en e = x /\ D x (ep e) /\ ep e < p.
Proof. intros T F isSuper home V G n s b D A m x p q HP. exact (uses_connected T F isSuper home V G n s HP b D A m x p q). Qed.
Print Assumptions C72_connected_partial.

(** No occurrence gets lost: where a variable is known, it is a use of a declaration before, or is a declaration. *)
Theorem C72_covered_partial : forall T F isSuper home V G n s b D A m x p, proper V G n s -> ScopeIn s n b D A m -> x <> this ->
  Occurs b x p -> (exists q, q <= p /\ D x q) -> ~ A x ->
  (exists e, In {| up := p; ux := x; ut := Declared e |} (usesOf T F isSuper home n s) /\ en e = x /\ ep e < p) \/
  (exists e c, In c (cur (visit T F n s) :: closed (visit T F n s)) /\ In e (own c ++ imps c) /\ en e = x /\ ep e = p).
Proof. intros T F isSuper home V G n s b D A m x p HP. exact (uses_covered T F isSuper home V G n s HP b D A m x p). Qed.
Print Assumptions C72_covered_partial.

(** [$this] is the class in the body of a method, and only there; in a function, even one in a method, it is marked. *)
Theorem C72_this_partial : forall T F isSuper home V G n s b D A m p, proper V G n s -> ScopeIn s n b D A m -> Occurs b this p ->
  (forall e, ~ Super isSuper (topOf (visit T F n s)) this p e) ->
  In {| up := p; ux := this; ut := if m then TheClass else Unknown |} (usesOf T F isSuper home n s).
Proof. intros T F isSuper home V G n s b D A m p HP. exact (uses_this T F isSuper home V G n s HP b D A m p). Qed.
Print Assumptions C72_this_partial.
Theorem C72_class_partial : forall T F isSuper home V G n s x p, proper V G n s ->
  In {| up := p; ux := x; ut := TheClass |} (usesOf T F isSuper home n s) -> x = this /\ inClass s = true /\ Occurs n x p.
Proof. intros T F isSuper home V G n s x p HP. exact (uses_class T F isSuper home V G n s HP x p). Qed.
Print Assumptions C72_class_partial.

(** ** Cases *)
Definition v (p x : nat) : nd := Var (BName p x false) [] [].
Definition start (l : list entry) : st :=
  {| fnd := fresh; cft := None; heap := map (fun _ => Integral KInt) l; cur := {| sk := KTop; own := []; imps := l |}; outer := []; last := Integral KMixed; closed := []; probs := [] |}.
Definition int (s : st) (n : nd) : ty := Integral KInt.
Definition none (i : nat) : bool := false.

Ltac gives H := inversion H; clear H; subst; cbn in *.
Ltac crush := repeat match goal with
  | H : False |- _ => destruct H
  | H : _ \/ _ |- _ => destruct H; subst; cbn in *
  | H : exists _, _ |- _ => destruct H
  | H : _ /\ _ |- _ => destruct H
  | H : _ = _ |- _ => discriminate H
  | H : (_, _, _) = (_, _, _) |- _ => injection H as <- <- <-
  | H : _ ++ [_] = _ |- _ => destruct (app_eq_unit _ _ H) as [[-> ?]|[-> ?]]; discriminate
  | H : Part _ _ |- _ => gives H
  | H : TargetAt _ _ _ |- _ => gives H
  | H : IsVarAt _ _ _ |- _ => gives H
  | H : Indexed _ _ _ |- _ => gives H
  | H : GivesAt _ _ _ _ |- _ => gives H
  | H : Inside _ _ |- _ => gives H
  | H : Occurs _ _ _ |- _ => gives H
  | H : Hidden _ _ _ |- _ => gives H
  end; try discriminate; try lia.

(** [$x = 1; f($x, $u); function g($a) { $b = $a; echo $x; }] *)
Definition prog : nd := Op [
  Assign (v 10 1) Val;
  Op [v 20 1; v 30 2];
  Fun [(40, 3, Integral KInt)] [] (Op [Assign (v 50 4) (v 60 3); v 70 1])].
Lemma prog_proper : proper (fun _ => False) (fun _ => False) prog (start []).
Proof.
  split.
  - intros x (c & [] & _).
  - intros x [].
  - reflexivity.
  - reflexivity.
  - cbn. repeat split; try tauto; try (constructor; fail); discriminate.
  - cbn. tauto.
  - split; [intros x p H; exfalso; crush|]. intros ps us b H. crush; (split; [intros x p H; exfalso; crush|]); intros q x t y p h HI H; crush.
  - split; [reflexivity|]. intros e [].
Qed.
Example C72_case : proper (fun _ => False) (fun _ => False) prog (start []) /\
  map (fun e => (up e, ux e, match ut e with Declared d => Some (ep d) | _ => None end)) (usesOf int int none (fun i => i) prog (start [])) =
  [(20, 1, Some 10); (30, 2, None); (60, 3, Some 40); (70, 1, None)] /\
  (exists D A, ScopeIn (start []) prog prog D A false /\ Occurs prog 1 20 /\ D 1 10 /\ ~ D 1 20 /\ ~ A 1 /\ Occurs prog 2 30 /\ ~ Hidden prog 2 30 /\ forall q, D 2 q -> 30 < q) /\
  (exists b D A, ScopeIn (start []) prog b D A false /\ Occurs b 1 70 /\ ~ Hidden b 1 70 /\ forall q, D 1 q -> 70 < q).
Proof.
  split; [exact prog_proper|]. split; [reflexivity|]. split.
  - do 2 eexists. split; [apply In_piece|]. split; [|split; [|split; [|split; [|split; [|split]]]]].
    + apply (O_part _ (Op [v 20 1; v 30 2])); [constructor; cbn; tauto|]. apply (O_part _ (v 20 1)); [constructor; cbn; tauto|]. constructor.
    + right. exists ByAssignment. apply (GA_part _ (Assign (v 10 1) Val)); [constructor; cbn; tauto|]. constructor. constructor. constructor.
    + intros H. crush.
    + intros H. crush.
    + apply (O_part _ (Op [v 20 1; v 30 2])); [constructor; cbn; tauto|]. apply (O_part _ (v 30 2)); [constructor; cbn; tauto|]. constructor.
    + intros H. crush.
    + intros q H. crush.
  - do 3 eexists. split; [apply (In_function _ _ [(40, 3, Integral KInt)] [] (Op [Assign (v 50 4) (v 60 3); v 70 1])); eapply I_part; [apply P_op; right; right; left; reflexivity|constructor]|].
    split; [|split].
    + apply (O_part _ (v 70 1)); [constructor; cbn; tauto|]. constructor.
    + intros H. crush.
    + intros q H. cbn in H. crush.
Qed.

(** A method [{ $this; function g() { $this; } }] *)
Definition method : nd := Op [v 10 this; Fun [] [] (Op [v 20 this])].
Definition inMethod : st :=
  {| fnd := fresh; cft := None; heap := []; cur := {| sk := KBody; own := []; imps := [] |};
     outer := [{| sk := KClass false false 0 []; own := []; imps := [] |}; {| sk := KTop; own := []; imps := [] |}];
     last := Integral KMixed; closed := []; probs := [] |}.
Example C72_method_case : proper (fun _ => False) (fun _ => False) method inMethod /\ inClass inMethod = true /\
  usesOf int int none (fun i => i) method inMethod = [{| up := 10; ux := this; ut := TheClass |}; {| up := 20; ux := this; ut := Unknown |}] /\ Occurs method this 10.
Proof.
  split; [|split; [reflexivity|split; [reflexivity|]]].
  - split.
    + intros x (c & [<-|[<-|[]]] & e & [] & _).
    + intros x [].
    + reflexivity.
    + reflexivity.
    + cbn. repeat split; try tauto; try (constructor; fail); discriminate.
    + cbn. tauto.
    + split; [intros x p H; exfalso; crush|]. intros ps us b H. crush; (split; [intros x p H; exfalso; crush|]); intros q x t y p h [].
    + split; [reflexivity|]. intros e [].
  - apply (O_part _ (v 10 this)); [constructor; cbn; tauto|]. constructor.
Qed.

(** [$a[$u] = 1;]: the undeclared [$u] is not marked. *)
Theorem C72_index_refuted : exists n s x p, proper (fun _ => False) (fun _ => False) n s /\ x <> this /\ Occurs n x p /\
  (forall D A m, ScopeIn s n n D A m -> forall q, ~ D x q) /\ forall t, ~ In {| up := p; ux := x; ut := t |} (usesOf int int none (fun i => i) n s).
Proof.
  exists (Assign (Var (BName 10 1 true) [] [v 20 2]) Val), (start []), 2, 20. split; [|split; [discriminate|split; [|split]]].
  - split.
    + intros x (c & [] & _).
    + intros x [].
    + reflexivity.
    + reflexivity.
    + cbn. repeat split; try tauto; try (constructor; fail); discriminate.
    + cbn. tauto.
    + split; [intros x p H; exfalso; crush|]. intros ps us b H. exfalso. crush.
    + split; [reflexivity|]. intros e [].
  - eapply O_part; [constructor|]. apply (O_part _ (v 20 2)); [constructor; cbn; tauto|]. constructor.
  - intros D A m H q HD. inversion H; subst; crush.
  - intros t. cbn. tauto.
Qed.
Print Assumptions C72_index_refuted.

(** [function f() { global $x; echo $x; }] with [$x] from an included file: the use is lost if the declaration is
    at the same place in that file. *)
Theorem C72_global_refuted : exists n b s home, proper (fun _ => True) (fun x => x = 1) n s /\ (exists D A, ScopeIn s n b D A false /\ D 1 50) /\ Occurs b 1 60 /\
  forall t, ~ In {| up := 60; ux := 1; ut := t |} (usesOf int int none home n s).
Proof.
  set (e := {| en := 1; ep := 5; ei := 0; ek := EVariable; ea := true |}).
  exists (Fun [] [] (Op [GlobalVar 50 1; v 60 1])), (Op [GlobalVar 50 1; v 60 1]), (start [e]), (fun _ => 60). split; [|split; [|split]].
  - split.
    + auto.
    + intros x ->. exists e. split; [now left|reflexivity].
    + reflexivity.
    + reflexivity.
    + cbn. repeat split; try tauto; try (constructor; fail); discriminate.
    + cbn. tauto.
    + split; [intros x p H; exfalso; crush|]. intros ps us b H. crush; (split; [intros x p H; exfalso; crush|]); intros q x t y p h [].
    + split; [reflexivity|]. intros e' [<-|[]]. split; [reflexivity|]. intros x p h H. crush.
  - do 2 eexists. split; [apply (In_function _ _ [] []); constructor|]. right. exists ByGlobal. eapply GA_part; [|constructor]. constructor. now left.
  - eapply O_part; [constructor; right; left; reflexivity|]. constructor.
  - intros t H. cbn in H. destruct H as [H|[]]. discriminate.
Qed.
Print Assumptions C72_global_refuted.
