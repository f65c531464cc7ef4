(** C31: the types of expressions. *)
From Verif Require Import PhpTypes ExprModel ExprSpec ExprProofs.

(** C31: wherever the expression stands and whatever was evaluated before, an operator with a rule gets
    a type PHP gives to it.  Missing: the operators of [takes], see the refuted theorems below. *)
Theorem C31_operators_partial w e r : ruled e -> exists k, rType (visit w e r) = Some (Integral k) /\ phpKind e k.
Proof. intros H. exact (ruled_l w e H r). Qed.
Print Assumptions C31_operators_partial.
(** C31: the type of a complete expression does not depend on what was evaluated before. *)
Theorem C31_state_independent w e r r' : whole e -> rType (visit w e r) = rType (visit w e r').
Proof. intros H. exact (indep_l w e H r r'). Qed.
Print Assumptions C31_state_independent.
(** C31: the other operators give the type of their (last) operand. *)
Theorem C31_takes w e x : takes e x -> whole x -> rType (evaluate w e) = rType (evaluate w x).
Proof. intros T H. destruct (takes_l w e x start T) as [r' E]. unfold evaluate. rewrite E. apply indep_l. exact H. Qed.
Print Assumptions C31_takes.
(** C31: integer and string results. *)
Theorem C31_exact w r :
  (forall o a b, In o [OpPlus; OpMinus] -> rType (visit w (EAdditive o a b) r) = Some (Integral KInt)) /\
  (forall a b, rType (visit w (EAdditive OpConcat a b) r) = Some (Integral KString)) /\
  (forall o a b, rType (visit w (ERelational o a b) r) = Some (Integral KBool)) /\
  (forall a c, rType (visit w (EInstanceof a (Some c)) r) = Some (Integral KBool)) /\
  (forall a b, rType (visit w (EEquality EqSpaceship a b) r) = Some (Integral KInt)) /\
  (forall o a b, o <> EqSpaceship -> rType (visit w (EEquality o a b) r) = Some (Integral KBool)) /\
  (forall a, rType (visit w (ECast CastDouble a) r) = Some (Integral KFloat)) /\
  (forall a, rType (visit w (ECast CastString a) r) = Some (Integral KString)) /\
  (forall a, rType (visit w (ECast CastArray a) r) = Some (Integral KArray)) /\
  (forall a, rType (visit w (ECast CastBool a) r) = Some (Integral KBool)) /\
  (forall a b, rType (visit w (EOpAssign OpConcat a b) r) = Some (Integral KString)) /\
  (forall o a b, In o [OpPlus; OpMinus; OpMul; OpDiv; OpExp] -> rType (visit w (EOpAssign o a b) r) = Some (Integral KInt)) /\
  (forall l, rType (visit w (EEncaps l) r) = Some (Integral KString)) /\
  (forall l, rType (visit w (EArray l) r) = Some (Integral KArray)).
Proof.
  repeat split; intros; try reflexivity.
  - cbn in H. destruct H as [<-|[<-|[]]]; reflexivity.
  - destruct o; try reflexivity. contradiction.
  - cbn in H. repeat (destruct H as [<-|H]; [reflexivity|]). destruct H.
Qed.
Print Assumptions C31_exact.
(** C31: names.  A variable has the type of its declaration, a call the return type of the function, an
    object the type of its class, an array element the type mixed; whatever the arguments are. *)
Theorem C31_names w r :
  (forall v, rType (visit w (EVar v) r) = match varOf w v with Some d => dTy d | None => None end) /\
  (forall c, rType (visit w (EConst (CName c)) r) = match constOf w c with Some d => dTy d | None => None end) /\
  (forall c args, rType (visit w (ENew c args) r) = match classOf w c with Some d => dTy d | None => None end) /\
  (forall f d t args, funOf w f = Some d -> dRet d = Some t -> rType (visit w (ECall f args) r) = t) /\
  (forall f args, funOf w f = None -> rType (visit w (ECall f args) r) = None) /\
  (forall c m l d t args, staticOf w c m = Some (l ++ [d]) -> dRet d = Some t -> rType (visit w (EStaticCall c m args) r) = t) /\
  (forall c m args, staticOf w c m = None -> rType (visit w (EStaticCall c m args) r) = None) /\
  (forall b i, rType (visit w (EIndex b i) r) = Some (Integral KMixed)).
Proof.
  repeat split; intros.
  - cbn. destruct (varOf w v); reflexivity.
  - cbn. destruct (constOf w c); reflexivity.
  - cbn. destruct (classOf w c); reflexivity.
  - cbn [visit]. rewrite H. cbn. unfold retOf. rewrite H0. reflexivity.
  - cbn [visit]. rewrite H. reflexivity.
  - cbn [visit]. rewrite H. unfold lastDec. rewrite rev_app_distr. cbn. unfold retOf. rewrite H0. reflexivity.
  - cbn [visit]. rewrite H. reflexivity.
Qed.
Print Assumptions C31_names.
(** C31: members.  [$x->p] has the type of the member of the class of [$x], [$x->m(...)] its return
    type; none if the class has no such member.  With exactly one class among several possible types,
    that class counts. *)
Theorem C31_members w b c n : oneClass (rType (evaluate w b)) c ->
  (forall l d, memberOf w c n false = Some (l ++ [d]) -> rType (evaluate w (EProp b n None)) = dTy d) /\
  (forall l d t args, memberOf w c n true = Some (l ++ [d]) -> dRet d = Some t -> rType (evaluate w (EProp b n (Some args))) = t) /\
  (memberOf w c n false = None \/ memberOf w c n false = Some [] -> rType (evaluate w (EProp b n None)) = None) /\
  (forall args, memberOf w c n true = None \/ memberOf w c n true = Some [] -> rType (evaluate w (EProp b n (Some args))) = None).
Proof.
  intros T. apply target_iff in T. unfold evaluate in *. repeat split; intros.
  - cbn [visit]. unfold propResult. rewrite T, H. unfold lastDec, setDeclarations. rewrite rev_app_distr. reflexivity.
  - cbn [visit]. unfold setType at 1. cbn [rType]. unfold propResult. rewrite T, H. unfold lastDec, setDeclarations. rewrite rev_app_distr. cbn. unfold retOf. rewrite H0. reflexivity.
  - cbn [visit]. unfold propResult. rewrite T. destruct H as [-> | ->]; reflexivity.
  - cbn [visit]. unfold setType at 1. cbn [rType]. unfold propResult. rewrite T. destruct H as [-> | ->]; reflexivity.
Qed.
Print Assumptions C31_members.
(** C31 fails: [(int) "x"] is a string, [1.5 * "a"] is a string, [!$x], [$x && "a"] and [isset("a")] have
    the type of the operand, [$x %= "a"] is a string: the plugin's type is none PHP gives. *)
Definition c31Wrong (w : World) (e : Expr) : Prop := exists t, rType (evaluate w e) = Some t /\ ~ (exists k, t = Integral k /\ phpKind e k).
Theorem C31_refuted w : exists x, forall y,
  c31Wrong w (ECast CastInt x) /\ c31Wrong w (EMulti OpMul y x) /\ c31Wrong w (EMulti OpMod y x) /\ c31Wrong w (EShift y x) /\
  c31Wrong w (EUnary UBang x) /\ c31Wrong w (EUnary UMinus x) /\ (forall l, c31Wrong w (ELogic l y x)) /\ c31Wrong w (EIsset [y; x]) /\ c31Wrong w (EEmpty x) /\
  c31Wrong w (EPrint x) /\ c31Wrong w (EOpAssign OpMod y x) /\ c31Wrong w (ECast CastUnset x).
Proof.
  exists (EScalar ScalarString). intros y. unfold c31Wrong, evaluate.
  assert (W : forall e, rType (visit w e start) = Some (Integral KString) -> (forall k, phpKind e k -> k <> KString) ->
    exists t, rType (visit w e start) = Some t /\ ~ (exists k, t = Integral k /\ phpKind e k)).
  { intros e E N. exists (Integral KString). split; [exact E|]. intros (k & K & P). injection K as <-. exact (N _ P eq_refl). }
  repeat split; try (intros l); apply W; try reflexivity; intros k P E; subst k; inversion P; subst;
    try discriminate; match goal with H : numeric _ |- _ => destruct H; discriminate end.
Qed.
Print Assumptions C31_refuted.
(** C31 fails: [new $cls] has the type of the variable, not of an object. *)
Theorem C31_new_variable_refuted w x args : whole x -> rType (evaluate w (ENewVar x args)) = rType (evaluate w x).
Proof. intros H. apply C31_takes; [constructor|exact H]. Qed.
Print Assumptions C31_new_variable_refuted.
(** C31 fails: [$x->p], with [$x] of no class, has the type of [$x]. *)
Theorem C31_no_class_refuted w b n : (forall c, ~ oneClass (rType (evaluate w b)) c) ->
  rType (evaluate w (EProp b n None)) = rType (evaluate w b) /\
  forall args, rType (evaluate w (EProp b n (Some args))) = rType (evaluate w b).
Proof. intros H. apply target_none in H. unfold evaluate in *. split; intros; cbn [visit]; [|unfold setType at 1; cbn [rType]]; unfold propResult; rewrite H; reflexivity. Qed.
Print Assumptions C31_no_class_refuted.
(** C31 fails: the declarations of the result outlive its type, [$v . 'x'] still names [$v]. *)
Theorem C31_declarations_refuted : exists w e d, rDecls (evaluate w e) = [d] /\ rType (evaluate w e) <> dTy d.
Proof.
  set (d := {| dId := 0; dTy := Some (Struct 7); dRet := None |}).
  exists {| varOf := fun _ => Some d; funOf := fun _ => None; classOf := fun _ => None; constOf := fun _ => None;
            memberOf := fun _ _ _ => None; staticOf := fun _ _ => None; stdclass := [] |}.
  exists (EAdditive OpConcat (EVar 0) (EScalar ScalarString)), d. split; [reflexivity|discriminate].
Qed.
Print Assumptions C31_declarations_refuted.

(** [$a = ($b . "x" == f(1)) ] and [!!$o->p]. *)
Example C31_ex : let d n t := {| dId := n; dTy := t; dRet := None |} in
  let w := {| varOf := fun v => Some (d v (Some (Unsure [Integral KNull; Struct 7]))); funOf := fun _ => None; classOf := fun _ => None; constOf := fun _ => None;
              memberOf := fun c n call => if call then None else Some [d 1%nat (Some (Integral KBool)); d 2%nat (Some (Integral KFloat))]; staticOf := fun _ _ => None; stdclass := [] |} in
  let e := EAssign (EVar 0) (EParen (EEquality EqEqual (EAdditive OpConcat (EVar 1) (EScalar ScalarString)) (ECall 3 [EScalar ScalarInt]))) in
  ruled e /\ whole e /\ rType (evaluate w e) = Some (Integral KBool) /\
  oneClass (rType (evaluate w (EVar 0))) 7%N /\ rType (evaluate w (EUnary UBang (EUnary UBang (EProp (EVar 0) 4 None)))) = Some (Integral KFloat).
Proof. cbn. repeat split; [repeat constructor|]. right. exists [Integral KNull], []. split; [reflexivity|]. split; intros d0 H; [destruct H as [H|[]]; discriminate|destruct H]. Qed.
