(** Specification for C31. *)
From Verif Require Import PhpTypes ExprModel.

(** ** The types PHP gives to operator expressions *)
Definition numeric (k : ikind) : Prop := k = KInt \/ k = KFloat.
Inductive phpKind : Expr -> ikind -> Prop :=
| pk_int e : phpKind (ECast CastInt e) KInt
| pk_double e : phpKind (ECast CastDouble e) KFloat
| pk_string e : phpKind (ECast CastString e) KString
| pk_array e : phpKind (ECast CastArray e) KArray
| pk_bool e : phpKind (ECast CastBool e) KBool
| pk_unset e : phpKind (ECast CastUnset e) KNull
| pk_bang e : phpKind (EUnary UBang e) KBool
| pk_minus e k : numeric k -> phpKind (EUnary UMinus e) k
| pk_plus e k : numeric k -> phpKind (EUnary UPlus e) k
| pk_multi o a b k : numeric k -> In o [OpMul; OpDiv; OpExp] -> phpKind (EMulti o a b) k
| pk_mod a b : phpKind (EMulti OpMod a b) KInt
| pk_add o a b k : numeric k -> In o [OpPlus; OpMinus] -> phpKind (EAdditive o a b) k
| pk_concat a b : phpKind (EAdditive OpConcat a b) KString
| pk_shift a b : phpKind (EShift a b) KInt
| pk_rel o a b : phpKind (ERelational o a b) KBool
| pk_instanceof e c : phpKind (EInstanceof e c) KBool
| pk_equality o a b : o <> EqSpaceship -> phpKind (EEquality o a b) KBool
| pk_spaceship a b : phpKind (EEquality EqSpaceship a b) KInt
| pk_logic l a b : phpKind (ELogic l a b) KBool
| pk_isset l : phpKind (EIsset l) KBool
| pk_empty e : phpKind (EEmpty e) KBool
| pk_print e : phpKind (EPrint e) KInt
| pk_opassign o a b k : numeric k -> In o [OpPlus; OpMinus; OpMul; OpDiv; OpExp] -> phpKind (EOpAssign o a b) k
| pk_opconcat a b : phpKind (EOpAssign OpConcat a b) KString
| pk_opint o a b : In o [OpMod; OpAnd; OpOr; OpXor; OpSl; OpSr] -> phpKind (EOpAssign o a b) KInt
| pk_scalar_int : phpKind (EScalar ScalarInt) KInt
| pk_scalar_float : phpKind (EScalar ScalarFloat) KFloat
| pk_scalar_string : phpKind (EScalar ScalarString) KString
| pk_encaps l : phpKind (EEncaps l) KString
| pk_literal l : phpKind (EArray l) KArray
| pk_true : phpKind (EConst CTrue) KBool
| pk_false : phpKind (EConst CFalse) KBool
| pk_null : phpKind (EConst CNull) KNull
| pk_paren e k : phpKind e k -> phpKind (EParen e) k
| pk_at e k : phpKind e k -> phpKind (EUnary UAt e) k
| pk_assign a e k : phpKind e k -> phpKind (EAssign a e) k.

(** The operators for which the plugin has a rule. *)
Inductive ruled : Expr -> Prop :=
| ru_cast c e : In c [CastDouble; CastString; CastArray; CastBool] -> ruled (ECast c e)
| ru_add o a b : In o [OpPlus; OpMinus; OpConcat] -> ruled (EAdditive o a b)
| ru_rel o a b : ruled (ERelational o a b)
| ru_instanceof e c : ruled (EInstanceof e (Some c))
| ru_equality o a b : ruled (EEquality o a b)
| ru_opassign o a b : In o [OpPlus; OpMinus; OpMul; OpDiv; OpExp; OpConcat] -> ruled (EOpAssign o a b)
| ru_scalar t : ruled (EScalar t)
| ru_encaps l : ruled (EEncaps l)
| ru_literal l : ruled (EArray l)
| ru_true : ruled (EConst CTrue)
| ru_false : ruled (EConst CFalse)
| ru_null : ruled (EConst CNull)
| ru_paren e : ruled e -> ruled (EParen e)
| ru_at e : ruled e -> ruled (EUnary UAt e)
| ru_assign a e : ruled e -> ruled (EAssign a e).

(** The operators without a rule, and the operand whose type the expression takes. *)
Inductive takes : Expr -> Expr -> Prop :=
| tk_int e : takes (ECast CastInt e) e
| tk_unset e : takes (ECast CastUnset e) e
| tk_unary u e : takes (EUnary u e) e
| tk_incdec e : takes (EIncDec e) e
| tk_multi o a b : takes (EMulti o a b) b
| tk_shift a b : takes (EShift a b) b
| tk_instanceof e : takes (EInstanceof e None) e
| tk_bit a b : takes (EBit a b) b
| tk_logic l a b : takes (ELogic l a b) b
| tk_coalesce a b : takes (ECoalesce a b) b
| tk_cond c t e : takes (ECond c t e) e
| tk_assign a b : takes (EAssign a b) b
| tk_opassign o a b : In o [OpMod; OpAnd; OpOr; OpXor; OpSl; OpSr] -> takes (EOpAssign o a b) b
| tk_paren e : takes (EParen e) e
| tk_isset l e : takes (EIsset (l ++ [e])) e
| tk_empty e : takes (EEmpty e) e
| tk_print e : takes (EPrint e) e
| tk_clone e : takes (EClone e) e
| tk_newvar e args : takes (ENewVar e args) e
| tk_exit e : takes (EExit (Some e)) e.

(** ** Types by structure alone *)
(** No exit without argument and no isset of nothing: these keep the type of what came before. *)
Fixpoint whole (e : Expr) : Prop :=
  match e with
  | EIndex a b | EMulti _ a b | EAdditive _ a b | EShift a b | ERelational _ a b | EEquality _ a b | EBit a b
  | ELogic _ a b | ECoalesce a b | EAssign a b | EOpAssign _ a b => whole a /\ whole b
  | EProp b _ _ => whole b
  | ECast _ x | EUnary _ x | EIncDec x | EInstanceof x _ | EParen x | EEmpty x | EPrint x | EClone x | ENewVar x _ => whole x
  | ECond c t x => whole c /\ whole x /\ match t with Some y => whole y | None => True end
  | EIsset l => l <> [] /\ (fix all (l : list Expr) : Prop := match l with [] => True | x :: r => whole x /\ all r end) l
  | EExit o => match o with Some x => whole x | None => False end
  | _ => True
  end.

(** The one class a type stands for: the class itself, or the only class among alternatives. *)
Definition oneClass (t : option ty) (c : N) : Prop :=
  t = Some (Struct c) \/
  exists l1 l2, t = Some (Unsure (l1 ++ Struct c :: l2)) /\ (forall d, ~ In (Struct d) l1) /\ (forall d, ~ In (Struct d) l2).
