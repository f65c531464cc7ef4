(** Types of expressions (duchain/expressionvisitor.cpp). *)
From Verif Require Import PhpTypes.

(** A declaration: its type, and its return type if that is a function type. *)
Record Dec := { dId : nat; dTy : option ty; dRet : option (option ty) }.
(** What names resolve to where the expression stands.
    - [varOf]: processVariable (expressionvisitor.cpp 41-118)
    - [funOf], [classOf], [constOf]: findDeclarationImport; for functions and constants after the
      second, global attempt, for constants also as a function (353-357, 431-441)
    - [memberOf c n call]: the members of the class that are considered for ->n (634-657); [None]: the
      class has no declaration or context
    - [staticOf c n]: likewise for c::n() (325), by name of the class
    - [stdclass]: m_currentContext->findDeclarations(stdclass) *)
Record World := { varOf : nat -> option Dec; funOf : nat -> option Dec; classOf : nat -> option Dec;
                  constOf : nat -> option Dec; memberOf : N -> nat -> bool -> option (list Dec);
                  staticOf : nat -> nat -> option (list Dec); stdclass : list Dec }.

(** parser/php.g 97-127 *)
Inductive ScalarType := ScalarInt | ScalarFloat | ScalarString.
Inductive CastType := CastInt | CastDouble | CastString | CastArray | CastObject | CastBool | CastUnset.
Inductive Op := OpPlus | OpMinus | OpConcat | OpMul | OpDiv | OpExp | OpMod | OpAnd | OpOr | OpXor | OpSl | OpSr.
Inductive Unary := UMinus | UPlus | UBang | UTilde | UAt.
Inductive Logic := LAnd | LOr | LXor | LBoolAnd | LBoolOr.
Inductive EqOp := EqEqual | EqNotEqual | EqIdentical | EqNotIdentical | EqSpaceship.
Inductive RelOp := RLess | RGreater | RLessEq | RGreaterEq.
Inductive ConstName := CTrue | CFalse | CNull | CName (n : nat).
(** Expressions (parser/php.g 357-590).  A chain a op b op c of one precedence level is written
    left-nested; the visits and updates come in the same order. *)
Inductive Expr :=
| EVar (v : nat)
| EScalar (t : ScalarType)
| EEncaps (parts : list Expr)
| EConst (c : ConstName)
| EArray (elements : list Expr)
| EIndex (base idx : Expr)
| ECall (f : nat) (args : list Expr)
| EStaticCall (c m : nat) (args : list Expr)
| EProp (base : Expr) (name : nat) (call : option (list Expr))
| ECast (c : CastType) (e : Expr)
| EUnary (u : Unary) (e : Expr)
| EIncDec (e : Expr)
| EMulti (o : Op) (a b : Expr)
| EAdditive (o : Op) (a b : Expr)
| EShift (a b : Expr)
| ERelational (o : RelOp) (a b : Expr)
| EInstanceof (e : Expr) (cls : option nat)
| EEquality (o : EqOp) (a b : Expr)
| EBit (a b : Expr)
| ELogic (l : Logic) (a b : Expr)
| ECoalesce (a b : Expr)
| ECond (c : Expr) (t : option Expr) (e : Expr)
| EAssign (lhs rhs : Expr)
| EOpAssign (o : Op) (lhs rhs : Expr)
| EParen (e : Expr)
| EIsset (vars : list Expr)
| EEmpty (e : Expr)
| EPrint (e : Expr)
| ENew (cls : nat) (args : list Expr)
| ENewVar (cls : Expr) (args : list Expr)
| EClone (e : Expr)
| EExit (e : option Expr).

(** m_result: ExpressionEvaluationResult (expressionevaluationresult.cpp) *)
Record R := { rType : option ty; rDecls : list Dec }.
Definition setType (t : option ty) (r : R) : R := {| rType := t; rDecls := rDecls r |}.
Definition setK (k : ikind) (r : R) : R := setType (Some (Integral k)) r.
(** expressionevaluationresult.cpp 50-66 *)
Definition setDeclarations (l : list Dec) (r : R) : R :=
  {| rType := match rev l with d :: _ => dTy d | [] => None end; rDecls := l |}.
(** expressionevaluationresult.cpp 32-39 *)
Definition setDeclaration (o : option Dec) (r : R) : R := setDeclarations (match o with Some d => [d] | None => [] end) r.
Definition lastDec (l : list Dec) : option Dec := match rev l with d :: _ => Some d | [] => None end.
(** function->returnType(), null if the type is no function type *)
Definition retOf (d : Dec) : option ty := match dRet d with Some t => t | None => None end.

(** 577-596: with exactly one class among the types of an UnsureType, that class. *)
Definition structsOf (l : list ty) : list N := flat_map (fun t => match t with Struct d => [d] | _ => [] end) l.
Definition targetClass (t : option ty) : option N :=
  match t with
  | Some (Struct d) => Some d
  | Some (Unsure l) => match structsOf l with [d] => Some d | _ => None end
  | _ => None
  end.

Section Visit.
Variable w : World.
(** expressionvisitor.cpp 459-481 *)
Definition scalarKind (t : ScalarType) : ikind := match t with ScalarInt => KInt | ScalarFloat => KFloat | ScalarString => KString end.
(** 825-860; [if (node->castType)]: CastInt is 0. *)
Definition castResult (c : CastType) (r : R) : R :=
  match c with
  | CastInt => r
  | CastDouble => setK KFloat r
  | CastString => setK KString r
  | CastArray => setK KArray r
  | CastObject => setDeclarations (stdclass w) r
  | CastBool => setK KBool r
  | CastUnset => r
  end.
(** 863-871 *)
Definition additiveResult (o : Op) (r : R) : R :=
  match o with OpPlus | OpMinus => setK KInt r | OpConcat => setK KString r | _ => r end.
(** 139-146 *)
Definition assignResult (o : Op) (r : R) : R :=
  match o with OpPlus | OpMinus | OpMul | OpDiv | OpExp => setK KInt r | OpConcat => setK KString r | _ => r end.
(** 893-902 *)
Definition equalityResult (o : EqOp) (r : R) : R := match o with EqSpaceship => setK KInt r | _ => setK KBool r end.
(** 565-683, before the default visit *)
Definition propResult (name : nat) (isCall : bool) (r : R) : R :=
  match targetClass (rType r) with
  | None => r
  | Some c =>
      match memberOf w c name isCall with
      | None => setType None r
      | Some l =>
          let r := setDeclarations l r in
          match lastDec l with
          | Some d => if isCall then setType (retOf d) r else r
          | None => setType None r
          end
      end
  end.
Fixpoint visit (e : Expr) (r : R) {struct e} : R :=
  let visitAll := fix go (l : list Expr) (r : R) : R := match l with [] => r | x :: l' => go l' (visit x r) end in
  (* 281-290: arguments leave the result as it was *)
  let visitArgs l r := setType (rType r) (setDeclarations (rDecls r) (visitAll l r)) in
  match e with
  | EVar v => setDeclaration (varOf w v) r                                           (* 157-163 *)
  | EScalar t => setK (scalarKind t) r                                               (* 459-476 *)
  | EEncaps parts => setK KString (visitAll parts r)                                 (* 477-483 *)
  | EConst CTrue | EConst CFalse => setK KBool r                                     (* 424-425 *)
  | EConst CNull => setK KNull r                                                     (* 426-427 *)
  | EConst (CName n) => setDeclaration (constOf w n) r                               (* 428-444 *)
  | EArray l => setK KArray (visitAll l r)                                           (* 219-223 *)
  | EIndex b i => setK KMixed (visit i (visit b r))                                  (* 149-155 *)
  | ECall f args =>                                                                  (* 351-372 *)
      let r := setDeclaration (funOf w f) (visitArgs args r) in
      match funOf w f with Some d => setType (retOf d) r | None => r end
  | EStaticCall c m args =>                                                          (* 320-342 *)
      let r := visitArgs args r in
      match staticOf w c m with
      | None => setType None r
      | Some l => let r := setDeclarations l r in
                  match lastDec l with Some d => setType (retOf d) r | None => r end
      end
  | EProp b n None => propResult n false (visit b r)
  | EProp b n (Some args) => visitArgs args (propResult n true (visit b r))
  | ECast c x => castResult c (visit x r)
  | EUnary _ x => visit x r
  | EIncDec x => visit x r
  | EMulti _ a b => visit b (visit a r)
  | EAdditive o a b => additiveResult o (visit b (visit a r))
  | EShift a b => visit b (visit a r)
  | ERelational _ a b => setK KBool (visit b (visit a r))                            (* 886-891 *)
  | EInstanceof x (Some _) => setK KBool (visit x r)                                 (* 873-884 *)
  | EInstanceof x None => visit x r
  | EEquality o a b => equalityResult o (visit b (visit a r))
  | EBit a b => visit b (visit a r)
  | ELogic _ a b => visit b (visit a r)
  | ECoalesce a b => visit b (visit a r)
  | ECond c (Some t) x => visit x (visit t (visit c r))
  | ECond c None x => visit x (visit c r)
  | EAssign a b => visit b (visit a r)                                               (* 129-137 *)
  | EOpAssign o a b => assignResult o (visit b (visit a r))
  | EParen x => visit x r
  | EIsset l => visitAll l r
  | EEmpty x => visit x r
  | EPrint x => visit x r
  | ENew c args => setDeclaration (classOf w c) (visitArgs args r)                   (* 199-217 *)
  | ENewVar x args => visitArgs args (visit x r)                                     (* 726-728 *)
  | EClone x => visit x r
  | EExit (Some x) => visit x r
  | EExit None => r
  end.
Definition start : R := {| rType := None; rDecls := [] |}.
Definition evaluate (e : Expr) : R := visit e start.
End Visit.
