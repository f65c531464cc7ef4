(** Where variables are used: the walk of UseBuilder and ExpressionVisitor over the syntax tree of VarModel.v, after
    DeclarationBuilder has finished.

    A token is given by its start.  Tokens do not overlap, so "begins before the end of this token" (what
    DUContext::findDeclarations is asked for) is "begins here or before". *)
From Coq Require Import List Bool Arith.
From Verif Require Import PhpTypes MergeModel VarModel.
Import ListNotations.
Open Scope nat_scope.

(** What a use refers to. *)
Inductive target := Unknown | TheClass | Declared (e : entry).
Record use := { up : nat; ux : nat; ut : target }.

Section Uses.
(** The final context of the file; which declarations are superglobal (VariableDeclaration::isSuperglobal); where the
    declaration of an alias is, in its own file. *)
Variable top : scope.
Variable isSuper : nat -> bool.
Variable home : nat -> nat.

(** findVariableDeclaration, duchain/expressionvisitor.cpp 1031-1044, with the search flag DontSearchInParent *)
Definition findVariable (x p : nat) (c : scope) : option entry := lastOf (filter isVar (inScopeBefore x (S p) c)).
(** processVariable 94-103 *)
Definition superglobal (x p : nat) : option entry := List.find (fun e => isVar e && isSuper (ei e)) (inScopeBefore x (S p) top).
(** processVariable 42-103: the declaration of [$x] at [p] in the context [c]; [cls]: the context around [c] is a class.
    Left out: namespaces (71-74).  The search among the parameters (75-93) finds nothing that
    findDeclarations has not found in the imported contexts. *)
Definition resolve (cls : bool) (c : scope) (x p : nat) : target :=
  match (if Nat.eqb x this then (if cls then TheClass else Unknown)
         else match findVariable x p c with Some e => Declared e | None => Unknown end) with
  | Unknown => match superglobal x p with Some e => Declared e | None => Unknown end
  | t => t
  end.
(** The position of a declaration. *)
Definition homeOf (e : entry) : nat := if ea e then home (ei e) else ep e.

(** The state of the walk: m_isAssignmentExpressionEqual, the contexts of the functions still to come in the order they
    were closed, the uses so far. *)
Record ust := { fl : bool; rs : list scope; out : list use }.
Definition setFl (f : bool) (u : ust) : ust := {| fl := f; rs := rs u; out := out u |}.
Definition emit (e : use) (u : ust) : ust := {| fl := fl u; rs := rs u; out := out u ++ [e] |}.

(** processVariable 107-115, UseExpressionVisitor::usingDeclaration and UseBuilder::newCheckedUse
    (builders/usebuilder.cpp 29-31, 199-207): a use without declaration is kept as such. *)
Definition occurs (cls : bool) (c : scope) (p x : nat) (u : ust) : ust :=
  let t := resolve cls c x p in
  let there := match t with Declared e => Nat.eqb (homeOf e) p | _ => false end in          (* 112 *)
  let earlier := match t with Declared e => homeOf e <? p | _ => false end in               (* 109 *)
  if (negb (fl u) || Nat.eqb x this || earlier) && negb there then emit {| up := p; ux := x; ut := t |} u else u.

(** How many functions are in a piece. *)
Fixpoint funs (n : nd) : nat :=
  let all := fix go (l : list nd) : nat := match l with [] => 0 | k :: r => funs k + go r end in
  match n with
  | Val => 0
  | Op l => all l
  | Var _ _ l => all l
  | Assign l r => funs l + funs r
  | Call _ l => all l
  | Elem k => funs k
  | Foreach e v1 v2 b => funs e + funs v1 + match v2 with Some v => funs v | None => 0 end + funs b
  | StaticVar _ _ v => funs v
  | GlobalVar _ _ => 0
  | Catch _ _ _ b => funs b
  | Fun _ _ b => S (funs b)
  end.

(** The walk over a piece in context [c].
    - visitVariable, expressionvisitor.cpp 165-180: with [->..] the mark is off inside, and as before behind it.
    - every expression ends in visitAssignmentExpression 129-147, which clears the mark: an index, an argument
    - UseBuilder::visitStatement, builders/usebuilder.cpp 161-180: a visitor of its own for each variable of a foreach.
      An expression in an index there is visited twice; the second time is left out.
    - a static variable has no use, and variables do not occur in its value (visitStaticScalar 154-159)
    - visitGlobalVar 144-152 uses findDeclarationImport for the variable of the file
    - a function declaration: its own context (visitNodeWithExprVisitor 353-362).  [Fun] stands for function
      declarations here; ExpressionVisitor::visitClosure is left out. *)
Fixpoint walk (cls : bool) (c : scope) (n : nd) (u : ust) {struct n} : ust :=
  match n with
  | Val => u
  | Op l => fold_left (fun u k => walk cls c k u) l u
  | Var b ss l =>
      let u1 := match ss with [] => u | _ => setFl false u end in
      let u2 := match b with BName p x _ => occurs cls c p x u1 | BOther => u1 end in
      let u3 := fold_left (fun u k => match k with
                                      | Call _ _ => walk cls c k u
                                      | _ => setFl false (walk cls c k u)
                                      end) l u2 in
      match ss with [] => u3 | _ => setFl (fl u) u3 end
  | Assign l r => setFl false (walk cls c r (setFl false (walk cls c l (setFl true u))))
  | Call _ l => fold_left (fun u k => setFl false (walk cls c k u)) l u
  | Elem k => walk cls c k u
  | Foreach e v1 v2 b =>
      let own k u := walk cls c k (setFl false u) in
      own b (match v2 with Some v => own v (own v1 (own e u)) | None => own v1 (own e u) end)
  | StaticVar _ _ _ => u
  | GlobalVar p x =>
      match filter isVar (inScope x top) with
      | e :: _ => emit {| up := p; ux := x; ut := Declared e |} u
      | [] => u
      end
  | Catch _ _ _ b => walk cls c b (setFl false u)
  | Fun _ _ b =>
      let u1 := walk false (nth (funs b) (rs u) c) b (setFl false u) in
      {| fl := fl u; rs := tl (rs u1); out := out u1 |}
  end.
End Uses.

(** All uses in [n], once it has been walked through for declarations. *)
Definition usesOf (T F : st -> nd -> ty) (isSuper : nat -> bool) (home : nat -> nat) (n : nd) (s : st) : list use :=
  let s' := visit T F n s in
  let cls := match outer s with c :: _ => match sk c with KClass _ _ _ _ => true | _ => false end | [] => false end in
  out (walk (topOf s') isSuper home cls (cur s') n {| fl := false; rs := skipn (List.length (closed s)) (closed s'); out := [] |}).
