(** Variables in closures, and behind them: in which scope is a variable looked up?  DeclarationBuilder leaves the context on
    some nodes of the syntax tree (ducontext); UseBuilder starts an ExpressionVisitor for each expression, which takes the
    context of each node that has one and keeps it until the next such node.

    Names and positions are numbers; a function or closure is named by its position.  Left out: [$this], classes, @var comments
    on assignments and return statements, default values of parameters, foreach, unset, static and global variables, [list(..)]
    and properties on the left of an assignment.  Parameters are not in the tree: what is found in a scope is given from
    outside (VarModel.v models how it gets there). *)
From Coq Require Import List Bool Arith.
Import ListNotations.
Open Scope nat_scope.

Inductive scope := File | Of (f : nat).

(** The syntax tree.  The field [c] is the node's ducontext; the parser leaves it empty.
    - [Op]: any expression whose parts are just visited, from left to right
    - [Arg]: functionCallParameterListElement; [Asg]: assignmentExpression with a variable [$x] on the left
    - [Clo]: a closure; [typed]: it has a return type or a @return comment; [us]: the variables behind [use]; its body
    - [Stm]: a list of statements; [Exp]: an expression that is a statement, or belongs to one (echo, if, ..)
    - [Ret]: a return statement; [Fn]: a function declaration *)
Inductive nd :=
| Var (p x : nat)
| Op (l : list nd)
| Arg (c : option scope) (e : nd)
| Asg (c : option scope) (p x : nat) (e : nd)
| Clo (f : nat) (typed : bool) (us : list (nat * nat)) (b : nd)
| Stm (l : list nd)
| Exp (c : option scope) (e : nd)
| Ret (c : option scope) (e : nd)
| Fn (c : option scope) (f : nat) (typed : bool) (b : nd).

(** DeclarationBuilder and its bases: which nodes get a context.  [own]: currentContext(); [got]: m_gotReturnTypeFromDocComment,
    which is not put back behind a function.
    - ContextBuilder::visitFunctionCallParameterListElement, duchain/builders/contextbuilder.cpp 481-486
    - TypeBuilder::visitAssignmentExpression 471-483 and getTypeForNode 249-270, duchain/builders/typebuilder.cpp
    - TypeBuilder::visitStatement 494-501, after the parts; at the level of the file there is no current type
    - visitFunctionDeclarationStatement: typebuilder.cpp 418-447, contextbuilder.cpp 304-328 (openContext leaves the context on
      the body)
    - visitClosure: typebuilder.cpp 449-469, contextbuilder.cpp 330-364.  The context on the body of a closure is never looked at
      (visitClosure below) and has no field here. *)
Fixpoint mark (own : scope) (n : nd) (got : bool) {struct n} : nd * bool :=
  let marks := fix go (l : list nd) (got : bool) : list nd * bool :=
    match l with
    | [] => ([], got)
    | k :: r => let (k', g) := mark own k got in let (r', g') := go r g in (k' :: r', g')
    end in
  match n with
  | Var p x => (Var p x, got)
  | Op l => let (l', g) := marks l got in (Op l', g)
  | Arg _ e => let (e', g) := mark own e got in (Arg (Some own) e', g)
  | Asg _ p x e => let (e', g) := mark own e got in (Asg (Some own) p x e', g)
  | Clo f ty us b => let (b', g) := mark (Of f) b ty in (Clo f ty us b', g)
  | Stm l => let (l', g) := marks l got in (Stm l', g)
  | Exp c e => let (e', g) := mark own e got in (Exp c e', g)
  | Ret c e =>
      let (e', g) := mark own e got in
      (Ret (match own with Of _ => if g then c else Some own | File => c end) e', g)
  | Fn _ f ty b => let (b', g) := mark (Of f) b ty in (Fn (Some (Of f)) f ty b', g)
  end.

(** An occurrence of a variable as the ExpressionVisitor meets it, with m_currentContext at that moment.  [Read]: a variable;
    [Target]: on the left of an assignment (m_isAssignmentExpressionEqual); [Captured]: behind [use]. *)
Inductive kind := Read | Target | Captured.
Record occ := { op : nat; ox : nat; ok : kind; os : scope }.

(** ExpressionVisitor::visitNode, duchain/expressionvisitor.cpp 120-127 *)
Definition taking (c : option scope) (cur : scope) : scope := match c with Some s => s | None => cur end.
(** ExpressionVisitor from a node on, m_currentContext being [cur]: what it meets, and m_currentContext afterwards.
    - visitAssignmentExpression 129-147, visitStatement 904-915
    - visitClosure 221-283: the statements of the body are visited without a visit of the body as a node (226-228); then the
      variables behind [use] (261-279)
    - a function declaration: its body is visited as a node *)
Fixpoint walk (n : nd) (cur : scope) {struct n} : list occ * scope :=
  let walks := fix go (l : list nd) (cur : scope) : list occ * scope :=
    match l with
    | [] => ([], cur)
    | k :: r => let (a, s) := walk k cur in let (b, s') := go r s in (a ++ b, s')
    end in
  match n with
  | Var p x => ([{| op := p; ox := x; ok := Read; os := cur |}], cur)
  | Op l | Stm l => walks l cur
  | Arg c e | Exp c e | Ret c e => walk e (taking c cur)
  | Asg c p x e =>
      let s := taking c cur in
      let (a, s') := walk e s in ({| op := p; ox := x; ok := Target; os := s |} :: a, s')
  | Clo f ty us b =>
      let (a, s) := walk b cur in
      (a ++ map (fun u => {| op := fst u; ox := snd u; ok := Captured; os := s |}) us, s)
  | Fn c f ty b => walk b (taking c cur)
  end.

(** UseBuilder: visitExpr (duchain/builders/usebuilder.cpp 139-142) and visitNodeWithExprVisitor 353-362 leave the current
    context on the expression and start an ExpressionVisitor there; statements and function declarations are visited. *)
Fixpoint useBuilder (n : nd) (own : scope) {struct n} : list occ :=
  match n with
  | Stm l => flat_map (fun k => useBuilder k own) l
  | Exp _ e => fst (walk (Exp (Some own) e) own)
  | Ret _ e => fst (walk (Exp (Some own) e) own)
  | Fn _ f _ b => useBuilder b (Of f)
  | _ => []
  end.

(** What is reported for an occurrence (UseExpressionVisitor::usingDeclaration): the declaration found, given by its position,
    or none.  [find s x p]: what findVariableDeclaration finds for [$x] at [p] in [s] (expressionvisitor.cpp 42-103);
    [around s x]: what findDeclarations finds for [$x] from [s] outwards.  processVariable 107-115: not a declaration itself;
    on the left of an assignment only what has been declared before. *)
Definition report (find : scope -> nat -> nat -> option nat) (around : scope -> nat -> option nat) (o : occ) : list (nat * nat * option nat) :=
  match ok o with
  | Captured => [(op o, ox o, around (os o) (ox o))]
  | Read =>
      match find (os o) (ox o) (op o) with
      | Some q => if q =? op o then [] else [(op o, ox o, Some q)]
      | None => [(op o, ox o, None)]
      end
  | Target =>
      match find (os o) (ox o) (op o) with
      | Some q => if q <? op o then [(op o, ox o, Some q)] else []
      | None => []
      end
  end.

(** All uses in a file, once it has been walked through for declarations. *)
Definition occurrences (n : nd) : list occ := useBuilder (fst (mark File n false)) File.
Definition uses (find : scope -> nat -> nat -> option nat) (around : scope -> nat -> option nat) (n : nd) : list (nat * nat * option nat) :=
  flat_map (report find around) (occurrences n).
