(** Choosing a declaration from the completion list where no object or class is named in front of the cursor: which declarations
    are offered, which text is written for each, and which part of the line it replaces.

    Names are character strings, and equal when they are the same string: that functions and classes are found whatever the
    case of their letters is left out here (C28).  Left out too: traits, interfaces, namespaces, types offered from the
    completion code model, and what the platform writes behind the opening parenthesis of a call (its arguments). *)
From Coq Require Import List Bool Arith String Ascii.
Import ListNotations.
Open Scope nat_scope.

Inductive access := Pub | Prot | Priv.
(** Where the type of a property comes from: nothing, a literal or another expression of no constant; the value of a class
    constant or global constant; a type in front of it or in its @var comment, [true] for callable, object and resource. *)
Inductive source := Nothing | Literal | OfConstant | Named (extended : bool).
Inductive what := Property (st : bool) (ty : source) | Constant | Method (st : bool).
Record member := { m_name : string; m_what : what; m_access : access }.
Record cls := { c_base : option nat; c_members : list member }.
Inductive global := GFunction (n : string) | GConstant (n : string) | GClass (n : string)
                  | GSuper (n : string) | GVariable (n : string).
(** A program: its classes, a class being named by its place in the list, and what it declares at the level of the file. *)
Record program := { classes : list cls; globals : list global }.

(** Where the cursor is: directly in the body of a method of a class, in a closure in one, or in no class; [st]: the method (or
    the closure) is static. *)
Inductive spot := InMethod (c : nat) (st : bool) | InClosure (c : nat) (st : bool) | Elsewhere.
(** [locals]: the variables of the function the cursor stands in, with the places they are declared at; [outer]: those of the
    functions around it; [at_]: the cursor. *)
Record place := { where_ : spot; locals : list (string * nat); outer : list string; at_ : nat }.

Inductive decl := DVar (n : string) (start : nat) | DOuter (n : string) | DMember (c : nat) (m : member)
                | DGlobal (g : global).

(** AbstractType::ConstModifier on the type of a member.  Constants: TypeBuilder::visitConstantDeclaration and
    visitClassConstantDeclaration, duchain/builders/typebuilder.cpp 365-395.  Properties: visitClassVariable 348-363 takes the
    type of the value (getTypeForNode 249-270); that of a constant is the type of its declaration, with the modifier
    (ExpressionVisitor::visitConstantOrClassConst, duchain/expressionvisitor.cpp 411-457, and
    ExpressionEvaluationResult::setDeclarations, duchain/expressionevaluationresult.cpp 60-69).  IntegralTypeExtended sets it in
    its constructor, duchain/types/integraltypeextended.cpp 28-33. *)
Definition constType (w : what) : bool :=
  match w with
  | Constant => true
  | Property _ OfConstant => true
  | Property _ (Named extended) => extended
  | _ => false
  end.

(** ClassMemberDeclaration::isStatic: DeclarationBuilder::openClassMemberDeclaration, duchain/builders/declarationbuilder.cpp
    573-587; constants 639, 690. *)
Definition isStatic (w : what) : bool :=
  match w with Property st _ => st | Constant => true | Method st => st end.
Definition isFunction (d : decl) : bool :=
  match d with
  | DMember _ m => match m_what m with Method _ => true | _ => false end
  | DGlobal (GFunction _) => true
  | _ => false
  end.

(** prettyName, duchain/helper.cpp 403-421 *)
Definition declName (d : decl) : string :=
  match d with
  | DVar n _ => n
  | DOuter n => n
  | DMember _ m => m_name m
  | DGlobal (GFunction n) | DGlobal (GConstant n) | DGlobal (GClass n) | DGlobal (GSuper n) | DGlobal (GVariable n) => n
  end.

(** NormalDeclarationCompletionItem::declarationName, completion/item.cpp 40-80, for NoMemberAccess.  The parent of the context
    of the cursor is a class exactly in the body of a method. *)
Definition declarationName (s : spot) (d : decl) : string :=
  let ret := declName d in
  match d with
  | DVar _ _ | DOuter _ | DGlobal (GSuper _) | DGlobal (GVariable _) => ("$" ++ ret)%string
  | DGlobal _ => ret
  | DMember _ m =>
      let ret := if isFunction d then ret
                 else if isStatic (m_what m) && negb (constType (m_what m)) then ("$" ++ ret)%string else ret in
      match s with
      | InMethod _ _ => ((if isStatic (m_what m) then "self::" else "$this->") ++ ret)%string
      | _ => ret
      end
  end.

(** NormalDeclarationCompletionItem::executed, completion/item.cpp 82-87: parentheses behind the name of a function. *)
Definition written (s : spot) (d : decl) : string :=
  (declarationName s d ++ (if isFunction d then "()" else ""))%string.

(** DUContext::allDeclarations of the platform on the context of a class: its members, then those of the classes it imports,
    its base classes. *)
Fixpoint chain (fuel : nat) (p : program) (c : nat) : list decl :=
  match fuel with
  | 0 => []
  | S fuel =>
      match nth_error (classes p) c with
      | None => []
      | Some k =>
          map (DMember c) (c_members k) ++
          match c_base k with Some b => chain fuel p b | None => [] end
      end
  end.
(** The contexts around the cursor, from the inside to the outside. *)
Definition visible (p : program) (pl : place) : list decl :=
  map (fun v => DVar (fst v) (snd v)) (locals pl) ++
  map DOuter (outer pl) ++
  match where_ pl with
  | InMethod c _ | InClosure c _ => chain (List.length (classes p)) p c
  | Elsewhere => []
  end ++
  map DGlobal (globals p).

(** Declaration::Instance *)
Definition isInstance (d : decl) : bool :=
  match d with
  | DMember _ m => match m_what m with Method _ => false | _ => true end
  | DGlobal (GFunction _) | DGlobal (GClass _) => false
  | _ => true
  end.
(** CodeCompletionContext::isValidCompletionItem for NoMemberAccess, completion/context.cpp 1738-1760 *)
Definition valid (pl : place) (d : decl) : bool :=
  match d with
  | DMember c m =>
      match m_access m with
      | Priv => match where_ pl with InMethod c' _ => Nat.eqb c c' | _ => false end
      | _ => true
      end
  | DVar _ start => Nat.leb start (at_ pl)
  | _ => true
  end.
(** Variables of contexts that are not imported, completion/context.cpp 1446-1452 *)
Definition foreign (d : decl) : bool :=
  match d with DOuter _ | DGlobal (GVariable _) => true | _ => false end.
(** CodeCompletionContext::completionItems, completion/context.cpp 1438-1473: from the outside to the inside. *)
Fixpoint pick (pl : place) (l : list decl) (seen : list string) : list decl :=
  match l with
  | [] => []
  | d :: r =>
      if isInstance d then
        if foreign d then pick pl r seen
        else if existsb (String.eqb (declName d)) seen then pick pl r seen
        else (if valid pl d then [d] else []) ++ pick pl r (declName d :: seen)
      else (if valid pl d then [d] else []) ++ pick pl r seen
  end.
Definition offered (p : program) (pl : place) : list decl := pick pl (rev (visible p pl)) [].

(** ** The line *)
(** A character a name is made of: \w of the regular expressions. *)
Definition wordChar (a : ascii) : bool :=
  let n := nat_of_ascii a in
  ((48 <=? n) && (n <=? 57)) || ((65 <=? n) && (n <=? 90)) || ((97 <=? n) && (n <=? 122)) || (n =? 95).
Fixpoint dropWord (l : list ascii) : list ascii :=
  match l with
  | a :: r => if wordChar a then dropWord r else l
  | [] => []
  end.
Definition dollar : ascii := "$"%char.
(** CodeCompletionModel::completionRange, completion/model.cpp 50-65: the word around the cursor, which the platform finds, and
    one [$] in front of it.  The line is given as what stands left of the cursor, backwards, and what stands right of it; so is
    what is left of the range and right of it. *)
Definition outside (before after : list ascii) : list ascii * list ascii :=
  let b := dropWord before in
  (match b with a :: r => if Ascii.eqb a dollar then r else b | [] => [] end, dropWord after).
(** NormalDeclarationCompletionItem::execute of the platform: the range is replaced by the text. *)
Definition accepted (before after : list ascii) (text : list ascii) : list ascii :=
  let (b, a) := outside before after in rev b ++ text ++ a.
(** CodeCompletionModel::shouldAbortCompletion, completion/model.cpp 67-76: what is typed so far must match ^\$?(\w* ). *)
Definition goesOn (typed : list ascii) : bool :=
  match typed with
  | a :: r => if Ascii.eqb a dollar then forallb wordChar r else forallb wordChar typed
  | [] => true
  end.
