(** Which names of classes, functions and constants become uses: the walk of UseBuilder over a file, and that of
    ExpressionVisitor over the expressions in it.

    A name is given by its place.  What it is connected to, and the namespaces before its last component, are in
    UseModel.v; variables in OccModel.v, members in ChainModel.v.  Strings that have the name of a class
    (expressionvisitor.cpp 467-481) are left out, and so are, behind new and instanceof, static members named by an expression
    and the members of a variable behind -> and :: with what is in them (visitClassNameReference 722-728, 731-830: read only
    if the class is known). *)
From Coq Require Import List Bool Arith.
Import ListNotations.
Open Scope nat_scope.

Inductive kind := Class | Function | Constant.

(** ** The syntax tree, parser/php.g: as far as names are in it *)
Inductive ex :=
| Sub (parts : list ex)                                      (* any other node *)
| Expr (e : ex)                                              (* rule expr *)
| New (c : nat) (args : list ex)                             (* new C(..) *)
| NewStatic (c : option nat) (index args : list ex)          (* new C::$x[..](..), or new static::$x[..](..) *)
| InstanceOf (e : ex) (c : nat)                              (* e instanceof C *)
| InstanceOfStatic (e : ex) (c : option nat) (index : list ex)
| Call (f : nat) (args : list ex)                            (* f(..) *)
| StaticCall (c : nat) (args : list ex)                      (* C::f(..) *)
| StaticCallExpr (c : nat) (e : ex) (args : list ex)         (* C::{e}(..), e: an expr *)
| StaticCallVar (c : nat) (index args : list ex)             (* C::$f[..](..) *)
| Const (c : nat)                                            (* a constant; not true, false, null *)
| ClassConst (c : nat)                                       (* C::X *)
| StaticMember (c : nat) (index : list ex)                   (* C::$x[..] *)
| StaticMemberExpr (c : nat) (e : ex) (index : list ex)      (* C::${e}[..], e: an expr *)
| Closure (hints : list nat) (defaults : list ex) (ret : list nat) (body : st)
with st :=
| Seq (l : list st)                                          (* any other node with statements or members of a class *)
| Do (e : ex)                                                (* an expr that is part of a statement *)
| StaticVar (v : ex)                                         (* the staticScalar of a static variable *)
| Foreach (v : ex) (isVar : bool) (targets : list ex) (body : st)
| Unset (vars : list ex)
| Catch (cs : list nat) (body : st)
| Func (hints : list nat) (defaults : list ex) (ret : list nat) (body : st)
| ClassDecl (extends implements : list nat) (members : list st)
| Traits (cs : list nat) (imports : list (list nat * nat))   (* use A, B { C::f insteadof D, E; .. } *)
| Property (hints : list nat) (values : list ex)             (* values: staticScalars *)
| Method (hints : list nat) (defaults : list ex) (ret : list nat) (body : st)
| Use (names : list (nat * kind)).                           (* use A\B, C; *)
(** Hints are the classes among the types of parameters (written here in front of the values of parameters) and
    properties and of what is returned: helper.cpp 76-100 tells them from builtin types.  In a [Foreach], [v] is a variable
    (foreachVar) or an expr (foreachExpr).  Values of parameters are exprs.  Groups in use statements are in UseModel.v;
    constants are [Seq [Do e; ..]]. *)

(** What happens: a name becomes a use; a null pointer is followed. *)
Inductive event := Used (p : nat) (k : kind) | Null.
Definition classes (l : list nat) : list event := map (fun p => Used p Class) l.

Section Walk.
(** Is the class named here found? *)
Variable known : nat -> bool.

(** findClassContext, duchain/expressionvisitor.cpp 377-397, for [new C::$x] (visitClassNameReference 718-720): behind
    [static] there is no identifier, and identifierForNamespace (helper.cpp) follows the null pointer. *)
Definition reference (c : option nat) : list event := match c with Some c => [Used c Class] | None => [Null] end.
Definition again (c : option nat) : list event := match c with Some c => [Used c Class] | None => [] end.

(** ExpressionVisitor.  The visit functions that are not overridden visit all parts.  [walkS]: in a closure. *)
Fixpoint walkE (n : ex) : list event :=
  match n with
  | Sub l => flat_map walkE l
  | Expr e => walkE e
  | New c args => flat_map walkE args ++ [Used c Class]                                             (* 198-214 *)
  | NewStatic c index args => reference c ++ flat_map walkE index ++ flat_map walkE args ++ again c (* 715-741, 198-214 *)
  | InstanceOf e c => walkE e ++ [Used c Class]                                                     (* 871-882 *)
  | InstanceOfStatic e c index => walkE e ++ reference c ++ flat_map walkE index ++ again c
  | Call f args => flat_map walkE args ++ [Used f Function]                                         (* 318, 350-360 *)
  | StaticCall c args => flat_map walkE args ++ [Used c Class]                                      (* 323-326 *)
  | StaticCallExpr c e args => walkE e ++ flat_map walkE args ++ [Used c Class]                     (* 344-349 *)
  | StaticCallVar c index args => flat_map walkE index ++ flat_map walkE args                       (* 342-343 *)
  | Const c => [Used c Constant]                                                                    (* 425-440 *)
  | ClassConst c => [Used c Class]                                                                  (* 403-406 *)
  | StaticMember c index =>                                                                         (* 683-691, 705-710 *)
      Used c Class :: (if known c then [] else [Used c Class]) ++ flat_map walkE index
  | StaticMemberExpr c e index => Used c Class :: walkE e ++ flat_map walkE index                   (* 692-710 *)
  | Closure hints defaults ret body =>                                                              (* 221-259, 934-943 *)
      walkS body ++ classes ret ++ classes hints ++ flat_map walkE defaults
  end
with walkS (n : st) : list event :=
  match n with
  | Seq l => flat_map walkS l
  | Do e => walkE e
  | StaticVar v => walkE v                                                                          (* 501-508 *)
  | Foreach v _ targets body => walkE v ++ flat_map walkE targets ++ walkS body
  | Unset vars => flat_map walkE vars
  | Catch _ body => walkS body
  | Func hints defaults ret body | Method hints defaults ret body =>
      classes hints ++ flat_map walkE defaults ++ classes ret ++ walkS body
  | ClassDecl _ _ members => flat_map walkS members
  | Traits _ _ => []
  | Property hints values => classes hints ++ flat_map walkE values
  | Use _ => []
  end.

(** visitTraitAliasStatement, duchain/builders/usebuilder.cpp 101-131 *)
Definition import (i : list nat * nat) : list event := classes (fst i) ++ [Used (snd i) Class].
(** UseBuilder in a variable that is no part of an expr: DefaultVisitor, until an expr comes, which is left to
    ExpressionVisitor (usebuilder.cpp 138-141, 353-362).  By the grammar, new, instanceof, constants and closures are not
    met here. *)
Fixpoint walkV (n : ex) : list event :=
  match n with
  | Sub l => flat_map walkV l
  | Expr e => walkE e
  | New _ args | Call _ args | StaticCall _ args => flat_map walkV args
  | NewStatic _ index args | StaticCallVar _ index args => flat_map walkV index ++ flat_map walkV args
  | InstanceOf e _ => walkV e
  | InstanceOfStatic e _ index => walkV e ++ flat_map walkV index
  | StaticCallExpr _ e args => walkE e ++ flat_map walkV args
  | Const _ | ClassConst _ | Closure _ _ _ _ => []
  | StaticMember _ index => flat_map walkV index
  | StaticMemberExpr _ e index => walkE e ++ flat_map walkV index
  end.
(** UseBuilder, duchain/builders/usebuilder.cpp 48-198, and ContextBuilder, contextbuilder.cpp 242-364.  The visit functions
    that are not overridden visit all parts. *)
Fixpoint walk (n : st) : list event :=
  match n with
  | Seq l => flat_map walk l
  | Do e => walkE e                                                                                 (* 138-141 *)
  | StaticVar _ => []                                        (* 154-159: the current context is not that of a class *)
  | Foreach v isVar targets body =>                                                                 (* 161-180 *)
      (if isVar then walkE v else []) ++ flat_map walkE targets
      ++ (if isVar then walkV v else walkE v) ++ flat_map walkV targets ++ walk body
  | Unset vars => flat_map walkE vars ++ flat_map walkV vars                                        (* 165-167, 179 *)
  | Catch cs body => classes cs ++ walk body                                                        (* 182-197 *)
  | Func hints defaults ret body | Method hints defaults ret body =>                                (* 48-56, 350-362 *)
      classes hints ++ flat_map walkE defaults ++ classes ret ++ walk body
  | ClassDecl ext impl members => classes ext ++ classes impl ++ flat_map walk members              (* 58-72 *)
  | Traits cs imports => classes cs ++ flat_map import imports ++ flat_map import imports           (* 74-99, DefaultVisitor *)
  | Property hints values => classes hints ++ flat_map walkE values                                 (* 154-159 *)
  | Use names => map (fun x => Used (fst x) (snd x)) names                                          (* 225-239 *)
  end.
End Walk.
