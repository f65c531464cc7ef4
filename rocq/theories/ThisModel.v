(** Assigning to $this: the beginning of DeclarationBuilder::declareVariable, duchain/builders/declarationbuilder.cpp 1006-1064,
    as visitAssignmentExpressionEqual (1268-1288) calls it. *)
From Coq Require Import List Bool Arith NArith String.
From Verif Require Import PhpTypes Chars LexModel ComplModel.
Import ListNotations.
Open Scope list_scope.

(** A class, trait or interface: its name as spelled (prettyName), is it an interface, abstract, in a namespace; the
    identifiers of its methods (in lower case, contextbuilder.cpp 190-222), each with a body; the class it extends, the
    interfaces it implements (for an interface: extends).  There are no cycles (C19). *)
Inductive cls := Cls (name : qstring) (iface abstr inns : bool) (methods : list qstring) (base : option cls) (ifs : list cls).

(** Where the assignment stands: directly in a method of a class (the parent of the current context is the class), or elsewhere:
    in a closure, in a function, outside of both. *)
Inductive place := InMethod (c : cls) | Elsewhere.

(** What happens: the variable is declared as any other; "Cannot re-assign $this."; "contains n abstract methods"; nothing;
    memory is read that belongs to no such object. *)
Inductive out := Declared | ReAssign | Missing (n : nat) | Nothing | Undefined.

(** 1026-1028: the interface ArrayAccess, declared outside of namespaces. *)
Definition isArrayAccess (c : cls) : bool :=
  match c with Cls n iface _ inns _ _ _ => eqs n (str "ArrayAccess") && iface && negb inns end.
(** 1021-1032: the imported contexts of the class: base class and interfaces (contextbuilder.cpp 429-459). *)
Definition arrayAccess (c : cls) : bool :=
  match c with Cls _ _ _ _ _ base ifs =>
    existsb isArrayAccess (match base with Some b => b :: ifs | None => ifs end) end.
(** 1044 *)
Definition counted (n : qstring) : bool :=
  eqs n (str "offsetexists") || eqs n (str "offsetget") || eqs n (str "offsetset") || eqs n (str "offsetunset").
(** 1038-1058.  The number printed is 4 - noOfFunc. *)
Definition complete_ (c : cls) : out :=
  match c with Cls _ _ abstr _ methods _ _ =>
    let noOfFunc := List.length (filter counted methods) in
    if Nat.ltb noOfFunc 4 then if abstr then Nothing else Missing (4 - noOfFunc) else Nothing end.
(** 1034-1036: a cast to IntegralType that is not checked, and whether it is the type of arrays. *)
Definition asArray (t : ty) : option bool := match t with Integral k => Some (ikind_eqb k KArray) | _ => None end.
Definition declareThis (p : place) (t : ty) : out :=
  match p with
  | Elsewhere => Declared                                                            (* 1015-1017 *)
  | InMethod c =>
      if arrayAccess c then
        match asArray t with
        | None => Undefined
        | Some true => complete_ c
        | Some false => ReAssign                                                     (* 1061 *)
        end
      else ReAssign
  end.
(** $this = v, with [elem] $this[..] = v, where [v] has type [t]; 1272-1276: the type of a variable whose element is assigned
    is that of arrays. *)
Definition assignThis (p : place) (elem : bool) (t : ty) : out := declareThis p (if elem then Integral KArray else t).
