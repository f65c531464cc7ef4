(** Call tips: which declaration's arguments are shown while the arguments of a call are written
    (CodeCompletionContext::completionItems, completion/context.cpp 1543-1595).

    Which calls enclose the cursor and what is called there is read elsewhere (ComplModel.v, ExprModel.v). *)
From Coq Require Import List Bool Arith NArith String.
From Verif Require Import Chars LexModel ComplModel.
Import ListNotations.
Open Scope list_scope.

Inductive mkind := Method | Property | Constant.
(** A member of a class: kind, name as spelled (a property without the $), identity. *)
Record member := { mk : mkind; mname : qstring; mid : nat }.
(** A class: name as spelled, whether it stands in a namespace, its members in the order of their declaration, the class it
    extends, the interfaces it implements.  For an interface: no base, the interfaces it extends.  There are no cycles (C19). *)
Inductive cls := Cls (name : qstring) (inns : bool) (own : list member) (base : option cls) (ifs : list cls).

(** What the scopes a class stands in, and the files they see, declare with an identifier: whether it is a function,
    identity. *)
Definition around := qstring -> list (bool * nat).

(** A declaration that is called: a function or method; a class, behind new; something else, with a function type (a closure
    in a variable) or not. *)
Inductive what := Fun (id : nat) | Class (c : cls) (a : around) | Other (id : nat) (callable : bool).
(** [shown]: the declaration passes isValidCompletionItem (1654-1664): its range is not empty, it is no unnamed type.  The
    rest of that function filters in kinds of completion that have no enclosing call. *)
Record decl := { dwhat : what; shown : bool }.
(** A context around the completion context: is its operation a call (else it is skipped), the declarations of
    memberAccessContainer(). *)
Record level := { call : bool; decls : list decl }.

Section Tips.
Variable cc : CharClass.

(** Identifiers: methods in lower case (contextbuilder.cpp 190-222, declarationbuilder.cpp 318-327), properties and constants
    as spelled (543-560, 646-689). *)
Definition ident (m : member) : qstring := match mk m with Method => map (toLower cc) (mname m) | _ => mname m end.
Definition isMethod (m : member) : bool := match mk m with Method => true | _ => false end.

(** DUContext::findDeclarations in a class context (platform), as in ChainModel.v: the own declarations; if there are none
    with the identifier, those of the imported contexts (base class and interfaces in the order written, contextbuilder.cpp
    429-459) from the last to the first; once something is found only the own declarations of further imports are added. *)
Fixpoint search (i : qstring) (c : cls) (acc : list member) {struct c} : list member :=
  match c with
  | Cls _ _ own base ifs =>
      match acc ++ filter (fun m => eqs (ident m) i) own with
      | [] => let l := fold_right (fun c a => search i c a) [] ifs in
              match base with Some b => search i b l | None => l end
      | l => l
      end
  end.
(** ... and, if the class and its bases have none, those of the scopes around the class.  Functions among them, in order. *)
Definition functions (i : qstring) (c : cls) (a : around) : list nat :=
  match search i c [] with
  | [] => map snd (filter fst (a i))
  | l => map mid (filter isMethod l)
  end.

Definition className (c : cls) : qstring := match c with Cls n _ _ _ _ => n end.
(** "search for ctor", 1558-1574: __construct, else the identifier of the class (in lower case, declarationbuilder.cpp
    175-190). *)
Definition ctor (c : cls) (a : around) : option nat :=
  match functions (str "__construct") c a with
  | d :: _ => Some d
  | [] => match functions (map (toLower cc) (className c)) c a with d :: _ => Some d | [] => None end
  end.

(** 1549-1589; memberAccessContainer().allDeclarationIds().first() is the declaration called. *)
Definition tipOf (l : level) : option nat :=
  if call l then
    match decls l with
    | [] => None
    | d :: _ =>
        if shown d then
          match dwhat d with
          | Fun id => Some id
          | Class c a => ctor c a
          | Other id callable => if callable then Some id else None
          end
        else None
    end
  else None.

(** The loop, 1543-1595, from the innermost context [k] outwards; "continue" in a do loop goes on to its condition.  [abort k]:
    the user gave up before round [k]. *)
Fixpoint tips (abort : nat -> bool) (k : nat) (ls : list level) : list (nat * nat) :=
  if abort k then [] else
  match ls with
  | [] => []
  | l :: r => match tipOf l with Some t => (k, t) :: tips abort (S k) r | None => tips abort (S k) r end
  end.
End Tips.
