(** Assigning to a property: is it reported as private or protected?  DeclarationBuilder::visitAssignmentExpressionEqual,
    duchain/builders/declarationbuilder.cpp 1154-1271, for [$this->x = ..] and [$o->x = ..].

    Classes are numbers, names are numbers.  The properties are those declared when the assignment is visited, without one that
    the same assignment declared in an earlier pass (1190-1193, 1236-1239).  Left out: constants of the same name as the
    property, properties of traits, functions declared in functions. *)
From Coq Require Import List Bool Arith.
Import ListNotations.
Open Scope nat_scope.

Inductive vis := Public | Protected | Private.
(** The classes of a program: base classes, and properties with their visibility.  [chain]: a class and all its bases. *)
Record world := {
  parent : nat -> option nat;
  chain : nat -> list nat;
  chain_ok : forall c, chain c = c :: match parent c with Some p => chain p | None => [] end;
  props : nat -> nat -> option vis }.
(** Where the assignment is.  [class]: in a method of it.  [scopes]: the variables of the function it is in, and of those around
    that if it is a closure; [] in no function.  A variable has the class of the object it holds, or none. *)
Record site := { class : option nat; scopes : list (nat -> option (option nat)); globals : nat -> option (option nat) }.
Inductive object := This | Var (o : nat).

Section Check.
Variable w : world.
(** DUContext::findDeclarations in a class: its own, else those of the base class (platform). *)
Fixpoint lookup (x : nat) (l : list nat) : option (nat * vis) :=
  match l with [] => None | c :: r => match props w c x with Some v => Some (c, v) | None => lookup x r end end.
Definition isSet {A} (o : option A) := match o with Some _ => true | None => false end.
Variable s : site.
(** The parent context of the current one is that of this class. *)
Definition around : option nat := match scopes s with [_] => class s | _ => None end.
Definition is (o : option nat) (c : nat) : bool := match o with Some m => m =? c | None => false end.

(** DUContext::imports between classes: the class itself, or a base of it (platform). *)
Definition imports (o : option nat) (c : nat) : bool :=
  match o with Some m => existsb (Nat.eqb c) (chain w m) | None => false end.

(** getClassContext, 1154-1172.  The variable is looked up among those of the file. *)
Definition classContext (o : object) : option nat :=
  match o with
  | This => around
  | Var o => match globals s o with Some c => c | None => None end
  end.
(** currentContext()->findDeclarations, 1189: variables, the class, global variables; 1189-1208: what is kept of that. *)
Definition known (x : nat) : bool :=
  if existsb (fun sc => isSet (sc x)) (scopes s) then true
  else match match scopes s, class s with [], _ | _, None => None | _, Some m => lookup x (chain w m) end with
       | Some (c, Private) => is around c
       | Some _ => true
       | None => isSet (globals s x)
       end.
(** ctx->findDeclarations, 1235-1245: the class, else the global variables. *)
Definition check (o : object) (x : nat) : option vis :=
  match classContext o with
  | None => None
  | Some d =>
      if known x then None
      else if imports around d then None                                              (* 1230 *)
      else match lookup x (chain w d) with
           | Some (c, Private) => if is around c then None else Some Private           (* 1258-1260 *)
           | Some (c, Protected) => if is around c then None else Some Protected       (* 1261-1263 *)
           | _ => None
           end
  end.
End Check.
