(** Specification vocabulary for C28, C29 and C53. *)
From Verif Require Import Chars LookModel.

(** Two spellings of a word that differ at most in case. *)
Definition sameUpToCase (cc : CharClass) (a b : qstring) : Prop :=
  Forall2 (fun x y => toLower cc x = toLower cc y) a b.
Definition samePath (cc : CharClass) (a b : list qstring) : Prop := Forall2 (sameUpToCase cc) a b.

(** The names PHP reserves for the enclosing class. *)
Definition selfNames : list qstring := [str "self"; str "static"; str "parent"].
Definition reservedName (id : QId) : Prop := exists n, In n selfNames /\ qParts id = [n].

(** The namespace in force at a position: the innermost enclosing namespace scope. *)
Inductive inNamespace : Chain -> list qstring -> Prop :=
| inHere c up : cKind c = CNamespace -> inNamespace (c :: up) (scopeIdentifier (c :: up))
| inUp c up p : cKind c <> CNamespace -> inNamespace up p -> inNamespace (c :: up) p
| inGlobal : inNamespace [] [].

(** Full name of what an identifier means at a position. *)
Inductive fullName (ch : Chain) : QId -> list qstring -> Prop :=
| fullGlobal l : fullName ch {| qGlobal := true; qParts := l |} l
| fullLocal l p : inNamespace ch p -> fullName ch {| qGlobal := false; qParts := l |} (p ++ l).

(** The innermost class around a position, at any depth. *)
Inductive insideClass : Chain -> Ctx -> Prop :=
| icHere c up : cKind c = CClass -> insideClass (c :: up) c
| icUp c up k : cKind c <> CClass -> insideClass up k -> insideClass (c :: up) k.

(** The kinds of declaration a user asks for. *)
Definition wanted (t : DeclarationType) (w : What) : Prop :=
  match t with
  | ClassDT => w = WClass
  | FunctionDT => w = WFunction
  | ConstantDT => w = WConst \/ (exists b, w = WDefine b) \/ w = WUseAlias
  | GlobalVariableDT => exists b, w = WVariable b
  | NamespaceDT => w = WNamespace \/ w = WNamespaceAlias \/ w = WClass
  end.
