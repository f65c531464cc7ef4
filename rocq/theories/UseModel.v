(** Uses of namespaced names (duchain/builders/usebuilder.cpp, duchain/expressionvisitor.cpp). *)
From Verif Require Import Chars LookModel.

Section Uses.
(** Declarations, their range as the node they are declared at, if any, and whether their comment
    contains "@deprecated". *)
Variable D : Type.
Variable Node : Type.
Variable declaredAt : D -> Node -> bool.
Variable deprecated : D -> bool.
(** findDeclarationImport (contextbuilder.cpp 557-561, see LookModel) in the current context. *)
Variable find : DeclarationType -> QId -> option D.

Inductive Report := NoReport | NotFound | Deprecated.
(** A use: the node it is put at, the declaration (null: none), the problem reported. *)
Record UseRec := { uNode : Node; uDec : option D; uReport : Report }.
(** usebuilder.cpp 199-207 *)
Definition newCheckedUse (n : Node) (d : option D) (reportNotFound : bool) : UseRec :=
  {| uNode := n; uDec := d;
     uReport := match d with
                | Some x => if deprecated x then Deprecated else NoReport
                | None => if reportNotFound then NotFound else NoReport
                end |}.

Definition setGlobal (id : QId) (b : bool) : QId := {| qGlobal := b; qParts := qParts id |}.
Definition found (o : option D) : bool := match o with Some _ => true | None => false end.
(** usebuilder.cpp 296-317: the identifier, made explicitly global or not. *)
Definition chooseScope (id : QId) (lastType : DeclarationType) : QId :=
  let here id := found (find lastType id) || found (find NamespaceDT id) in
  if here id then id
  else if qGlobal id then id
  else if here (setGlobal id true) then setGlobal id true else setGlobal id false.

(** usebuilder.cpp 322-332: the loop, for index [i] and the parts from there on; [at_ i] is
    namespaceNameSequence->at(i).  KDevPG::ListNode::at looks for the node numbered [i] in a
    circular list: it does not return if there is none ([None]). *)
Fixpoint loop (at_ : nat -> option Node) (global : bool) (prefixCount i : nat) (cur rest : list qstring) : option (list UseRec) :=
  match rest with
  | [] | [_] => Some []
  | p :: rest' =>
      let cur := cur ++ [p] in
      let now :=
        if (prefixCount <=? i)%nat then
          match at_ i with
          | None => None
          | Some n =>
              let d := find NamespaceDT {| qGlobal := global; qParts := cur |} in
              match d with
              | Some x => if declaredAt x n then Some [] else Some [newCheckedUse n d true]
              | None => Some [newCheckedUse n d true]
              end
          end
        else Some [] in
      match now, loop at_ global prefixCount (S i) cur rest' with
      | Some a, Some b => Some (a ++ b)
      | _, _ => None
      end
  end.
(** usebuilder.cpp 333-336 *)
Definition reportsNotFound (t : DeclarationType) : bool :=
  match t with ClassDT | ConstantDT | FunctionDT | NamespaceDT => true | GlobalVariableDT => false end.
(** usebuilder.cpp 289-339; [nodes]: the nodes of namespaceNameSequence, not empty. *)
Definition buildNamespaceUses (id : QId) (prefixCount : nat) (nodes : list Node) (lastType : DeclarationType) : option (list UseRec) :=
  let id := chooseScope id lastType in
  match loop (nth_error nodes) (qGlobal id) prefixCount 0 [] (qParts id), nth_error nodes (List.length nodes - 1) with
  | Some l, Some n => Some (l ++ [newCheckedUse n (find lastType id) (reportsNotFound lastType)])
  | _, _ => None
  end.

Variable cc : CharClass.
Inductive ImportType := NoImportType | ConstantImport | FunctionImport.
(** usebuilder.cpp 240-247, 272-279 *)
Definition typeOfImport (t : ImportType) : DeclarationType :=
  match t with ConstantImport => ConstantDT | FunctionImport => FunctionDT | NoImportType => NamespaceDT end.
Definition isConstImport (t : ImportType) : bool := match t with ConstantImport => true | _ => false end.
(** usebuilder.cpp 284-288: a name in code; [parts] are the symbols of [nodes]. *)
Definition nameUses (name : NsName) (nodes : list Node) (lastType : DeclarationType) : option (list UseRec) :=
  buildNamespaceUses (identifierForNamespace cc name (match lastType with ConstantDT => true | _ => false end)) 0 nodes lastType.
(** usebuilder.cpp 225-239, 270-283: a use statement without group. *)
Definition useStatement (name : NsName) (nodes : list Node) (t : ImportType) : option (list UseRec) :=
  buildNamespaceUses (identifierForNamespace cc name (isConstImport t)) 0 nodes (typeOfImport t).
(** usebuilder.cpp 238-262: one member of a group. *)
Definition groupMember (prefix : NsName) (inner : list qstring) (nodes : list Node) (t : ImportType) : option (list UseRec) :=
  buildNamespaceUses (identifierForGroup cc prefix inner (isConstImport t)) (List.length (nsParts prefix)) nodes (typeOfImport t).
(** usebuilder.cpp 225-236: a use statement with a group: the prefix, then the members. *)
Fixpoint sequence (l : list (option (list UseRec))) : option (list UseRec) :=
  match l with
  | [] => Some []
  | Some a :: r => match sequence r with Some b => Some (a ++ b) | None => None end
  | None :: _ => None
  end.
Definition useGroup (prefix : NsName) (prefixNodes : list Node) (members : list (list qstring * list Node * ImportType)) : option (list UseRec) :=
  sequence (buildNamespaceUses (identifierForNamespace cc prefix false) 0 prefixNodes NamespaceDT ::
            map (fun m => groupMember prefix (fst (fst m)) (snd (fst m)) (snd m)) members).
(** expressionvisitor.cpp 971-982: the components before the last of a name in an expression. *)
Fixpoint exprUses (nodes : list Node) (global : bool) (cur rest : list qstring) : list (Node * option D) :=
  match rest, nodes with
  | p :: ((_ :: _) as rest'), n :: nodes' =>
      (n, find NamespaceDT {| qGlobal := global; qParts := cur ++ [p] |}) :: exprUses nodes' global (cur ++ [p]) rest'
  | _, _ => []
  end.
Definition exprNamespaceUses (id : QId) (nodes : list Node) : list (Node * option D) := exprUses nodes (qGlobal id) [] (qParts id).
End Uses.
Arguments uNode {D Node}. Arguments uDec {D Node}. Arguments uReport {D Node}.
Arguments Build_UseRec {D Node}.
