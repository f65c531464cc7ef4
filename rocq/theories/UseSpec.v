(** Specification for C49. *)
From Verif Require Import Chars LookModel UseModel.

Section Spec.
Variables (D Node : Type) (declaredAt : D -> Node -> bool) (deprecated : D -> bool).
Variable find : DeclarationType -> QId -> option D.

(** The name resolves to something of the requested kind, or to a namespace. *)
Definition resolves (t : DeclarationType) (global : bool) (parts : list qstring) : Prop :=
  find t {| qGlobal := global; qParts := parts |} <> None \/ find NamespaceDT {| qGlobal := global; qParts := parts |} <> None.
(** The scope it is looked up in: as written if it resolves there, else globally if it resolves
    there, else as written. *)
Inductive scope (t : DeclarationType) (global : bool) (parts : list qstring) : bool -> Prop :=
| sc_here : resolves t global parts -> scope t global parts global
| sc_global : ~ resolves t global parts -> resolves t true parts -> scope t global parts true
| sc_none : ~ resolves t global parts -> ~ resolves t true parts -> scope t global parts global.

(** A use at node [n] for what [t] finds for [parts]; [missing]: report if there is nothing. *)
Definition useFor (t : DeclarationType) (global : bool) (parts : list qstring) (missing : bool) (n : Node) (u : UseRec D Node) : Prop :=
  uNode u = n /\ uDec u = find t {| qGlobal := global; qParts := parts |} /\
  (uReport u = NotFound <-> uDec u = None /\ missing = true) /\
  (uReport u = Deprecated <-> exists d, uDec u = Some d /\ deprecated d = true).
(** What component number [i] of [parts] gives, put at node [n]: a use for the namespace that ends
    there, or nothing if that namespace is declared at this very node. *)
Definition component (global : bool) (parts : list qstring) (i : nat) (n : Node) (l : list (UseRec D Node)) : Prop :=
  (exists d, find NamespaceDT {| qGlobal := global; qParts := firstn (S i) parts |} = Some d /\ declaredAt d n = true /\ l = []) \/
  ((forall d, find NamespaceDT {| qGlobal := global; qParts := firstn (S i) parts |} = Some d -> declaredAt d n = false) /\
   exists u, l = [u] /\ useFor NamespaceDT global (firstn (S i) parts) true n u).
(** All uses of a name: one group per component but the last, then one for the whole name. *)
Definition usesOfName (t : DeclarationType) (global : bool) (parts : list qstring) (nodeOf : nat -> option Node)
    (first : nat) (l : list (UseRec D Node)) : Prop :=
  exists groups u n, l = List.concat groups ++ [u] /\ List.length groups = (List.length parts - 1 - first)%nat /\
    (forall k g, nth_error groups k = Some g -> exists n, nodeOf (first + k)%nat = Some n /\ component global parts (first + k) n g) /\
    nodeOf (List.length parts - 1)%nat = Some n /\
    useFor t global parts (match t with GlobalVariableDT => false | _ => true end) n u.
End Spec.
