(** What "no cyclic inheritance" and "redeclares a method of a parent" mean, independent of the
    algorithms. *)
From Verif Require Import InhModel.

(** [a] records [b] as a direct base. *)
Definition DirectBase (s : St) (a b : nat) : Prop := In b (bas s a).
(** Proper ancestors. *)
Definition Ancestor (s : St) : nat -> nat -> Prop := clos_trans nat (DirectBase s).

(** The parent class of [c]: the first recorded base of kind Class (PHP has single
    inheritance, interfaces are among the bases). *)
Definition Parent (s : St) (c p : nat) : Prop :=
  exists l1 l2, bas s c = l1 ++ p :: l2 /\ kind s p = Some Class /\
                forall x, In x l1 -> kind s x <> Some Class.
Definition ParentAncestor (s : St) : nat -> nat -> Prop := clos_trans nat (Parent s).

(** Some parent, grandparent, ... has a method of that name that may not be redeclared. *)
Definition ForbiddenAbove (s : St) (meths : nat -> option (list Meth)) (c name : nat) (abs : bool) : Prop :=
  exists p ms m, ParentAncestor s c p /\ meths p = Some ms /\ In m ms /\
    m_name m = name /\ m_isFun m = true /\ m_seen m = true /\
    (m_final m = true \/ (m_abstract m = true /\ abs = true)).

(** Histories in which a class context is reopened right after its class is declared again, as a
    builder pass does. *)
Inductive Tidy : list Op -> Prop :=
| tidy_nil : Tidy []
| tidy_rebuild h c k : Tidy h -> Tidy ((h ++ [Declare c k]) ++ [Reopen c])
| tidy_add h r c b : Tidy h -> Tidy (h ++ [AddBase r c b])
| tidy_rem h c : Tidy h -> Tidy (h ++ [Remove c]).

