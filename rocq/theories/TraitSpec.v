(** What importing traits means, independent of the scanning loops. *)
From Verif Require Import TraitModel.

(** A declaration of the class that takes the place of trait member [m]. *)
Definition hides (l : Loc) (m : Member) : Prop := l_aliasOf l = Some (m_id m) \/ l_name l = m_name m.

(** [l] is a faithful copy of trait member [m]. *)
Definition copyOf (l : Loc) (m : Member) : Prop :=
  l_name l = m_name m /\ l_isMethod l = m_isMethod m /\ l_access l = m_access m /\
  l_static l = m_static m /\ l_aliasOf l = Some (m_id m) /\ l_kind l <> Own.

(** The traits in front of the first one that does not resolve. *)
Fixpoint resolvedPrefix (ts : list (option TraitD)) : list TraitD :=
  match ts with Some t :: r => t :: resolvedPrefix r | _ => [] end.

(** Well-formed traits: no name twice in one of them. *)
Definition distinctNames (t : TraitD) : Prop := NoDup (map m_name (t_members t)).

Definition ownMember (l : Loc) : Prop := l_kind l = Own /\ l_aliasOf l = None.

(** A declaration of the class itself is no alias. *)
Definition wfLoc (l : Loc) : Prop := l_kind l = Own -> l_aliasOf l = None.
