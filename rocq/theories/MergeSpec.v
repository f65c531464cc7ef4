(** Vocabulary for C21 and C22. *)
From Verif Require Export MergeModel.
Open Scope nat_scope.

(** The distinct types of a history, in order of first occurrence. *)
Fixpoint firsts (l : list ty) : list ty :=
  match l with
  | [] => []
  | t :: r => t :: filter (fun x => negb (teq x t)) (firsts r)
  end.
(** Nothing is known as long as only mixed was seen. *)
Fixpoint dropMixed (l : list ty) : list ty :=
  match l with t :: r => if isMixed t then dropMixed r else l | [] => [] end.
Definition plain (t : ty) : Prop := match t with Unsure _ | Ref _ => False | _ => True end.
Definition unionOf (l : list ty) : ty :=
  match l with [] => Integral KMixed | [t] => t | _ => Unsure l end.

(** Types in a state where something definite is known. *)
Definition settled (c : ty) : Prop := c <> Integral KMixed /\ c <> Ref (Integral KMixed).

(** The return statements of a function itself, not of functions nested in it. *)
Definition noRef (t : ty) : ty := match t with Ref b => b | _ => t end.
Definition ownReturns (b : list stmt) : list ty :=
  flat_map (fun s => match s with SReturn (Some t) => [noRef t] | _ => [] end) b.
(** Every function nested in [b], at any depth, has (has not) its return type fixed. *)
Fixpoint nestedS (v : bool) (s : stmt) : Prop :=
  match s with
  | SReturn _ => True
  | SFun fixed body => isSome fixed = v /\ (fix go b := match b with [] => True | s :: b' => nestedS v s /\ go b' end) body
  end.
Fixpoint nested (v : bool) (b : list stmt) : Prop :=
  match b with [] => True | s :: b' => nestedS v s /\ nested v b' end.

(** No pair of a callable and a function among the types. *)
Definition noPair (l : list ty) : Prop := Forall (fun t => isFunc t = false) l \/ Forall (fun t => isCallable t = false) l.

