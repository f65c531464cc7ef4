(** Completion behind -> and :: — which classes the members are taken from (memberAccessContainers,
    completion/context.cpp 1047-1080) and which members are offered (1356-1425).  Visibility is left to ClsModel.v: members are
    public here. *)
From Coq Require Import List Bool Arith NArith.
From Verif Require Import PhpTypes.
Import ListNotations.
Open Scope list_scope.

(** A member: its identifier (0: empty), static (constants are), identity.  A class: identity, members, and the contexts it
    imports: base class and interfaces (contextbuilder.cpp 429-459); without cycles (C19). *)
Record member := { mname : nat; mstatic : bool; mid : nat }.
Inductive cls := Cls (cid : N) (own : list member) (imps : list cls).

Section Mem.
(** The context of the declaration of a class type; none if there is no declaration or it has no context (1063-1077). *)
Variable ctxOf : N -> option cls.

(** 1049-1059: the types looked at. *)
Definition targets (t : ty) : list ty :=
  match t with Unsure l => l | Ref b => [b] | _ => [t] end.
(** 1060-1078: only class types are IdentifiedTypes. *)
Definition containers (t : ty) : list cls :=
  flat_map (fun t => match t with Struct d => match ctxOf d with Some c => [c] | None => [] end | _ => [] end) (targets t).

(** DUContext::allDeclarations (platform) without search in parents: the declarations of the context and of all it imports,
    every context once.  Left out: the order, which is by depth. *)
Fixpoint all (c : cls) (seen : list N) : list N * list member :=
  match c with
  | Cls n own imps =>
      if existsb (N.eqb n) seen then (seen, [])
      else fold_left (fun a i => (fst (all i (fst a)), snd a ++ snd (all i (fst a)))) imps (n :: seen, own)
  end.

(** 1375-1382, 1416: the operator and the name. *)
Definition fits (stat : bool) (m : member) : bool := Bool.eqb stat (mstatic m) && negb (Nat.eqb (mname m) 0).
Definition offered (stat : bool) (t : ty) : list member :=
  flat_map (fun c => filter (fits stat) (snd (all c []))) (containers t).
End Mem.
