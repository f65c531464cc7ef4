(** Which members a value may have. *)
From Coq Require Import List Bool Arith NArith.
From Verif Require Import PhpTypes MergeModel MemModel.
Import ListNotations.

Definition idOf (c : cls) : N := match c with Cls n _ _ => n end.
Definition ownOf (c : cls) : list member := match c with Cls _ o _ => o end.
Definition impsOf (c : cls) : list cls := match c with Cls _ _ i => i end.
(** [Above x c]: [x] is [c] or a class or interface it extends or implements, directly or not. *)
Inductive Above : cls -> cls -> Prop :=
| A_self c : Above c c
| A_up x i c : In i (impsOf c) -> Above x i -> Above x c.
(** A value of class [c] has [m]: a member the class declares or inherits. *)
Definition has (c : cls) (m : member) : Prop := exists x, Above x c /\ In m (ownOf x).
(** [reaches c n m]: an access by the name [n] reaches [m], the nearest declaration. *)
Inductive reaches : cls -> nat -> member -> Prop :=
| R_own c n m : In m (ownOf c) -> mname m = n -> reaches c n m
| R_up c n m i : (forall x, In x (ownOf c) -> mname x <> n) -> In i (impsOf c) -> reaches i n m -> reaches c n m.
(** What may stand behind -> ([stat] = false) or ::. *)
Definition usable (stat : bool) (m : member) : Prop := mstatic m = stat /\ mname m <> 0.
(** The identities of classes above [c] are their own. *)
Definition coherent (c : cls) : Prop := forall x y, Above x c -> Above y c -> idOf x = idOf y -> x = y.
(** Every declared member has its own identity. *)
Definition distinct (c : cls) : Prop :=
  (forall x, Above x c -> NoDup (map mid (ownOf x))) /\
  (forall x y a b, Above x c -> Above y c -> In a (ownOf x) -> In b (ownOf y) -> mid a = mid b -> x = y).
