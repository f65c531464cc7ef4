(** Which properties of its object a method gives a value to, and for which methods the walk is
    claimed to find exactly these. *)
From Coq Require Import List Bool Arith.
From Verif Require Import PhpTypes MergeModel VarModel VarSpec.
Import ListNotations.
Open Scope nat_scope.

(** [n] is the property [$this->x], perhaps with an index. *)
Inductive IsProp : nd -> nat -> Prop :=
| Is_prop p q x idx parts : IsProp (Var (BName p this false) [{| sname := Some (q, x); sindexed := idx; scalled := false |}] parts) x.
(** What is assigned to in [l = r], as [Target] in VarSpec.v. *)
Inductive TargetP : nd -> nat -> Prop :=
| TP_prop n x : IsProp n x -> TargetP n x
| TP_op l n x : TargetP n x -> TargetP (Op (l ++ [n])) x.
(** [n] gives the property [$this->x] a value, not counting functions inside. *)
Inductive GivesP : nd -> nat -> Prop :=
| H_assign l r x : TargetP l x -> GivesP (Assign l r) x
| H_ref c args i a x : nth_error args i = Some a -> nth i (refs c) false = true -> IsProp a x -> GivesP (Call c args) x
| H_elem n x : IsProp n x -> GivesP (Elem n) x
| H_each1 e v1 v2 b x : IsProp v1 x -> GivesP (Foreach e v1 v2 b) x
| H_each2 e v1 v2 b x : IsProp v2 x -> GivesP (Foreach e v1 (Some v2) b) x
| H_part n k x : Part n k -> GivesP k x -> GivesP n x.
(** [n] speaks of a variable [$x]. *)
Inductive Mentions : nd -> nat -> Prop :=
| M_var n x : IsVar n x -> Mentions n x
| M_static p x v : Mentions (StaticVar p x v) x
| M_global p x : Mentions (GlobalVar p x) x
| M_catch t p x b : Mentions (Catch t p x b) x
| M_fun ps us b x : Mentions b x -> Mentions (Fun ps us b) x
| M_part n k x : Part n k -> Mentions k x -> Mentions n x.
(** The class declares [$x] further down. *)
Definition upcoming (c : scope) (x : nat) : Prop := match sk c with KClass _ _ _ up => In x up | _ => False end.

(** ** The pieces the claim is about *)
Definition notThis (t : step) : Prop := match sname t with Some (_, x) => x <> this | None => True end.
Definition called (b : base) (ss : list step) : bool := match lastOf ss with Some t => scalled t | None => false end.
Definition indexed (ss : list step) : bool := match lastOf ss with Some t => sindexed t | None => false end.
Fixpoint singleP (n : nd) : Prop :=
  match n with Var b ss _ => called b ss = false | Op [k] => singleP k | _ => False end.
Definition placeP (n : nd) : Prop :=
  match n with
  | Var b ss _ => called b ss = false /\ indexed ss = false
  | Op l => all isElem l
  | _ => False
  end.
(** Left out:
    - an assignment whose left side has more than one operand, or is a call
    - a reference, list or foreach target with an index, or a call as one
    - a call for which the walk is wrong about references, as in VarSpec.v
    - a property with the name [this].
    Nothing is asked of functions inside. *)
Fixpoint okP (g : option (list bool)) (n : nd) : Prop :=
  match n with
  | Val => True
  | Op l => all (okP g) l
  | Var b ss l => Forall notThis ss /\ all (okP g) l
  | Assign l r => singleP l /\ okP g l /\ okP g r
  | Call c args =>
      all (okP (calling c g)) args /\
      (forall i a, nth_error args i = Some a -> refAt (calling c g) i = nth i (refs c) false) /\
      (forall i a, nth_error args i = Some a -> nth i (refs c) false = true -> placeP a)
  | Elem k => placeP k /\ okP g k
  | Foreach e v1 v2 b =>
      okP g e /\ placeP v1 /\ okP g v1 /\ okP g b /\
      match v2 with Some v => placeP v /\ okP g v | None => True end
  | StaticVar p x v => okP g v
  | GlobalVar p x => True
  | Catch t p x b => okP g b
  | Fun ps us b => True
  end.
