(** Which variables a piece of PHP gives a value to, and for which pieces the walk is claimed to
    find exactly these. *)
From Coq Require Import List Bool Arith.
From Verif Require Import PhpTypes MergeModel VarModel.
Import ListNotations.
Open Scope nat_scope.

(** [n] is the variable [$x], perhaps with an index. *)
Inductive IsVar : nd -> nat -> Prop := Is_var p x idx parts : IsVar (Var (BName p x idx) [] parts) x.
(** What is assigned to in [l = r]: an operator before [=] takes the variable next to [=] as its last
    operand, [!$x = f()], [$a && $x = f()]. *)
Inductive Target : nd -> nat -> Prop :=
| T_var n x : IsVar n x -> Target n x
| T_op l n x : Target n x -> Target (Op (l ++ [n])) x.
(** Which parameters of what is called are references. *)
Definition refs (c : callee) : list bool :=
  match c with Function (Some l) => l | Function None => [] | Method l => l | StaticMethod l => l end.

(** Direct parts that belong to the same scope. *)
Inductive Part : nd -> nd -> Prop :=
| P_op l n : In n l -> Part (Op l) n
| P_var b ss l n : In n l -> Part (Var b ss l) n
| P_left l r : Part (Assign l r) l
| P_right l r : Part (Assign l r) r
| P_arg c l n : In n l -> Part (Call c l) n
| P_elem n : Part (Elem n) n
| P_each e v1 v2 b : Part (Foreach e v1 v2 b) e
| P_each1 e v1 v2 b : Part (Foreach e v1 v2 b) v1
| P_each2 e v1 v2 b : Part (Foreach e v1 (Some v2) b) v2
| P_body e v1 v2 b : Part (Foreach e v1 v2 b) b
| P_static p x v : Part (StaticVar p x v) v
| P_catch t p x b : Part (Catch t p x b) b.

(** [n] gives the variable [$x] of its scope a value. *)
Inductive Gives : nd -> nat -> Prop :=
| G_assign l r x : Target l x -> Gives (Assign l r) x
| G_ref c args i a x : nth_error args i = Some a -> nth i (refs c) false = true -> IsVar a x -> Gives (Call c args) x
| G_elem n x : IsVar n x -> Gives (Elem n) x
| G_each1 e v1 v2 b x : IsVar v1 x -> Gives (Foreach e v1 v2 b) x
| G_each2 e v1 v2 b x : IsVar v2 x -> Gives (Foreach e v1 (Some v2) b) x
| G_static p x v : Gives (StaticVar p x v) x
| G_global p x : Gives (GlobalVar p x) x
| G_catch t p x b : Gives (Catch t p x b) x
| G_part n k x : Part n k -> Gives k x -> Gives n x.

(** [f] is a function or closure written in [n], at any depth. *)
Inductive Inside : nd -> nd -> Prop :=
| I_here ps us b : Inside (Fun ps us b) (Fun ps us b)
| I_deeper ps us b f : Inside b f -> Inside (Fun ps us b) f
| I_part n k f : Part n k -> Inside k f -> Inside n f.

(** The names declared in a scope. *)
Definition declared (c : scope) (x : nat) : Prop := exists e, In e (own c ++ imps c) /\ en e = x.
Definition anyDeclared (l : list scope) (x : nat) : Prop := exists c, In c l /\ declared c x.
(** The names of variables found in the file (the last scope), or else in included files. *)
Definition globals (s : st) (x : nat) : Prop := exists e, In e (inScope x (topOf s)) /\ isVar e = true.

(** Is the scope a class? *)
Definition isClass (c : scope) : bool := match sk c with KClass _ _ _ _ => true | _ => false end.
(** The scope [c] made for the function [f] declares its parameters and what its body gives a
    value, and nothing else but variables it uses. *)
Definition scopeOf (c : scope) (f : nd) : Prop :=
  match f with
  | Fun ps us b =>
      (forall x, In x (map (fun q => snd (fst q)) ps) \/ Gives b x -> declared c x) /\
      (forall x, declared c x -> In x (map (fun q => snd (fst q)) ps) \/ In x (map snd us) \/ Gives b x)
  | _ => False
  end.

(** ** The pieces the claim is about *)
Definition all (P : nd -> Prop) (l : list nd) : Prop := fold_right (fun n Q => P n /\ Q) True l.
(** [V]: the names declared around the scope. *)
Fixpoint single (n : nd) : Prop :=
  match n with Var (BName _ x _) [] _ => x <> this | Var _ _ _ => True | Op [k] => single k | _ => False end.
Definition isElem (n : nd) : Prop := match n with Elem _ => True | _ => False end.
Definition place (V : nat -> Prop) (n : nd) : Prop :=
  match n with
  | Var (BName _ x idx) [] _ => idx = false /\ ~ V x /\ x <> this
  | Var _ _ _ => True
  | Op l => all isElem l
  | _ => False
  end.
Definition stepName (V : nat -> Prop) (t : step) : Prop := match sname t with Some (_, x) => V x | None => True end.
(** Left out:
    - an assignment whose left side has more than one operand, or is [$this]
    - a reference, list or foreach target with an index, or with a name that is also declared around the
      scope (an enclosing function, a property of the class, a global variable)
    - a call for which the walk is wrong about references: a method with reference parameters, or a
      method called among the arguments of a function with reference parameters
    - [global] for a variable the file does not declare. *)
Fixpoint ok (V N G : nat -> Prop) (g : option (list bool)) (n : nd) : Prop :=
  match n with
  | Val => True
  | Op l => all (ok V N G g) l
  | Var b ss l => Forall (stepName V) ss /\ all (ok V N G g) l
  | Assign l r => single l /\ ok V N G g l /\ ok V N G g r
  | Call c args =>
      all (ok V N G (calling c g)) args /\
      (forall i a, nth_error args i = Some a -> refAt (calling c g) i = nth i (refs c) false) /\
      (forall i a, nth_error args i = Some a -> nth i (refs c) false = true -> place V a)
  | Elem k => place V k /\ ok V N G g k
  | Foreach e v1 v2 b =>
      ok V N G g e /\ place V v1 /\ ok V N G g v1 /\ ok V N G g b /\
      match v2 with Some v => place V v /\ ok V N G g v | None => True end
  | StaticVar p x v => ok V N G g v
  | GlobalVar p x => G x
  | Catch t p x b => ok V N G g b
  | Fun ps us b =>
      let N' x := In x (map (fun q => snd (fst q)) ps) \/ In x (map snd us) \/ Gives b x in
      ok (fun x => V x \/ N x) N' G g b
  end.

(** ** Types *)
(** Mixed says nothing, and gives way to a definite type; null gives way to the type of a property. *)
Definition lasting (a : ty) : Prop := a <> Integral KMixed /\ a <> Integral KNull.
(** As [Target], and whether the target has an index, [$x[0] = ..]. *)
Inductive TargetI : nd -> nat -> bool -> Prop :=
| TI_var p x idx parts : TargetI (Var (BName p x idx) [] parts) x idx
| TI_op l n x idx : TargetI n x idx -> TargetI (Op (l ++ [n])) x idx.
(** [n] gives [$x] a value whose type has the part [a]; [T] says which types expressions have.  What
    is assigned to with an index is an array. *)
Inductive Puts (T : nd -> ty) : nd -> nat -> ty -> Prop :=
| U_assign l r x a : TargetI l x false -> In a (atoms (T (Assign l r))) -> Puts T (Assign l r) x a
| U_index l r x : TargetI l x true -> Puts T (Assign l r) x (Integral KArray)
| U_static p x v a : In a (atoms (T v)) -> Puts T (StaticVar p x v) x a
| U_catch t p x b a : In a (atoms t) -> Puts T (Catch (Some t) p x b) x a
| U_part n k x a : Part n k -> Puts T k x a -> Puts T n x a.
(** A declaration of [$x] in scope whose type has the part [a]. *)
Definition hasType (s : st) (x : nat) (a : ty) : Prop :=
  exists e, In e (own (cur s) ++ imps (cur s)) /\ en e = x /\ In a (atoms (typeAt (heap s) (ei e))).
(** Declarations have types. *)
Definition typed (n : nat) (c : scope) : Prop := Forall (fun e => ei e < n) (own c ++ imps c).
Definition wellTyped (s : st) : Prop := Forall (typed (List.length (heap s))) (cur s :: outer s).
(** The scope [c] made for a function: its parameters are declared where they are written, with the types they were
    given, and what its body puts in a variable is among the types of that variable.  [h]: the types of all
    declarations. *)
Definition scopeTypes (T : nd -> ty) (h : list ty) (c : scope) (f : nd) : Prop :=
  match f with
  | Fun ps us b =>
      (forall p x t a, In (p, x, t) ps -> lasting a -> In a (atoms t) -> exists e, In e (imps c) /\ en e = x /\ ep e = p /\ In a (atoms (typeAt h (ei e)))) /\
      (forall x a, lasting a -> Puts T b x a -> exists e, In e (own c ++ imps c) /\ en e = x /\ In a (atoms (typeAt h (ei e))))
  | _ => False
  end.
