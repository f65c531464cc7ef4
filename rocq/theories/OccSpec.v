(** Where variables occur, where they are given a value, and for which pieces the uses found are claimed to be
    right. *)
From Coq Require Import List Bool Arith.
From Verif Require Import PhpTypes MergeModel VarModel VarSpec.
Import ListNotations.
Open Scope nat_scope.

(** [$x] is written at [p] in [n], in the scope of [n]: not in a function declared there, and not as the name of a
    parameter, of a static, global or caught variable. *)
Inductive Occurs : nd -> nat -> nat -> Prop :=
| O_var p x idx ss parts : Occurs (Var (BName p x idx) ss parts) x p
| O_part n k x p : Part n k -> Occurs k x p -> Occurs n x p.

(** How a variable is given a value: in an assignment, where a list, foreach or reference argument puts something, by
    a declaration. *)
Inductive how := ByAssignment | ByPlace | ByStatic | ByGlobal | ByCatch.
Inductive IsVarAt : nd -> nat -> nat -> Prop := IsAt p x idx parts : IsVarAt (Var (BName p x idx) [] parts) x p.
Inductive TargetAt : nd -> nat -> nat -> Prop :=
| TA_var n x p : IsVarAt n x p -> TargetAt n x p
| TA_op l n x p : TargetAt n x p -> TargetAt (Op (l ++ [n])) x p.
(** [n] gives [$x] a value at the place [p]; as [Gives] of VarSpec.v. *)
Inductive GivesAt : nd -> nat -> nat -> how -> Prop :=
| GA_assign l r x p : TargetAt l x p -> GivesAt (Assign l r) x p ByAssignment
| GA_ref c args i a x p : nth_error args i = Some a -> nth i (refs c) false = true -> IsVarAt a x p -> GivesAt (Call c args) x p ByPlace
| GA_elem n x p : IsVarAt n x p -> GivesAt (Elem n) x p ByPlace
| GA_each1 e v1 v2 b x p : IsVarAt v1 x p -> GivesAt (Foreach e v1 v2 b) x p ByPlace
| GA_each2 e v1 v2 b x p : IsVarAt v2 x p -> GivesAt (Foreach e v1 (Some v2) b) x p ByPlace
| GA_static p x v : GivesAt (StaticVar p x v) x p ByStatic
| GA_global p x : GivesAt (GlobalVar p x) x p ByGlobal
| GA_catch t p x b : GivesAt (Catch t p x b) x p ByCatch
| GA_part n k x p h : Part n k -> GivesAt k x p h -> GivesAt n x p h.

(** A declaration of [$x] in the scope begins at [p] or before. *)
Definition Known (c : scope) (x p : nat) : Prop := exists e, In e (own c ++ imps c) /\ en e = x /\ ep e <= p.

(** An occurrence inside an index on the left of [=]. *)
Inductive Indexed : nd -> nat -> nat -> Prop :=
| X_var b parts k x p : In k parts -> Occurs k x p -> Indexed (Var b [] parts) x p
| X_op l k x p : In k l -> Indexed k x p -> Indexed (Op l) x p.
Inductive Hidden : nd -> nat -> nat -> Prop :=
| H_left l r x p : Indexed l x p -> Hidden (Assign l r) x p
| H_part n k x p : Part n k -> Hidden k x p -> Hidden n x p.

(** ** The pieces the claim is about, besides [ok] *)
Fixpoint closureFree (n : nd) : Prop :=
  match n with
  | Val | GlobalVar _ _ => True
  | Op l | Var _ _ l | Call _ l => all closureFree l
  | Assign l r => closureFree l /\ closureFree r
  | Elem k => closureFree k
  | Foreach e v1 v2 b => closureFree e /\ closureFree v1 /\ match v2 with Some v => closureFree v | None => True end /\ closureFree b
  | StaticVar _ _ v => v = Val
  | Catch _ _ _ b => closureFree b
  | Fun _ _ _ => False
  end.
(** [n] is made of statements: function declarations are among them, closures are nowhere; the value of a static
    variable is a constant. *)
Fixpoint statements (n : nd) : Prop :=
  match n with
  | Op l => all statements l
  | Foreach e v1 v2 b => closureFree e /\ closureFree v1 /\ match v2 with Some v => closureFree v | None => True end /\ statements b
  | Catch _ _ _ b => statements b
  | Fun _ us b => us = [] /\ statements b
  | _ => closureFree n
  end.
(** In each scope: what is put somewhere is not put in a variable the scope declares global; parameters are written
    before. *)
Definition orderly (n : nd) : Prop := forall x p, GivesAt n x p ByPlace -> ~ exists q, GivesAt n x q ByGlobal.
Definition tidy (n : nd) : Prop :=
  orderly n /\ forall ps us b, Inside n (Fun ps us b) -> orderly b /\
    forall q x t y p h, In (q, x, t) ps -> GivesAt b y p h -> q <= p.

(** [$x] has been given a value in [n] at [p] or before. *)
Definition givenBy (n : nd) (x p : nat) : Prop := exists q h, q <= p /\ GivesAt n x q h.
(** .. or is a parameter. *)
Definition isParam (ps : list (nat * nat * ty)) (x p : nat) : Prop := exists q t, q <= p /\ In (q, x, t) ps.
(** The scope [c] made for a function with parameters [ps] and body [b]: its variables are known from where they are
    written as parameters or given a value, and its declarations are at such places. *)
Definition scopeAt (c : scope) (ps : list (nat * nat * ty)) (b : nd) : Prop :=
  (forall x p, Known c x p <-> isParam ps x p \/ givenBy b x p) /\
  (forall e, In e (own c ++ imps c) -> isVar e = true /\ ((exists t, In (ep e, en e, t) ps) \/ exists h, GivesAt b (en e) (ep e) h) /\
    (ea e = true -> exists q, GivesAt b (en e) q ByGlobal)).
(** The scope of the piece itself begins with what its parameters or included files declare. *)
Definition begins (s : st) (n : nd) : Prop :=
  own (cur s) = [] /\ forall e, In e (imps (cur s)) -> isVar e = true /\ forall x p h, GivesAt n x p h -> ep e <= p.
(** A superglobal variable [$x] is found at [p]: declared in the file, or else in an included one. *)
Definition Super (isSuper : nat -> bool) (top : scope) (x p : nat) (e : entry) : Prop :=
  isVar e = true /\ isSuper (ei e) = true /\ en e = x /\ ep e <= p /\
  (In e (own top) \/ In e (imps top) /\ forall e', In e' (own top) -> en e' = x -> p < ep e').
(** The scopes of a piece: its own and those of its functions, at any depth.
    [D x q]: at [q], [$x] is a parameter (or comes from an included file) or is given a value.
    [A x]: [$x] stands for a variable declared elsewhere, in an included file or by [global].
    [m]: the scope is the body of a method. *)
Definition inClass (s : st) : bool := match outer s with c :: _ => isClass c | [] => false end.
Inductive ScopeIn (s : st) (n : nd) : nd -> (nat -> nat -> Prop) -> (nat -> Prop) -> bool -> Prop :=
| In_piece : ScopeIn s n n
    (fun x q => (exists e, In e (imps (cur s)) /\ en e = x /\ ep e = q) \/ exists h, GivesAt n x q h)
    (fun x => (exists e, In e (imps (cur s)) /\ en e = x /\ ea e = true) \/ exists q, GivesAt n x q ByGlobal)
    (inClass s)
| In_function ps us b : Inside n (Fun ps us b) -> ScopeIn s n b
    (fun x q => (exists t, In (q, x, t) ps) \/ exists h, GivesAt b x q h)
    (fun x => exists q, GivesAt b x q ByGlobal)
    false.
(** What is assumed of the piece and of the state it is visited in, as for C66, and: it is made of statements, it is
    tidy, its scope is new. *)
Record proper (V G : nat -> Prop) (n : nd) (s : st) : Prop := {
  pr_outer : forall x, anyDeclared (outer s) x -> V x;
  pr_globals : forall x, G x -> globals s x;
  pr_cur : isClass (cur s) = false;
  pr_top : isClass (topOf s) = false;
  pr_ok : ok V (fun x => declared (cur s) x \/ Gives n x) G (cft s) n;
  pr_statements : statements n;
  pr_tidy : tidy n;
  pr_begins : begins s n }.
