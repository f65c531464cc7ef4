(** The names of classes, functions and constants written in a file. *)
From Coq Require Import List Bool Arith.
From Verif Require Import NamedModel.
Import ListNotations.
Open Scope nat_scope.

Definition asClasses (l : list nat) : list (nat * kind) := map (fun p => (p, Class)) l.
Definition optional (c : option nat) : list (nat * kind) := match c with Some c => [(c, Class)] | None => [] end.
(** All of them, in expressions and statements. *)
Fixpoint writtenE (n : ex) : list (nat * kind) :=
  match n with
  | Sub l => flat_map writtenE l
  | Expr e => writtenE e
  | New c args | StaticCall c args | StaticMember c args => (c, Class) :: flat_map writtenE args
  | NewStatic c index args => optional c ++ flat_map writtenE index ++ flat_map writtenE args
  | InstanceOf e c => writtenE e ++ [(c, Class)]
  | InstanceOfStatic e c index => writtenE e ++ optional c ++ flat_map writtenE index
  | Call f args => (f, Function) :: flat_map writtenE args
  | StaticCallExpr c e args | StaticMemberExpr c e args => (c, Class) :: writtenE e ++ flat_map writtenE args
  | StaticCallVar c index args => (c, Class) :: flat_map writtenE index ++ flat_map writtenE args
  | Const c => [(c, Constant)]
  | ClassConst c => [(c, Class)]
  | Closure hints defaults ret body => asClasses hints ++ flat_map writtenE defaults ++ asClasses ret ++ written body
  end
with written (n : st) : list (nat * kind) :=
  match n with
  | Seq l => flat_map written l
  | Do e | StaticVar e => writtenE e
  | Foreach v _ targets body => writtenE v ++ flat_map writtenE targets ++ written body
  | Unset vars => flat_map writtenE vars
  | Catch cs body => asClasses cs ++ written body
  | Func hints defaults ret body | Method hints defaults ret body =>
      asClasses hints ++ flat_map writtenE defaults ++ asClasses ret ++ written body
  | ClassDecl ext impl members => asClasses ext ++ asClasses impl ++ flat_map written members
  | Traits cs imports => asClasses cs ++ flat_map (fun i => asClasses (fst i) ++ [(snd i, Class)]) imports
  | Property hints values => asClasses hints ++ flat_map writtenE values
  | Use names => names
  end.
Definition asUse (x : nat * kind) : event := Used (fst x) (snd x).

(** ** Parts *)
Inductive node := E (e : ex) | S (s : st).
Definition children (n : node) : list node :=
  match n with
  | E (Sub l) | E (New _ l) | E (Call _ l) | E (StaticCall _ l) | E (StaticMember _ l) => map E l
  | E (Expr e) | E (InstanceOf e _) => [E e]
  | E (NewStatic _ l m) | E (StaticCallVar _ l m) => map E l ++ map E m
  | E (InstanceOfStatic e _ l) | E (StaticCallExpr _ e l) | E (StaticMemberExpr _ e l) => E e :: map E l
  | E (Const _) | E (ClassConst _) => []
  | E (Closure _ l _ b) => map E l ++ [S b]
  | S (Seq l) | S (ClassDecl _ _ l) => map S l
  | S (Do e) | S (StaticVar e) => [E e]
  | S (Foreach v _ l b) => E v :: map E l ++ [S b]
  | S (Unset l) | S (Property _ l) => map E l
  | S (Catch _ b) => [S b]
  | S (Func _ l _ b) | S (Method _ l _ b) => map E l ++ [S b]
  | S (Traits _ _) | S (Use _) => []
  end.
(** [m] is [n] or inside of it. *)
Inductive Within : node -> node -> Prop :=
| W_here n : Within n n
| W_part n k m : In k (children n) -> Within k m -> Within n m.
(** .. not inside of an expression. *)
Inductive Direct : st -> st -> Prop :=
| D_here n : Direct n n
| D_part n k m : In (S k) (children (S n)) -> Direct k m -> Direct n m.
(** .. in a closure. *)
Definition InClosure (n m : st) : Prop := exists h d r b, Within (S n) (E (Closure h d r b)) /\ Within (S b) (S m).

(** ** Names that get lost *)
Inductive Missed (n : st) : nat * kind -> Prop :=
(** the class in C::$f() *)
| M_call c i a : Within (S n) (E (StaticCallVar c i a)) -> Missed n (c, Class)
(** the first value of a static variable, but not in a closure *)
| M_static v x : Direct n (StaticVar v) -> In x (writtenE v) -> Missed n x
(** in a closure: classes caught, extended, implemented, used as traits, and use statements *)
| M_catch cs b c : InClosure n (Catch cs b) -> In c cs -> Missed n (c, Class)
| M_class e i l c : InClosure n (ClassDecl e i l) -> In c (e ++ i) -> Missed n (c, Class)
| M_traits cs im x : InClosure n (Traits cs im) -> In x (written (Traits cs im)) -> Missed n x
| M_use l x : InClosure n (Use l) -> In x l -> Missed n x.

(** ** Names used more than once *)
(** Names in an index or an argument of a variable. *)
Fixpoint nested (n : ex) : list (nat * kind) :=
  match n with
  | Sub l => flat_map nested l
  | Expr e => writtenE e
  | New _ args | Call _ args | StaticCall _ args | StaticMember _ args => flat_map nested args
  | NewStatic _ index args | StaticCallVar _ index args => flat_map nested index ++ flat_map nested args
  | InstanceOf e _ => nested e
  | InstanceOfStatic e _ index => nested e ++ flat_map nested index
  | StaticCallExpr _ e args | StaticMemberExpr _ e args => writtenE e ++ flat_map nested args
  | Const _ | ClassConst _ | Closure _ _ _ _ => []
  end.
(** No name is used twice, if: static members of unknown classes, and such members behind new and instanceof, are not
    there; outside of closures, the variables of foreach and unset have no names in indexes and arguments, and trait uses
    have no alias blocks. *)
Record single (known : nat -> bool) (n : st) : Prop := {
  s_member : forall c i, Within (S n) (E (StaticMember c i)) -> known c = true;
  s_new : forall c i a, ~ Within (S n) (E (NewStatic c i a));
  s_instance : forall e c i, ~ Within (S n) (E (InstanceOfStatic e c i));
  s_foreach : forall v b l s, Direct n (Foreach v b l s) -> flat_map nested l = [] /\ (b = true -> nested v = []);
  s_unset : forall l, Direct n (Unset l) -> flat_map nested l = [];
  s_traits : forall cs l, Direct n (Traits cs l) -> l = [] }.
