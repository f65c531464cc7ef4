(** Which member of a class PHP reaches, what the value of an expression is, as far as its class is known, and which
    members an expression uses. *)
From Coq Require Import List Bool Arith NArith.
From Verif Require Import PhpTypes Chars LookModel ExprModel ExprSpec ChainModel.
Import ListNotations.

Section Spec.
Variable cc : CharClass.

(** [m] is called [n]: methods in any case, other members as spelled. *)
Definition called (k : mkind) (n : qstring) (m : member) : Prop :=
  mk m = k /\ match k with Method => lower cc (mname m) = lower cc n | _ => mname m = n end.
(** The member of kind [k] and name [n] of a class, with the class that declares it: the class itself, or else one it
    extends or implements.  With [vis], private properties and constants are not inherited. *)
Inductive Has (vis : bool) (k : mkind) (n : qstring) : ctx -> N * member -> Prop :=
| H_own c own imps m : In m own -> called k n m -> Has vis k n (Ctx c own imps) (c, m)
| H_base c own imps b d : (forall m, In m own -> ~ called k n m) -> In b imps -> Has vis k n b d ->
    (vis = true -> k <> Method -> mpriv (snd d) = false) -> Has vis k n (Ctx c own imps) d.

Variable w : world.

(** The class of a value: the one class its type stands for, if any. *)
Definition Class (t : option ty) (k : option N) : Prop := match k with Some c => oneClass t c | None => forall c, ~ oneClass t c end.
Definition kindOf (stat : bool) (args : option (list ex)) : mkind :=
  match args with Some _ => Method | None => if stat then Constant else Property end.
(** The type of a member: of a call, what the method returns. *)
Definition result (d : N * member) : option ty := match mk (snd d) with Method => mret (snd d) | _ => mty (snd d) end.
Definition used (p : nat) (d : N * member) : use := {| up := p; ud := Some (declOf d) |}.
Definition unknown (p : nat) : use := {| up := p; ud := None |}.
Definition parts (args : option (list ex)) : list ex := match args with Some l => l | None => [] end.
Definition indexes (l : list (option ex)) : list ex := flat_map (fun i => match i with Some e => [e] | None => [] end) l.

(** [Value e k us]: the value of [e] is of class [k], as far as that is known; [us]: the members used in [e], in order.
    A name behind -> or :: refers to the member of the class in front; without such a member it is unknown; if the class
    is not known, nothing is said about it.  Elements of arrays, and members whose name is in a variable, are of no
    known class. *)
Inductive Value : ex -> option N -> list use -> Prop :=
| V_node l t k us : Values l us -> Class t k -> Value (Node l t) k us
| V_var p k : Class (varTy w p) k -> Value (Var p) k []
| V_member e c x p n stat args us d k vs : Value e (Some c) us -> ctxOf w c = Some x -> Has true (kindOf stat args) n x d ->
    Values (parts args) vs -> Class (result d) k -> Value (Member e p n stat args) k (us ++ [used p d] ++ vs)
| V_missing e c x p n stat args us vs : Value e (Some c) us -> ctxOf w c = Some x -> (forall d, ~ Has true (kindOf stat args) n x d) ->
    Values (parts args) vs -> Value (Member e p n stat args) None (us ++ [unknown p] ++ vs)
| V_nowhere e c p n stat args us vs : Value e (Some c) us -> ctxOf w c = None -> Values (parts args) vs ->
    Value (Member e p n stat args) None (us ++ vs)
| V_noclass e p n stat args us vs : Value e None us -> Values (parts args) vs -> Value (Member e p n stat args) None (us ++ vs)
| V_dynamic e k p n args us vs : Value e k us -> Values (parts args) vs -> Value (VarMember e p n false args) None (us ++ vs)
| V_elem e k l us vs : Value e k us -> Values (indexes l) vs -> Value (Elem e l) None (us ++ vs)
| V_call p q n args x d k vs : staticOf w p = Some x -> Has false Method n x d -> Values args vs -> Class (result d) k ->
    Value (StaticCall p q n args) k (vs ++ [used q d])
| V_badcall p q n args vs : staticOf w p = None -> Values args vs -> Value (StaticCall p q n args) None (vs ++ [unknown q])
| V_prop p q n x d k : staticOf w p = Some x -> Has false Property n x d -> Class (result d) k -> Value (StaticProp p q n) k [used q d]
| V_noprop p q n x : staticOf w p = Some x -> (forall d, ~ Has false Property n x d) -> Value (StaticProp p q n) None [unknown q]
| V_badprop p q n : staticOf w p = None -> Value (StaticProp p q n) None []
| V_const p q n x d k : staticOf w p = Some x -> Has false Constant n x d -> Class (result d) k -> Value (ClassConst p q n) k [used q d]
| V_noconst p q n x : staticOf w p = Some x -> (forall d, ~ Has false Constant n x d) -> Value (ClassConst p q n) None [unknown q]
| V_badconst p q n : staticOf w p = None -> Value (ClassConst p q n) None []
with Values : list ex -> list use -> Prop :=
| Vs_nil : Values [] []
| Vs_cons e k us l vs : Value e k us -> Values l vs -> Values (e :: l) (us ++ vs).

(** ** The programs the claim is about *)
(** Classes by their number; no class is among its own base classes. *)
Fixpoint ids (x : ctx) : list N := match x with Ctx c _ imps => c :: flat_map ids imps end.
Definition sound : Prop := forall c x, ctxOf w c = Some x -> exists own imps, x = Ctx c own imps /\ ~ In c (flat_map ids imps).

(** Names are told apart as PHP does: methods in any case. *)
Definition idOf (m : member) : qstring := match mk m with Method => lower cc (mname m) | _ => mname m end.
Definition name (k : mkind) (n : qstring) : qstring := match k with Method => lower cc n | _ => n end.
Definition rival (strict : bool) (k k' : mkind) : Prop :=
  strict = true \/ match k, k' with Method, Method => True | Method, _ | _, Method => False | _, _ => True end.
(** Nothing of another kind gets in the way of the member [n]: in [x], or else in each class it extends or implements,
    either there is such a member, and no constant of the name of a property (with [strict]: nothing else of that
    name), or nothing at all of that name. *)
Fixpoint clear (strict : bool) (k : mkind) (n : qstring) (x : ctx) : Prop :=
  match x with
  | Ctx c own imps =>
      ((exists m, In m own /\ called k n m) /\ forall m, In m own -> idOf m = name k n -> rival strict k (mk m) -> mk m = k) \/
      ((forall m, In m own -> idOf m <> name k n) /\
       (fix all (l : list ctx) : Prop := match l with [] => True | b :: r => clear strict k n b /\ all r end) imps)
  end.
(** A private property or constant is the only one of its name in the class and all it extends and implements. *)
Definition alone (k : mkind) (n : qstring) (x : ctx) : Prop :=
  k <> Method -> forall d d', Has false k n x d -> Has false k n x d' -> mpriv (snd d) = true -> d' = d.

(** The expressions after which no class is left over from what was visited before: not [..]->$n with a class in $n, not
    e[..] unless e is a call or the last index has no class. *)
Inductive firm : ex -> Prop :=
| F_dynamic b p n stat args : (forall c, ~ oneClass (varTy w p) c) -> firm (VarMember b p n stat args)
| F_call b l : isCall b = true -> firm (Elem b l)
| F_elem b l1 i l2 : indexes l2 = [] -> firm i -> (forall k us, Value i k us -> k = None) -> firm (Elem b (l1 ++ Some i :: l2))
| F_other e : (forall b l, e <> Elem b l) -> (forall b p n stat args, e <> VarMember b p n stat args) -> firm e.
(** The expressions without the oddities of PropChain.v. *)
Fixpoint plain (e : ex) : Prop :=
  let all := fix all (l : list ex) : Prop := match l with [] => True | k :: r => plain k /\ all r end in
  let arguments (a : option (list ex)) : Prop := match a with Some l => all l | None => True end in
  match e with
  | Node l _ => all l
  | Var _ => True
  | Member b p n stat args => plain b /\ firm b /\ arguments args /\
      forall c us x, Value b (Some c) us -> ctxOf w c = Some x -> clear false (kindOf stat args) n x /\ alone (kindOf stat args) n x
  | VarMember b _ _ stat args => plain b /\ stat = false /\ arguments args
  | Elem b l => plain b /\ (isCall b = true -> (List.length l <= 1)%nat) /\
      (fix all (l : list (option ex)) : Prop := match l with [] => True | Some k :: r => plain k /\ all r | None :: r => all r end) l
  | StaticCall p q n args => all args /\ forall x, staticOf w p = Some x -> clear true Method n x /\ exists d, Has false Method n x d
  | StaticProp p q n => forall x, staticOf w p = Some x -> clear true Property n x
  | ClassConst p q n => forall x, staticOf w p = Some x -> clear true Constant n x
  end.

(** ** The names written *)
(** [e'] is [e] or a part of it. *)
Inductive Part (e : ex) : ex -> Prop :=
| P_all : Part e e
| P_node l t k : Part e (Node l t) -> In k l -> Part e k
| P_object b p n stat args : Part e (Member b p n stat args) -> Part e b
| P_argument b p n stat args k : Part e (Member b p n stat args) -> In k (parts args) -> Part e k
| P_object' b p n stat args : Part e (VarMember b p n stat args) -> Part e b
| P_argument' b p n stat args k : Part e (VarMember b p n stat args) -> In k (parts args) -> Part e k
| P_array b l : Part e (Elem b l) -> Part e b
| P_index b l k : Part e (Elem b l) -> In (Some k) l -> Part e k
| P_static p q n args k : Part e (StaticCall p q n args) -> In k args -> Part e k.
(** A member [n] is named at [p], a method with [call]. *)
Inductive Named (e : ex) (p : nat) (n : qstring) : bool -> Prop :=
| N_member b stat args : Part e (Member b p n stat args) -> Named e p n (match args with Some _ => true | None => false end)
| N_call q args : Part e (StaticCall q p n args) -> Named e p n true
| N_prop q : Part e (StaticProp q p n) -> Named e p n false
| N_const q : Part e (ClassConst q p n) -> Named e p n false.
(** [d] is declared in the class or in one it extends or implements. *)
Inductive Declares : ctx -> N * member -> Prop :=
| D_own c own imps m : In m own -> Declares (Ctx c own imps) (c, m)
| D_base c own imps b d : In b imps -> Declares b d -> Declares (Ctx c own imps) d.
End Spec.
