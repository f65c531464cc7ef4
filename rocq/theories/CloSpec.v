(** In which function a variable stands, and which variables are claimed to be looked up there. *)
From Coq Require Import List Bool Arith.
From Verif Require Import CloModel.
Import ListNotations.
Open Scope nat_scope.

(** The tree as the parser makes it: no node has a context yet, statements and expressions are where they belong.
    [s]: a statement is expected here. *)
Fixpoint parsed (s : bool) (n : nd) : Prop :=
  let all := fix go (l : list nd) : Prop := match l with [] => True | k :: r => parsed s k /\ go r end in
  match n with
  | Var _ _ => s = false
  | Op l => s = false /\ all l
  | Arg c e => s = false /\ c = None /\ parsed false e
  | Asg c _ _ e => s = false /\ c = None /\ parsed false e
  | Clo _ _ _ b => s = false /\ parsed true b
  | Stm l => s = true /\ all l
  | Exp c e | Ret c e => s = true /\ c = None /\ parsed false e
  | Fn c _ _ b => s = true /\ c = None /\ parsed true b
  end.

(** [m] is written in [n], in the same function: not inside a function or closure written in [n]. *)
Inductive Same : nd -> nd -> Prop :=
| S_here n : Same n n
| S_op l k m : In k l -> Same k m -> Same (Op l) m
| S_stm l k m : In k l -> Same k m -> Same (Stm l) m
| S_arg c e m : Same e m -> Same (Arg c e) m
| S_asg c p x e m : Same e m -> Same (Asg c p x e) m
| S_exp c e m : Same e m -> Same (Exp c e) m
| S_ret c e m : Same e m -> Same (Ret c e) m.
(** [b] is the body of the function or closure [f] written in the file [n], at any depth; [ty]: it has a return type.  The
    file is the body of [File]. *)
Inductive Body (n : nd) : scope -> bool -> nd -> Prop :=
| B_file : Body n File false n
| B_closure s ty b f ty' us b' : Body n s ty b -> Same b (Clo f ty' us b') -> Body n (Of f) ty' b'
| B_function s ty b c f ty' b' : Body n s ty b -> Same b (Fn c f ty' b') -> Body n (Of f) ty' b'.
(** The variable [$x] at [p] stands in [s]. *)
Inductive Stands (n : nd) : scope -> nat -> nat -> kind -> Prop :=
| St_read s ty b p x : Body n s ty b -> Same b (Var p x) -> Stands n s x p Read
| St_target s ty b c p x e : Body n s ty b -> Same b (Asg c p x e) -> Stands n s x p Target
| St_captured s ty b f ty' us b' p x : Body n s ty b -> Same b (Clo f ty' us b') -> In (p, x) us -> Stands n s x p Captured.
(** All positions of variables in [n]. *)
Fixpoint places (n : nd) : list nat :=
  let all := fix go (l : list nd) : list nat := match l with [] => [] | k :: r => places k ++ go r end in
  match n with
  | Var p _ => [p]
  | Op l | Stm l => all l
  | Arg _ e | Exp _ e | Ret _ e => places e
  | Asg _ p _ e => p :: places e
  | Clo _ _ us b => places b ++ map fst us
  | Fn _ _ _ b => places b
  end.

(** No function or closure is written in [n]. *)
Definition quiet (n : nd) : Prop := forall m, Same n m -> match m with Clo _ _ _ _ | Fn _ _ _ _ => False | _ => True end.
(** No function or closure written in [n], at any depth, has a return type. *)
Fixpoint untyped (n : nd) : Prop :=
  let all := fix go (l : list nd) : Prop := match l with [] => True | k :: r => untyped k /\ go r end in
  match n with
  | Var _ _ => True
  | Op l | Stm l => all l
  | Arg _ e | Exp _ e | Ret _ e | Asg _ _ _ e => untyped e
  | Clo _ ty _ b | Fn _ _ ty b => ty = false /\ untyped b
  end.
(** [m] is written in [n], in the same function, and no function or closure is written before it in [n]. *)
Inductive Early : nd -> nd -> Prop :=
| E_here n : Early n n
| E_op l1 k l2 m : (forall j, In j l1 -> quiet j) -> Early k m -> Early (Op (l1 ++ k :: l2)) m
| E_stm l1 k l2 m : (forall j, In j l1 -> quiet j) -> Early k m -> Early (Stm (l1 ++ k :: l2)) m
| E_arg c e m : Early e m -> Early (Arg c e) m
| E_asg c p x e m : Early e m -> Early (Asg c p x e) m
| E_exp c e m : Early e m -> Early (Exp c e) m
| E_ret c e m : Early e m -> Early (Ret c e) m.
(** [k] is a statement of the list [b], or of a list in it. *)
Inductive Statement : nd -> nd -> Prop :=
| Sm_here n : Statement n n
| Sm_stm l k m : In k l -> Statement k m -> Statement (Stm l) m.
(** [b] is the body of a function that is in no closure, or the file. *)
Inductive Plain (n : nd) : scope -> nd -> Prop :=
| Pl_file : Plain n File n
| Pl_function s b c f ty b' : Plain n s b -> Statement b (Fn c f ty b') -> Plain n (Of f) b'.

(** Where variables are claimed to be looked up in the right scope [s]: [m] stands in an argument of a call, in an assignment or
    in a returned value, in an expression outside of closures, or in a function declared in a closure; and no closure comes
    before it in that piece. *)
Inductive Right (n : nd) : scope -> nd -> Prop :=
| R_argument s ty b c e m : Body n s ty b -> Same b (Arg c e) -> Early e m -> Right n s m
| R_target s ty b c p x e : Body n s ty b -> Same b (Asg c p x e) -> Right n s (Asg c p x e)
| R_assigned s ty b c p x e m : Body n s ty b -> Same b (Asg c p x e) -> Early e m -> Right n s m
| R_returned f b c e m : Body n (Of f) false b -> untyped b -> Same b (Ret c e) -> Early e m -> Right n (Of f) m
| R_outside s b c e m : Plain n s b -> (Statement b (Exp c e) \/ Statement b (Ret c e)) -> Early e m -> Right n s m
| R_function s ty b c f ty' b' m : Body n s ty b -> Same b (Fn c f ty' b') -> Early b' m -> Right n (Of f) m.
(** No closure is written in [n], at any depth. *)
Definition noClosures (n : nd) : Prop := forall s ty b f ty' us b', Body n s ty b -> ~ Same b (Clo f ty' us b').
