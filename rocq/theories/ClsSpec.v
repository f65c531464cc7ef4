(** What C35-C38 say, in terms of the class graph and of PHP's rules. *)
From Verif Require Export ClsModel.
Open Scope nat_scope.

(** [b] is a resolved base of [a]. *)
Definition baseOf (w : World) (a b : nat) : Prop :=
  exists c, nth_error w a = Some c /\ In (Some b) (cd_bases c) /\ b < List.length w.
(** [b] is [a] or one of its ancestors. *)
Inductive derives (w : World) : nat -> nat -> Prop :=
| der_self : forall a, derives w a a
| der_step : forall a b c, baseOf w a b -> derives w b c -> derives w a c.

Definition hasId (w : World) (d id : nat) : Prop := exists c, nth_error w d = Some c /\ cd_id c = id.
Definition uniqueIds (w : World) : Prop := forall d1 d2 id, hasId w d1 id -> hasId w d2 id -> d1 = d2.

(** The platform question [isPublicBaseClass] answers correctly on existing classes. *)
Definition knowsBases (w : World) (pub : nat -> nat -> bool) : Prop :=
  forall a b, a < List.length w -> b < List.length w -> (pub a b = true <-> derives w a b).

(** C37: what must be forbidden after the names [ids] were written. *)
Definition mustForbid (w : World) (find : nat -> option nat) (ids : list nat) (x : nat) : Prop :=
  exists i, In i ids /\
    ((find i = None /\ x = i) \/
     (exists d a, find i = Some d /\ derives w d a /\ hasId w a x)).

(** C38: what PHP accepts after the keyword. *)
Definition phpAccepts (w : World) (exc : option nat) (op : AccessOp) (ci : nat) (c : ClassDecl) : Prop :=
  match op with
  | NewClassChoose => cd_kind c = KClass /\ cd_mod c <> ModAbstract
  | ClassExtendsChoose => cd_kind c = KClass /\ cd_mod c <> ModFinal
  | InterfaceChoose => cd_kind c = KInterface
  | ExceptionChoose => exists e, exc = Some e /\ (derives w ci e \/ exists i, hasId w e i /\ cd_id c = i)
  | InstanceOfChoose => True
  | _ => False
  end.
(** The declaration is a class PHP accepts there, and no forbidden one. *)
Definition acceptable (w : World) (x : CCtx) (d : Decl) : Prop :=
  ~ In (d_qid d) (x_forbidden x) /\
  exists ci c, d_class d = Some ci /\ nth_error w ci = Some c /\ phpAccepts w (x_exception x) (x_op x) ci c.
(** Declarations the completion never shows: closures and declarations without a place in a
    text. *)
Definition hidden (d : Decl) : Prop := d_emptyRange d = true \/ (d_kind d = KindType /\ d_emptyQid d = true).

(** C35: may code inside [cur] (or outside any class) use a member that [owner] declares? *)
Definition phpVisible (w : World) (cur : option nat) (owner : nat) (a : Access) : Prop :=
  match a with
  | Public => True
  | Private => cur = Some owner
  | Protected => exists c, cur = Some c /\ (derives w c owner \/ derives w owner c)
  end.
Definition fitsOperator (isStaticOp : bool) (m : Member) : Prop := m_static m = isStaticOp.

(** C36: may a class that wrote the modifiers [mods] redeclare this inherited member? *)
Definition fitsModifiers (mods : list Word) (m : Member) : Prop :=
  (In WStatic mods -> m_static m = true) /\
  (~ In WStatic mods -> In WFunction mods -> m_static m = false) /\
  (In WProtected mods -> m_access m = Protected) /\
  ~ In WPrivate mods.
(** Depth 0 entries (the class' own declarations) come before inherited ones. *)
Definition ownFirst (l : list (Member * nat)) : Prop :=
  exists own inh, l = own ++ inh /\ (forall p, In p own -> snd p = 0) /\ (forall p, In p inh -> snd p <> 0).

(** C37: [find] finds exactly the classes there are (by name). *)
Definition findsClasses (w : World) (find : nat -> option nat) : Prop :=
  (forall i d, find i = Some d -> hasId w d i) /\ (forall i d, hasId w d i -> find i <> None).

(** C52: a local variable of a scope that is neither the current one nor imported by it. *)
Definition foreignVariable (x : CCtx) (d : Decl) : Prop :=
  d_kind d = KindInstance /\ d_ctx d <> x_ctx x /\ d_visible d = false /\ d_var d = Some false.
(** C52: names of the variables in a list. *)
Definition variableNames (l : list Decl) : list nat :=
  map d_ident (filter (fun d => match d_kind d with KindInstance => true | _ => false end) l).
