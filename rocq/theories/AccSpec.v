(** What a piece of PHP text means, for the statements about AccModel.v: written from the language reference. *)
From Coq Require Import List Bool Arith String Ascii.
Import ListNotations.
From Verif Require Import AccModel.
Open Scope nat_scope.

(** Properties (of objects and static ones), constants and methods of a class are named apart. *)
Inductive sort := SProperty | SConstant | SMethod.
Definition sortOf (w : what) : sort :=
  match w with Property _ _ => SProperty | Constant => SConstant | Method _ => SMethod end.
Definition belongs (p : program) (c : nat) (m : member) : Prop :=
  exists k, nth_error (classes p) c = Some k /\ In m (c_members k).
Definition base (p : program) (c b : nat) : Prop :=
  exists k, nth_error (classes p) c = Some k /\ c_base k = Some b.
Definition named (s : sort) (n : string) (m : member) : Prop := sortOf (m_what m) = s /\ m_name m = n.

(** [finds p from c s n o m]: looking for [n] in class [c] one comes to [m], declared in class [o]; from code in class [from]. *)
Inductive finds (p : program) (from : nat) : nat -> sort -> string -> nat -> member -> Prop :=
| f_here c s n m :
    belongs p c m -> named s n m -> (m_access m = Priv -> c = from) -> finds p from c s n c m
| f_up c b s n o m :
    (forall m', belongs p c m' -> ~ named s n m') -> base p c b -> finds p from b s n o m ->
    finds p from c s n o m.

(** The class around a place; and whether there is a $this. *)
Definition classOf (s : spot) : option nat :=
  match s with InMethod c _ | InClosure c _ => Some c | Elsewhere => None end.
Definition hasThis (s : spot) : Prop :=
  match s with InMethod _ st | InClosure _ st => st = false | Elsewhere => False end.

(** [denotes p pl text d]: at [pl] the expression [text] names [d]. *)
Inductive denotes (p : program) (pl : place) : string -> decl -> Prop :=
| n_variable n s : In (n, s) (locals pl) -> denotes p pl ("$" ++ n) (DVar n s)
| n_super n : In (GSuper n) (globals p) -> denotes p pl ("$" ++ n) (DGlobal (GSuper n))
| n_function n : In (GFunction n) (globals p) -> denotes p pl (n ++ "()") (DGlobal (GFunction n))
| n_constant n : In (GConstant n) (globals p) -> denotes p pl n (DGlobal (GConstant n))
| n_class n : In (GClass n) (globals p) -> denotes p pl n (DGlobal (GClass n))
| n_thisProperty c n o m ty :
    hasThis (where_ pl) -> classOf (where_ pl) = Some c -> finds p c c SProperty n o m -> m_what m = Property false ty ->
    denotes p pl ("$this->" ++ n) (DMember o m)
| n_thisMethod c n o m :
    hasThis (where_ pl) -> classOf (where_ pl) = Some c -> finds p c c SMethod n o m ->
    denotes p pl ("$this->" ++ n ++ "()") (DMember o m)
| n_selfMethod c n o m :
    classOf (where_ pl) = Some c -> finds p c c SMethod n o m -> m_what m = Method true \/ hasThis (where_ pl) ->
    denotes p pl ("self::" ++ n ++ "()") (DMember o m)
| n_selfProperty c n o m ty :
    classOf (where_ pl) = Some c -> finds p c c SProperty n o m -> m_what m = Property true ty ->
    denotes p pl ("self::$" ++ n) (DMember o m)
| n_selfConstant c n o m :
    classOf (where_ pl) = Some c -> finds p c c SConstant n o m -> denotes p pl ("self::" ++ n) (DMember o m).

(** Two declarations of the same name and sort. *)
Inductive alike : decl -> decl -> Prop :=
| a_same d : alike d d
| a_variable n s s' : alike (DVar n s) (DVar n s')
| a_member c c' m m' : m_name m = m_name m' -> sortOf (m_what m) = sortOf (m_what m') -> alike (DMember c m) (DMember c' m').

(** A name alone may be that of a class and that of a constant. *)
Definition classAndConstant (d d' : decl) : Prop :=
  exists n, (d = DGlobal (GClass n) /\ d' = DGlobal (GConstant n)) \/ (d = DGlobal (GConstant n) /\ d' = DGlobal (GClass n)).

(** ** Programs PHP accepts *)
(** [above p c b]: [b] is a base class of [c], or one of its base classes. *)
Inductive above (p : program) : nat -> nat -> Prop :=
| ab_base c b : base p c b -> above p c b
| ab_more c b a : base p c b -> above p b a -> above p c a.
Record lawful (p : program) : Prop := {
  (** no two members of one class have the same name and sort *)
  l_once : forall c m m', belongs p c m -> belongs p c m' -> sortOf (m_what m) = sortOf (m_what m') -> m_name m = m_name m' ->
           m = m';
  (** a member that overrides another is static when that one is, and not private *)
  l_override : forall c a m m', belongs p c m -> above p c a -> belongs p a m' -> m_access m' <> Priv ->
           sortOf (m_what m) = sortOf (m_what m') -> m_name m = m_name m' ->
           isStatic (m_what m) = isStatic (m_what m') /\ m_access m <> Priv;
  (** no class is its own base class: the classes can be listed with the base classes first *)
  l_order : forall c b, base p c b -> b < c }.
(** A name: letters, digits and underscores. *)
Definition alphabet : list ascii := list_ascii_of_string "0123456789ABCDEFGHIJKLMNOPQRSTUVWXYZabcdefghijklmnopqrstuvwxyz_".
Definition isWord (a : ascii) : Prop := In a alphabet.
Definition isName (n : string) : Prop := n <> EmptyString /\ Forall isWord (list_ascii_of_string n).
Definition goodNames (p : program) (pl : place) : Prop :=
  (forall c m, belongs p c m -> isName (m_name m)) /\
  (forall g, In g (globals p) -> isName (declName (DGlobal g))) /\
  (forall v, In v (locals pl) -> isName (fst v) /\ ~ In (GSuper (fst v)) (globals p)).

(** A member that code at [pl] may use: its own, or one of a base class that is not private there. *)
Definition usable (p : program) (pl : place) (d : decl) : Prop :=
  match d with
  | DMember o m => belongs p o m /\ exists c, classOf (where_ pl) = Some c /\ (o = c \/ (above p c o /\ m_access m <> Priv))
  | _ => False
  end.
(** The cases in which the text is right (see the refutations): not a member of an object where there is no object, not a
    member in a closure, and not a static property that is given the value of a constant or is a callable, object or resource. *)
Definition regular (pl : place) (d : decl) : Prop :=
  match d with
  | DMember _ m =>
      match where_ pl with
      | InMethod _ st => st = false \/ isStatic (m_what m) = true
      | _ => False
      end /\
      match m_what m with Property true ty => ty <> OfConstant /\ ty <> Named true | _ => True end
  | _ => True
  end.

(** No other variable, property or constant that can be seen has the name of [d] (C52). *)
Definition onlyOne (p : program) (pl : place) (d : decl) : Prop :=
  forall d', In d' (visible p pl) -> isInstance d' = true -> declName d' = declName d -> foreign d' = true \/ d' = d.

(** What may be typed before an item is chosen: the beginning of a name, or $ and the beginning of a name. *)
Definition typing (l : list ascii) : Prop := Forall isWord l \/ exists r, l = "$"%char :: r /\ Forall isWord r.
