(** Which properties may be assigned where, by the rules of PHP. *)
From Coq Require Import List Bool Arith.
From Verif Require Import VisModel.
Import ListNotations.
Open Scope nat_scope.

(** [c] declares [x] with visibility [v], and no class before it in the list does. *)
Inductive Nearest (w : world) (x : nat) : list nat -> nat -> vis -> Prop :=
| N_here c l v : props w c x = Some v -> Nearest w x (c :: l) c v
| N_up c l d v : props w c x = None -> Nearest w x l d v -> Nearest w x (c :: l) d v.
(** The same, but private properties are not seen. *)
Inductive Inherited (w : world) (x : nat) : list nat -> nat -> vis -> Prop :=
| I_here c l v : props w c x = Some v -> v <> Private -> Inherited w x (c :: l) c v
| I_up c l d v : props w c x = None \/ props w c x = Some Private -> Inherited w x l d v -> Inherited w x (c :: l) d v.

(** Code in the class [me], or in none, may not assign property [x] of an object of class [d].
    A private property of [me] itself is used when the object is of [me] or a class below it; else a property of [d], and
    else one that [d] inherits, which private ones are not. *)
Definition own (w : world) (me : option nat) (d x : nat) : Prop := exists m, me = Some m /\ In m (chain w d) /\ props w m x = Some Private.
Definition forbids (w : world) (me : option nat) (d x : nat) (v : vis) : Prop :=
  ~ own w me d x /\
  ((v = Private /\ props w d x = Some Private) \/
   (v = Protected /\ props w d x <> Some Private /\ exists c, Inherited w x (chain w d) c Protected /\
    ~ exists m, me = Some m /\ (In c (chain w m) \/ In m (chain w c)))).

(** The class of the object, by the scope of the variable. *)
Definition classOf (s : site) (o : object) : option nat :=
  match o with
  | This => class s
  | Var o => match match scopes s with [] => globals s o | sc :: _ => sc o end with Some c => c | None => None end
  end.

(** Properties are not made less visible in a class below. *)
Definition lawful (w : world) : Prop := forall c c' x, props w c x = Some Private -> In c' (chain w c) -> c' <> c ->
  props w c' x = None \/ props w c' x = Some Private.
(** The object's class is found: *)
Record found (w : world) (s : site) (o : nat) (d : nat) : Prop := {
  (** a global variable of that name holds an object of the same class; *)
  f_global : globals s o = Some (Some d);
  (** the code is not in a closure in a method. *)
  f_closure : class s <> None -> exists sc, scopes s = [sc] }.
(** Nothing is reported that is allowed: *)
Record fair (w : world) (s : site) (d x : nat) : Prop := {
  (** the property is not a private one of a base class of the object's; *)
  p_inherited : forall c, Nearest w x (chain w d) c Private -> c = d;
  (** the code is in no base class of a class that declares it protected. *)
  p_base : forall m c, class s = Some m -> Nearest w x (chain w d) c Protected -> In m (chain w c) -> In c (chain w m) }.
(** Nothing that is not allowed is missed: *)
Record seen (w : world) (s : site) (d x : nat) : Prop := {
  (** no variable has the name of the property; *)
  p_variable : (forall sc, In sc (scopes s) -> sc x = None) /\ globals s x = None;
  (** the code is not in a class below one that declares it private; *)
  p_below : forall m, class s = Some m -> In d (chain w m) -> m <> d -> props w d x <> Some Private;
  (** and if its own class has such a property, it is the same one, *)
  p_own : forall m c v, class s = Some m -> Nearest w x (chain w m) c v ->
    (v <> Private /\ Nearest w x (chain w d) c v) \/
  (** or is private, and either that of a base class or the object is of this class. *)
    (v = Private /\ (c <> m \/ In m (chain w d))) }.
