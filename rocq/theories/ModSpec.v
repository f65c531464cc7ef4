(** What PHP prescribes for the modifiers of a class member, in terms of the keywords written. *)
From Verif Require Import ModModel.

(** The visibility written, when at most one visibility keyword is. *)
Definition visibility (l : list Mod) (a : Access) : Prop :=
  match a with
  | APublic => ~ In Protected l /\ ~ In Private l
  | AProtected => In Protected l /\ ~ In Public l /\ ~ In Private l
  | APrivate => In Private l /\ ~ In Public l /\ ~ In Protected l
  end.

(** PHP accepts a method declaration: interface methods have no body and neither final nor
    abstract; an abstract method needs an abstract class (or trait), no body and no final; any
    other method needs a body. *)
Definition phpAccepts (k : ClassKind) (cm : ClassMod) (l : list Mod) (hasBody : bool) : Prop :=
  match k with
  | Interface => ~ In Final l /\ ~ In Abstract l /\ hasBody = false
  | _ => (In Abstract l -> (cm = CAbstract \/ k = Trait) /\ ~ In Final l) /\
         (hasBody = true <-> ~ In Abstract l)
  end.

(** PHP allows one visibility keyword and no keyword twice. *)
Definition wellFormedMods (l : list Mod) : Prop :=
  NoDup l /\ ~ (In Public l /\ In Protected l) /\ ~ (In Public l /\ In Private l) /\
  ~ (In Protected l /\ In Private l).
Definition sameSet (l1 l2 : list Mod) : Prop := forall m, In m l1 <-> In m l2.
