(** Which function a call runs. *)
From Coq Require Import List Bool Arith NArith String.
From Verif Require Import Chars LexModel ComplModel CallModel.
Import ListNotations.
Open Scope list_scope.

Section Spec.
Variable cc : CharClass.
Definition sameName (a b : qstring) : Prop := map (toLower cc) a = map (toLower cc) b.

(** The names of constructors. *)
Definition isConstruct (m : member) : Prop := mk m = Method /\ map (toLower cc) (mname m) = str "__construct".
Definition isOld (n : qstring) (m : member) : Prop := mk m = Method /\ sameName (mname m) n.
(** [Runs c m]: new c(..) runs [m]: the class's own __construct; else, outside of namespaces, its own method with the name of
    the class; else what runs for the class it extends. *)
Inductive Runs : cls -> member -> Prop :=
| R_construct n ns own base ifs m : In m own -> isConstruct m -> Runs (Cls n ns own base ifs) m
| R_old n own base ifs m : (forall m', In m' own -> ~ isConstruct m') -> In m own -> isOld n m -> Runs (Cls n false own base ifs) m
| R_base n ns own b ifs m : (forall m', In m' own -> ~ isConstruct m') ->
    (ns = false -> forall m', In m' own -> ~ isOld n m') -> Runs b m -> Runs (Cls n ns own (Some b) ifs) m.

(** What the call in a context calls: the function, the function in the variable, the constructor. *)
Inductive Calls : level -> nat -> Prop :=
| C_fun id r : Calls {| call := true; decls := {| dwhat := Fun id; shown := true |} :: r |} id
| C_value id r : Calls {| call := true; decls := {| dwhat := Other id true; shown := true |} :: r |} id
| C_new c a r m : Runs c m -> Calls {| call := true; decls := {| dwhat := Class c a; shown := true |} :: r |} (mid m).

(** [Above x c]: [x] is [c], or a class or interface it extends or implements; [Line]: only along extends. *)
Inductive Above : cls -> cls -> Prop :=
| A_self c : Above c c
| A_base x n ns own b ifs : Above x b -> Above x (Cls n ns own (Some b) ifs)
| A_if x n ns own base ifs i : In i ifs -> Above x i -> Above x (Cls n ns own base ifs).
Inductive Line : cls -> cls -> Prop :=
| L_self c : Line c c
| L_base x n ns own b ifs : Line x b -> Line x (Cls n ns own (Some b) ifs).
(** A member one reaches by a name: methods in any case. *)
Definition named (m : member) (n : qstring) : Prop :=
  match mk m with Method => map (toLower cc) (mname m) = n | _ => mname m = n end.
Definition members (c : cls) : list member := match c with Cls _ _ own _ _ => own end.
Definition nameOf (c : cls) : qstring := match c with Cls n _ _ _ _ => n end.

(** Classes as they are written today: __construct is a method, declared once in a class and in no interface; no class has a
    method with its own name; and nothing else takes the name of the class (or __construct): no member of the class and those above it,
    no function. *)
Record modern (c : cls) (a : around) : Prop := {
  md_method : forall x m, Above x c -> In m (members x) -> named m (str "__construct") -> mk m = Method;
  md_once : forall x m m', Above x c -> In m (members x) -> In m' (members x) ->
    named m (str "__construct") -> named m' (str "__construct") -> m = m';
  md_interface : forall n ns own base ifs i x m, Line (Cls n ns own base ifs) c -> In i ifs -> Above x i ->
    In m (members x) -> ~ named m (str "__construct");
  md_old : forall x m, Line x c -> In m (members x) -> ~ isOld (nameOf x) m;
  md_name : forall x m, Above x c -> In m (members x) -> ~ named m (map (toLower cc) (nameOf c));
  md_function : forall id, ~ In (true, id) (a (map (toLower cc) (nameOf c))) /\ ~ In (true, id) (a (str "__construct"))
}.
End Spec.
