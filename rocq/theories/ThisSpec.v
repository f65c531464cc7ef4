(** What PHP allows. *)
From Coq Require Import List Bool Arith NArith String.
From Verif Require Import PhpTypes Chars LexModel ComplModel ThisModel.
Import ListNotations.
Open Scope list_scope.

(** The interface of PHP. *)
Definition theInterface (c : cls) : Prop := exists abstr methods base ifs, c = Cls (str "ArrayAccess") true abstr false methods base ifs.
(** [c] extends or implements [x] as its declaration says. *)
Definition direct (c x : cls) : Prop := match c with Cls _ _ _ _ _ base ifs => base = Some x \/ In x ifs end.
(** Elements of objects of class [c] may be assigned: it implements ArrayAccess, perhaps by way of others. *)
Inductive elements : cls -> Prop :=
| E_here c x : direct c x -> theInterface x -> elements c
| E_up c x : direct c x -> elements x -> elements c.
(** The class has a method, of its own or inherited. *)
Inductive has : cls -> qstring -> Prop :=
| H_own n i a ns ms b ifs m : In m ms -> has (Cls n i a ns ms b ifs) m
| H_base n i a ns ms b ifs m : has b m -> has (Cls n i a ns ms (Some b) ifs) m.
Definition four : list qstring := [str "offsetexists"; str "offsetget"; str "offsetset"; str "offsetunset"].
Definition abstractClass (c : cls) : Prop := match c with Cls _ _ a _ _ _ _ => a = true end.
(** Exactly [n] of the four methods are missing. *)
Definition lacks (c : cls) (n : nat) : Prop := exists l, NoDup l /\ List.length l = n /\ forall m, In m l <-> In m four /\ ~ has c m.
(** No method is declared twice; none of the four is inherited only. *)
Definition plainClass (c : cls) : Prop :=
  match c with Cls _ _ _ _ ms b _ => NoDup ms /\ forall m, In m four -> has c m -> In m ms end.
