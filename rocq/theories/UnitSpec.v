(** Specification for C44, C45 and C54. *)
From Verif Require Import Chars UnitModel.

Definition declared (n : Notice) : bool := match n with NDeclarations true => true | _ => false end.
Definition times (c : nat) (l : list nat) : nat := count_occ Nat.eq_dec l c.
Definition received (c : nat) (l : list Notice) : nat :=
  List.length (filter (fun n => match n with NContext d => Nat.eqb c d | _ => false end) l).

(** The marks: an x, or a blank. *)
Definition isMark (cc : CharClass) (x : N) : Prop := x = 120 \/ isSpace cc x = true.
(** A line that reports a case: its first "[", mark, "]", then one more character, then the title. *)
Definition marked (cc : CharClass) (line : qstring) (mark : N) (title : qstring) : Prop :=
  exists before rest, line = before ++ cLBRACKET :: mark :: cRBRACKET :: rest /\ title = skipn 1 rest /\ isMark cc mark /\
    (forall b1 x b2, line = b1 ++ cLBRACKET :: x :: cRBRACKET :: b2 -> isMark cc x ->
       (List.length before <= List.length b1)%nat).
(** The name of a case from its title: lower case without blanks. *)
Definition nameOf (cc : CharClass) (title : qstring) : qstring :=
  str "test" ++ filter (fun c => negb (c =? cSP)) (map (toLower cc) title).
(** [line] reports [name] with [mark]. *)
Definition reports (cc : CharClass) (cases : list qstring) (line name : qstring) (mark : N) : Prop :=
  exists title, marked cc line mark title /\ name = nameOf cc title /\ exists c, In c cases /\ eqsCI cc name c = true.
(** The last line of [lines] that reports [name] does so with [mark]. *)
Definition lastReport (cc : CharClass) (cases lines : list qstring) (name : qstring) (mark : N) : Prop :=
  exists before line after, lines = before ++ line :: after /\ reports cc cases line name mark /\
    Forall (fun l => forall k, ~ reports cc cases l name k) after.

(** A class that can be run as a test suite: [tests] are its methods whose name begins with "test". *)
Inductive testMethods : list (bool * qstring) -> list qstring -> Prop :=
| tm_nil : testMethods [] []
| tm_yes t r l : testMethods r l -> testMethods ((true, str "test" ++ t) :: r) ((str "test" ++ t) :: l)
| tm_no m r l : ~ (fst m = true /\ exists t, snd m = str "test" ++ t) -> testMethods r l -> testMethods (m :: r) l.
Definition runnable (c : Class) (tests : list qstring) : Prop :=
  cIsClass c = true /\ cAbstract c = false /\ cProject c = true /\ testMethods (cMembers c) tests /\ tests <> [].
(** [d] is reached from [c] through classes that are not themselves runnable. *)
Inductive reaches (inheriters : Class -> list Class) : Class -> Class -> Prop :=
| rch_self c : reaches inheriters c c
| rch_down c x d : cProject c = true -> cIsClass c = true -> (forall l, ~ runnable c l) -> In x (inheriters c) ->
    reaches inheriters x d -> reaches inheriters c d.
