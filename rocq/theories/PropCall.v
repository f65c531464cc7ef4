(** C80: call tips. *)
From Coq Require Import List Bool Arith NArith ZArith String Sorted.
From Verif Require Import Chars LexModel ComplModel CallModel CallSpec CallProofs.
Import ListNotations.
Open Scope list_scope.
Open Scope nat_scope.

(** The calls with a tip are those that call something known, and the tip shows what the call runs, where classes are written
    as today. *)
Theorem C80_tips_partial : forall cc ls i t,
  (forall l c a d r, In l ls -> decls l = d :: r -> dwhat d = Class c a -> modern cc c a) ->
  (In (i, t) (tips cc (fun _ => false) 0 ls) <-> exists l, nth_error ls i = Some l /\ Calls cc l t).
Proof. exact levels_ok. Qed.
Print Assumptions C80_tips_partial.

(** One tip for a call at most, the innermost call first. *)
Theorem C80_order : forall cc abort ls, StronglySorted (fun x y => fst x < fst y) (tips cc abort 0 ls).
Proof. intros cc abort ls. exact (proj2 (tips_sorted cc abort ls 0)). Qed.
Print Assumptions C80_order.

(** Giving up only leaves out tips of outer calls. *)
Theorem C80_abort : forall cc abort ls, exists r, tips cc (fun _ => false) 0 ls = tips cc abort 0 ls ++ r.
Proof. intros cc abort ls. exact (tips_prefix cc abort ls 0). Qed.
Print Assumptions C80_abort.

(** Without a constructor, a function with the name of the class is shown. *)
Theorem C80_function_refuted : forall cc c a id r,
  (forall x m, Above x c -> In m (members x) -> ~ named cc m (str "__construct") /\ ~ named cc m (map (toLower cc) (nameOf c))) ->
  (forall x m, Line x c -> In m (members x) -> ~ isOld cc (nameOf x) m) ->
  a (str "__construct") = [] -> a (map (toLower cc) (nameOf c)) = (true, id) :: r ->
  ctor cc c a = Some id /\ forall m, ~ Runs cc c m.
Proof. exact function_refuted. Qed.
Print Assumptions C80_function_refuted.

(** An inherited constructor that has the name of its class is not found. *)
Theorem C80_inherited_refuted : forall cc n ns own m b a,
  (forall x, In x own -> ~ named cc x (str "__construct") /\ ~ named cc x (map (toLower cc) n)) ->
  mk m = Method -> map (toLower cc) (mname m) = map (toLower cc) b ->
  map (toLower cc) b <> str "__construct" -> map (toLower cc) b <> map (toLower cc) n ->
  a (str "__construct") = [] -> a (map (toLower cc) n) = [] ->
  let c := Cls n ns own (Some (Cls b false [m] None [])) [] in
  Runs cc c m /\ ctor cc c a = None.
Proof. exact inherited_refuted. Qed.
Print Assumptions C80_inherited_refuted.

(** A constructor with the name of its class: the inherited __construct is shown instead. *)
Theorem C80_own_refuted : forall cc n m b nsb k a, mk m = Method -> map (toLower cc) (mname m) = map (toLower cc) n ->
  map (toLower cc) n <> str "__construct" -> mk k = Method -> map (toLower cc) (mname k) = str "__construct" -> mid m <> mid k ->
  let c := Cls n false [m] (Some (Cls b nsb [k] None [])) [] in
  Runs cc c m /\ ctor cc c a = Some (mid k) /\ (forall r, Runs cc c r -> mid r <> mid k).
Proof. exact own_refuted. Qed.
Print Assumptions C80_own_refuted.

(** In a namespace a method with the name of its class is no constructor, but it is shown. *)
Theorem C80_namespace_refuted : forall cc n m a, mk m = Method -> map (toLower cc) (mname m) = map (toLower cc) n ->
  map (toLower cc) n <> str "__construct" -> a (str "__construct") = [] ->
  let c := Cls n true [m] None [] in ctor cc c a = Some (mid m) /\ forall r, ~ Runs cc c r.
Proof. exact namespace_refuted. Qed.
Print Assumptions C80_namespace_refuted.

(** Inside the call of an unknown function the outer call is not found, although it is known; the context around it is found
    with the inner function known. *)
Definition knows (l : list string) : Env := {| e_hasType := fun e => existsb (fun s => eqs e (str s)) l; e_inMethod := false; e_goodParent := false |}.
Theorem C80_outer_refuted :
  (exists c p, complete asciiCC (knows ["outer()"%string]) 60 true false (str "outer(inner(") [] = Ok c /\ c_valid c = true /\
     c_parent c = Some p /\ c_parent p = None) /\
  (exists c p q, complete asciiCC (knows ["outer()"%string; "inner())"%string]) 60 true false (str "outer(inner(") [] = Ok c /\
     c_valid c = true /\ c_parent c = Some p /\ c_parent p = Some q /\ c_expr q = str "outer()").
Proof.
  split.
  - do 2 eexists. split; [vm_compute; reflexivity|]. split; [reflexivity|]. split; reflexivity.
  - do 3 eexists. split; [vm_compute; reflexivity|]. split; [reflexivity|]. split; [reflexivity|]. split; reflexivity.
Qed.
Print Assumptions C80_outer_refuted.

(** ** A program: class Base { var $x; function __construct(..) }  class Point extends Base implements Shape { function Move() }
    function f(..); the text  f(new Point($g( *)
Definition base : cls := Cls (str "Base") false [{| mk := Property; mname := str "x"; mid := 1 |}; {| mk := Method; mname := str "__Construct"; mid := 2 |}] None [].
Definition shape : cls := Cls (str "Shape") false [{| mk := Method; mname := str "move"; mid := 3 |}] None [].
Definition point : cls := Cls (str "Point") false [{| mk := Method; mname := str "Move"; mid := 4 |}] (Some base) [shape].
Definition nothing : around := fun i => if eqs i (str "f") then [(true, 9)] else if eqs i (str "point") then [(false, 5)] else [].
Definition three : list level :=
  [{| call := true; decls := [{| dwhat := Other 7 true; shown := true |}] |};
   {| call := true; decls := [{| dwhat := Class point nothing; shown := true |}] |};
   {| call := true; decls := [{| dwhat := Fun 9; shown := true |}] |}].

Lemma above_point x : Above x point -> x = point \/ x = base \/ x = shape.
Proof.
  intros A. inversion A as [|? ? ? ? ? ? B|? ? ? ? ? ? ? I B]; subst.
  - now left.
  - right. left. inversion B as [| |? ? ? ? ? ? ? I]; subst; [reflexivity|destruct I].
  - right. right. destruct I as [<-|[]]. inversion B as [| |? ? ? ? ? ? ? I]; subst; [reflexivity|destruct I].
Qed.
Lemma line_point x : Line x point -> x = point \/ x = base.
Proof. intros A. inversion A as [|? ? ? ? ? ? B]; subst; [now left|]. right. inversion B; subst; reflexivity. Qed.
Example C80_modern : modern asciiCC point nothing.
Proof.
  constructor.
  - intros x m A I N. destruct (above_point x A) as [->|[->| ->]]; cbn in I;
      repeat (destruct I as [<-|I]; [try reflexivity; vm_compute in N; discriminate N|]); destruct I.
  - intros x m m' A I I' N N'. destruct (above_point x A) as [->|[->| ->]]; cbn in I, I';
      repeat (destruct I as [<-|I]; [|]); try (now destruct I); try (now (vm_compute in N; discriminate N));
      repeat (destruct I' as [<-|I']; [|]); try (now destruct I'); try (now (vm_compute in N'; discriminate N')); reflexivity.
  - intros n ns own b ifs i x m L I A Hm N. destruct (line_point _ L) as [E|E]; injection E as -> -> -> -> ->.
    + destruct I as [<-|[]]. inversion A as [| |? ? ? ? ? ? ? J]; subst; [|destruct J].
      destruct Hm as [<-|[]]. vm_compute in N. discriminate N.
    + destruct I.
  - intros x m L I [_ O]. destruct (line_point _ L) as [->| ->]; cbn in I; repeat (destruct I as [<-|I]; [vm_compute in O; discriminate O|]); destruct I.
  - intros x m A I N. destruct (above_point x A) as [->|[->| ->]]; cbn in I; repeat (destruct I as [<-|I]; [vm_compute in N; discriminate N|]); destruct I.
  - intros id. split; intros I; vm_compute in I; repeat (destruct I as [I|I]; [discriminate I|]); destruct I.
Qed.
Example C80_case : tips asciiCC (fun _ => false) 0 three = [(0, 7); (1, 2); (2, 9)] /\
  (forall l c a d r, In l three -> decls l = d :: r -> dwhat d = Class c a -> modern asciiCC c a) /\
  tips asciiCC (fun k => Nat.eqb k 2) 0 three = [(0, 7); (1, 2)].
Proof.
  split; [vm_compute; reflexivity|]. split; [|vm_compute; reflexivity].
  intros l c a d r I E D. destruct I as [<-|[<-|[<-|[]]]]; injection E as <- <-; try discriminate D.
  injection D as <- <-. exact C80_modern.
Qed.
(** class Date implements Shape {}  next to the function date() of PHP: new Date( shows date(). *)
Definition date : cls := Cls (str "Date") false [{| mk := Method; mname := str "Today"; mid := 4 |}] None [shape].
Definition builtin : around := fun i => if eqs i (str "date") then [(true, 9); (false, 5)] else [].
Example C80_function_case : ctor asciiCC date builtin = Some 9 /\ forall m, ~ Runs asciiCC date m.
Proof.
  apply C80_function_refuted with (r := [(false, 5)]); [| |reflexivity|reflexivity].
  - intros x m A I. assert (E : x = date \/ x = shape).
    { inversion A as [| |? ? ? ? ? ? ? J B]; subst; [now left|]. right. destruct J as [<-|[]]. inversion B as [| |? ? ? ? ? ? ? J]; subst; [reflexivity|destruct J]. }
    destruct E as [->| ->]; destruct I as [<-|[]]; split; intros N; vm_compute in N; discriminate N.
  - intros x m L I. inversion L; subst. destruct I as [<-|[]]. intros [_ N]. vm_compute in N. discriminate N.
Qed.
Example C80_refuted_cases :
  let m := {| mk := Method; mname := str "Base"; mid := 1 |} in let k := {| mk := Method; mname := str "__construct"; mid := 2 |} in
  ctor asciiCC (Cls (str "Point") false [] (Some (Cls (str "Base") false [m] None [])) []) nothing = None /\
  ctor asciiCC (Cls (str "base") false [m] (Some (Cls (str "Root") false [k] None [])) []) nothing = Some 2 /\
  ctor asciiCC (Cls (str "base") true [m] None []) nothing = Some 1.
Proof. vm_compute. auto. Qed.
