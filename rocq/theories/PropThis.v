(** C82: assigning to $this. *)
From Coq Require Import List Bool Arith NArith String.
From Verif Require Import PhpTypes Chars LexModel ComplModel ThisModel ThisSpec ThisProofs.
Import ListNotations.
Open Scope list_scope.
Open Scope nat_scope.

(** In a method of a class that is no ArrayAccess, assigning to $this or to an element of it is reported. *)
Theorem C82_reported : forall c elem t, ~ elements c -> assignThis (InMethod c) elem t = ReAssign.
Proof. exact other. Qed.
Print Assumptions C82_reported.

(** In a method of any class, assigning a value of a simple type other than array to $this is reported. *)
Theorem C82_whole_partial : forall c k, k <> KArray -> assignThis (InMethod c) false (Integral k) = ReAssign.
Proof. exact whole. Qed.
Print Assumptions C82_whole_partial.

(** In a class that implements ArrayAccess itself, assigning to an element is fine, but for the number of methods the class
    lacks, unless it is abstract. *)
Theorem C82_element_partial : forall c x t, direct c x -> theInterface x -> plainClass c ->
  (forall n, 0 < n -> (assignThis (InMethod c) true t = Missing n <-> ~ abstractClass c /\ lacks c n)) /\
  (assignThis (InMethod c) true t = Nothing <-> abstractClass c \/ lacks c 0).
Proof. exact element_ok. Qed.
Print Assumptions C82_element_partial.

(** There, assigning an array to $this itself is not reported. *)
Theorem C82_array_refuted : forall c x, direct c x -> theInterface x -> assignThis (InMethod c) false (Integral KArray) <> ReAssign.
Proof. exact array_value. Qed.
Print Assumptions C82_array_refuted.

(** There, assigning an object, or anything of no simple type, to $this reads memory that belongs to no such object. *)
Theorem C82_undefined : forall c x t, direct c x -> theInterface x -> (forall k, t <> Integral k) -> assignThis (InMethod c) false t = Undefined.
Proof. exact object_value. Qed.
Print Assumptions C82_undefined.

(** A class that is an ArrayAccess only by way of another class or interface: assigning to an element is reported. *)
Theorem C82_inherited_refuted : forall c x t, direct c x -> elements x -> (forall y, direct c y -> ~ theInterface y) ->
  elements c /\ assignThis (InMethod c) true t = ReAssign.
Proof. exact inherited. Qed.
Print Assumptions C82_inherited_refuted.

(** Inherited methods count as missing. *)
Theorem C82_methods_refuted : forall n b ifs x t, In x ifs -> theInterface x -> (forall m, In m four -> has b m) ->
  let c := Cls n false false false [] (Some b) ifs in lacks c 0 /\ assignThis (InMethod c) true t = Missing 4.
Proof. exact base_methods. Qed.
Print Assumptions C82_methods_refuted.

(** In closures and functions nothing is reported. *)
Theorem C82_elsewhere_refuted : forall elem t, assignThis Elsewhere elem t = Declared.
Proof. reflexivity. Qed.
Print Assumptions C82_elsewhere_refuted.

(** ** interface ArrayAccess {..}  interface Bag extends ArrayAccess {}  class Base { the four }
    class Store implements ArrayAccess { offsetGet, offsetSet, other }  class Plain {}  class Derived extends Store *)
Definition aa : cls := Cls (str "ArrayAccess") true false false four None [].
Definition bag : cls := Cls (str "Bag") true false false [] None [aa].
Definition base : cls := Cls (str "Base") false false false four None [].
Definition store : cls := Cls (str "Store") false false false [str "offsetget"; str "other"; str "offsetset"] None [aa].
Definition plain_ : cls := Cls (str "Plain") false false false [str "other"] None [].
Definition derived : cls := Cls (str "Derived") false false false four (Some store) [].
Lemma aa_ok : theInterface aa.
Proof. now exists false, four, None, []. Qed.
Lemma not_named c : isArrayAccess c = false -> ~ theInterface c.
Proof. intros E H. apply isArrayAccess_ok in H. congruence. Qed.
Example C82_reported_case : ~ elements plain_ /\ assignThis (InMethod plain_) true (Integral KInt) = ReAssign.
Proof.
  split; [|reflexivity]. intros E. inversion E as [c x D|c x D]; subst; destruct D as [D|[]]; discriminate D.
Qed.
Example C82_element_case : direct store aa /\ theInterface aa /\ plainClass store /\ lacks store 2 /\
  assignThis (InMethod store) true (Struct 3) = Missing 2.
Proof.
  assert (P : plainClass store).
  { split; [repeat constructor; cbn [In]; intros H; repeat (destruct H as [H|H]; [vm_compute in H; discriminate H|]); destruct H|].
    intros m _ H. inversion H; subst. assumption. }
  split; [right; now left|]. split; [exact aa_ok|]. split; [exact P|].
  assert (E : assignThis (InMethod store) true (Struct 3) = Missing 2) by reflexivity.
  split; [|exact E]. assert (D : direct store aa) by (right; now left).
  now apply (proj1 (C82_element_partial store aa (Struct 3) D aa_ok P) 2 (le_S _ _ (le_n 1))).
Qed.
Example C82_inherited_case : elements derived /\ assignThis (InMethod derived) true (Integral KInt) = ReAssign.
Proof.
  apply (C82_inherited_refuted derived store).
  - now left.
  - apply (E_here store aa); [right; now left|exact aa_ok].
  - intros y [D|[]]. injection D as <-. now apply not_named.
Qed.
Example C82_methods_case : assignThis (InMethod (Cls (str "D") false false false [] (Some base) [bag; aa])) true (Integral KInt) = Missing 4 /\
  (forall m, In m four -> has base m).
Proof. split; [reflexivity|]. intros m H. now apply H_own. Qed.
Example C82_value_cases : assignThis (InMethod store) false (Integral KArray) = Missing 2 /\
  assignThis (InMethod derived) false (Integral KArray) = ReAssign /\ assignThis (InMethod store) false (Struct 1) = Undefined /\
  assignThis (InMethod store) false (Integral KString) = ReAssign.
Proof. repeat split. Qed.
