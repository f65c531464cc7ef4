(** C70: each declaration is recorded with the type its own syntax gives it.  Vocabulary in RecSpec.v. *)
From Verif Require Import RecProofs2.
Open Scope nat_scope.

(** Whatever the file: variables, parameters, functions, closures, methods and classes are recorded
    in order, each with its own type, and every type opened is closed. *)
Theorem C70_own : forall file, ordinary (recorded file) = ordinary (typesL file) /\ stack (runs file start) = [].
Proof. exact recorded_ordinary. Qed.
Print Assumptions C70_own.

(** Constants, properties and caught exceptions too, unless a doc comment read for something else
    comes directly before (see the refuted cases), an exception class is unknown, or a property is
    documented as [$this].  Missing from the full property: those cases, and foreach's keys. *)
Theorem C70_types_partial : forall file, completeL true file -> undisturbed (eventsL file) ->
  typed (recorded file) = typed (typesL file).
Proof. exact recorded_types. Qed.
Print Assumptions C70_types_partial.

(** /** @return int */ function f() {}  class A { const X = "s"; } : the constant gets the type of
    the function, and is not marked as constant. *)
Definition docFun := NFun 1 (TypeTag (Integral KInt)) false [] nil_.
Definition str70 := {| v_tag := NoTag; v_eval := Some (Integral KString) |}.
Theorem C70_constant_refuted : exists file, completeL true file /\
  In (Constant, 3%N, Some (Integral KString, true)) (typesL file) /\
  In (Constant, 3%N, Some (Func 1, false)) (recorded file).
Proof.
  exists (cons_ docFun (cons_ (NClass 2 (mcons (MConsts [(3%N, str70)]) mnil)) nil_)).
  repeat split; vm_compute; auto 6.
Qed.
Print Assumptions C70_constant_refuted.
(** class A { /** @var $this */ public $x; } after a function: the property gets the type of the
    function. *)
Theorem C70_this_refuted : exists file, undisturbed (eventsL file) /\
  In (Property, 3%N, Some (plainT (Struct 2))) (typesL file) /\
  In (Property, 3%N, Some (plainT (Func 1))) (recorded file).
Proof.
  exists (cons_ (NFun 1 NoTag false [] nil_) (cons_ (NClass 2 (mcons (MProps None (ThisTag (Some (Struct 2))) [(3%N, None)]) mnil)) nil_)).
  split; [|split; vm_compute; auto 6]. intros a b H. cbn in H. destruct a as [|x [|y [|]]]; discriminate.
Qed.
Print Assumptions C70_this_refuted.
(** class A { public $x = /** @var int */ 1, $y = "s"; } : $y gets the type of $x. *)
Theorem C70_second_refuted : exists file, completeL true file /\
  In (Property, 2%N, Some (plainT (Integral KString))) (typesL file) /\
  In (Property, 2%N, Some (plainT (Integral KInt))) (recorded file).
Proof.
  exists (cons_ (NClass 0 (mcons (MProps None NoTag [(1%N, Some {| v_tag := TypeTag (Integral KInt); v_eval := Some (Integral KInt) |}); (2%N, Some str70)]) mnil)) nil_).
  repeat split; vm_compute; auto 6.
Qed.
Print Assumptions C70_second_refuted.
(** catch (Unknown $e) { $x = 1; } : $e is recorded as an int. *)
Theorem C70_catch_refuted : exists file, undisturbed (eventsL file) /\
  In (Caught, 2%N, None) (typesL file) /\ In (Caught, 2%N, Some (plainT (Integral KInt))) (recorded file).
Proof.
  exists (cons_ (NCatch 2 [None] (cons_ (NAssign 1 false {| v_tag := NoTag; v_eval := Some (Integral KInt) |} nil_) nil_)) nil_).
  split; [|split; vm_compute; auto 6]. intros a b H. cbn in H. destruct a as [|x [|y [|]]]; discriminate.
Qed.
Print Assumptions C70_catch_refuted.
(** foreach ($a as $k => $v): the key is recorded with the type of the values. *)
Theorem C70_key_refuted : exists file, In (ForeachKey, 1%N, Some (plainT (Struct 7))) (recorded file).
Proof. exists (cons_ (NForeach (Some 1%N) 2 (Some (Struct 7)) nil_) nil_). vm_compute. auto. Qed.
Print Assumptions C70_key_refuted.
(** namespace foo; $x = 1; : the namespace is recorded with the type int. *)
Theorem C70_namespace_refuted : exists file, In (NamespaceDecl, 1%N, Some (plainT (Integral KInt))) (recorded file).
Proof. exists (cons_ (NNamespace 1 (cons_ (NAssign 2 false {| v_tag := NoTag; v_eval := Some (Integral KInt) |} nil_) nil_)) nil_). vm_compute. auto. Qed.
Print Assumptions C70_namespace_refuted.

(** A file with each kind of declaration meets the conditions: a documented function whose body
    assigns something, a class with constants, properties (hinted, documented, with values), a
    documented method after them, a closure in an assignment, a caught exception. *)
Definition int70 := {| v_tag := NoTag; v_eval := Some (Integral KInt) |}.
Definition file70 : nodes :=
  cons_ (NConsts [(20%N, str70)])
  (cons_ (NFun 1 (TypeTag (Integral KInt)) false [(2%N, Struct 5)] (cons_ (NAssign 3 false int70 nil_) (cons_ (NReturn str70 nil_) nil_)))
  (cons_ (NClass 5 (mcons (MConsts [(6%N, str70); (7%N, int70)])
    (mcons (MProps (Some None) (TypeTag (Struct 5)) [(8%N, None); (9%N, Some int70)])
    (mcons (MProps None (TypeTag (Integral KBool)) [(10%N, Some int70)])
    (mcons (MProps None NoTag [(11%N, None); (12%N, Some str70)])
    (mcons (MConsts [(13%N, int70)])
    (mcons (MMethod 14 (TypeTag (Integral KFloat)) false [] nil_) mnil)))))))
  (cons_ (NAssign 15 false {| v_tag := NoTag; v_eval := Some (Func 16) |} (cons_ (NFun 16 NoTag true [] (cons_ (NStatic 17 None) nil_)) nil_))
  (cons_ (NCatch 18 [Some (Struct 3); None] (cons_ (NForeach (Some 19%N) 21 (Some (Struct 4)) nil_) nil_)) nil_)))).
Example C70_case : completeL true file70 /\ undisturbed (eventsL file70) /\
  typed (recorded file70) = map (fun p => (fst (fst p), snd (fst p), Some (snd p)))
   [(Constant, 20%N, (Integral KString, true)); (Ordinary, 2%N, plainT (Struct 5)); (Ordinary, 3%N, plainT (Integral KInt)); (Ordinary, 1%N, plainT (Func 1));
    (Constant, 6%N, (Integral KString, true)); (Constant, 7%N, (Integral KInt, true));
    (Property, 8%N, plainT (Struct 5)); (Property, 9%N, plainT (Struct 5)); (Property, 10%N, plainT (Integral KBool));
    (Property, 11%N, plainT (Integral KNull)); (Property, 12%N, plainT (Integral KString)); (Constant, 13%N, (Integral KInt, true));
    (Ordinary, 14%N, plainT (Func 14)); (Ordinary, 5%N, plainT (Struct 5)); (Ordinary, 17%N, plainT (Integral KMixed)); (Ordinary, 16%N, plainT (Func 16));
    (Ordinary, 15%N, plainT (Func 16)); (Ordinary, 21%N, plainT (Struct 4)); (Caught, 18%N, plainT (Unsure [Struct 3]))].
Proof.
  split; [|split; [|vm_compute; reflexivity]].
  - cbn. repeat split; discriminate.
  - intros a b H. cbn in H. repeat (destruct a as [|? a]; [discriminate H|cbn in H; first [discriminate H|injection H as _ H]]).
Qed.
