(** C26: the modifiers written decide access, static, abstract, final and the errors. *)
From Verif Require Import ModModel ModSpec ModProofs.

Theorem C26_method_access : forall k cm report l empty a, visibility l a ->
  access (fst (method fresh k cm report (modifiers l) empty)) = a.
Proof. exact method_access. Qed.
Print Assumptions C26_method_access.

Theorem C26_method_static : forall k cm report l empty,
  isStatic (fst (method fresh k cm report (modifiers l) empty)) = true <-> In Static l.
Proof. exact method_static. Qed.
Print Assumptions C26_method_static.

Theorem C26_method_abstract : forall k cm l empty,
  isAbstract (fst (method fresh k cm true (modifiers l) empty)) = true <->
  k = Interface \/ (In Abstract l /\ ~ In Final l /\ empty = true /\ (cm = CAbstract \/ k = Trait)).
Proof. exact method_abstract. Qed.
Print Assumptions C26_method_abstract.
Theorem C26_method_abstract_without_checks : forall k cm l empty,
  isAbstract (fst (method fresh k cm false (modifiers l) empty)) = true <-> k = Interface \/ In Abstract l.
Proof. exact method_abstract_quiet. Qed.
Print Assumptions C26_method_abstract_without_checks.

Theorem C26_method_final : forall k cm report l empty,
  isFinal (fst (method fresh k cm report (modifiers l) empty)) = true <->
  k <> Interface /\ In Final l /\ ~ In Abstract l.
Proof. exact method_final. Qed.
Print Assumptions C26_method_final.

(** An error is reported for a method exactly when PHP rejects it (apart from repeated or
    contradicting visibility, see the refutation below). *)
Theorem C26_method_errors : forall k cm l hasBody,
  snd (method fresh k cm true (modifiers l) (negb hasBody)) = [] <-> phpAccepts k cm l hasBody.
Proof. exact method_errors. Qed.
Print Assumptions C26_method_errors.
Theorem C26_no_errors_without_checks : forall k cm l empty, snd (method fresh k cm false (modifiers l) empty) = [].
Proof. exact quiet_errors. Qed.
Print Assumptions C26_no_errors_without_checks.

Theorem C26_property : forall report l a, visibility l a ->
  let d := fst (property fresh report (modifiers l)) in
  access d = a /\ (isStatic d = true <-> In Static l) /\ isAbstract d = false /\ isFinal d = false.
Proof. exact property_ok. Qed.
Print Assumptions C26_property.
Theorem C26_property_errors : forall l,
  (In PropFinal (snd (property fresh true (modifiers l))) <-> In Final l) /\
  (In PropAbstract (snd (property fresh true (modifiers l))) <-> In Abstract l) /\
  (snd (property fresh true (modifiers l)) = [] <-> ~ In Final l /\ ~ In Abstract l).
Proof. exact property_errors. Qed.
Print Assumptions C26_property_errors.

Theorem C26_constant : forall d report l a, visibility l a ->
  let r := fst (classConst d report (modifiers l)) in access r = a /\ isStatic r = true.
Proof. exact const_ok. Qed.
Print Assumptions C26_constant.
Theorem C26_constant_errors : forall d l,
  let e := snd (classConst d true (modifiers l)) in
  (In ConstFinal e <-> In Final l) /\ (In ConstStatic e <-> In Static l) /\ (In ConstAbstract e <-> In Abstract l) /\
  (e = [] <-> ~ In Final l /\ ~ In Static l /\ ~ In Abstract l).
Proof. exact const_errors. Qed.
Print Assumptions C26_constant_errors.

(** The order in which the keywords are written does not matter. *)
Theorem C26_order_free : forall l1 l2, sameSet l1 l2 -> forall d k cm report empty,
  method d k cm report (modifiers l1) empty = method d k cm report (modifiers l2) empty /\
  property d report (modifiers l1) = property d report (modifiers l2) /\
  classConst d report (modifiers l1) = classConst d report (modifiers l2).
Proof. exact order_free. Qed.
Print Assumptions C26_order_free.

(** Contradicting visibility keywords, which PHP rejects, are not reported. *)
Theorem C26_visibility_errors_refuted : exists l,
  ~ wellFormedMods l /\ snd (method fresh Class CNone true (modifiers l) false) = [].
Proof.
  exists [Public; Private]. split; [|reflexivity]. intros (_ & _ & H & _). apply H. cbn. tauto.
Qed.
Print Assumptions C26_visibility_errors_refuted.

(** An abstract method of a class that is not abstract also gets "Non-abstract method must
    contain body". *)
Theorem C26_spurious_body_error_refuted : exists l,
  In Abstract l /\ In NeedsBody (snd (method fresh Class CNone true (modifiers l) true)).
Proof. exists [Abstract]. cbn. tauto. Qed.
Print Assumptions C26_spurious_body_error_refuted.

(** When the declaration found at the same place is used again after an edit that removed the
    keywords, the old flags stay. *)
Theorem C26_reparse_refuted : exists l,
  let old := fst (method fresh Class CNone true (modifiers l) false) in
  let new := fst (method old Class CNone true (modifiers []) false) in
  access new = APrivate /\ isStatic new = true /\ isFinal new = true.
Proof. exists [Final; Private; Static]. vm_compute. auto. Qed.
Print Assumptions C26_reparse_refuted.

Example C26_case : visibility [Static; Protected; Final] AProtected /\
  phpAccepts Class CNone [Static; Protected; Final] true /\
  method fresh Class CNone true (modifiers [Static; Protected; Final]) false =
    ({| access := AProtected; isStatic := true; isAbstract := false; isFinal := true |}, []).
Proof. cbn. intuition congruence. Qed.
Example C26_case_interface : method fresh Interface CNone true (modifiers [Abstract]) false =
    ({| access := APublic; isStatic := false; isAbstract := true; isFinal := false |}, [InterfaceAccess; InterfaceBody]).
Proof. reflexivity. Qed.
