(** C28, C29, C53: names and lookup. *)
From Verif Require Import Chars LookModel LookSpec LookProofs.

(** C28: two qualified names denote the same class, function or namespace exactly when they
    differ at most in case (and agree on a leading backslash). *)
Theorem C28_spellings cc n1 n2 :
  identifierForNamespace cc n1 false = identifierForNamespace cc n2 false <->
  nsGlobal n1 = nsGlobal n2 /\ samePath cc (nsParts n1) (nsParts n2).
Proof. exact (spellings cc n1 n2). Qed.
Print Assumptions C28_spellings.

(** C28: for constants the namespace is insensitive to case and the name is not. *)
Theorem C28_constants cc n1 n2 p1 k1 p2 k2 : nsParts n1 = p1 ++ [k1] -> nsParts n2 = p2 ++ [k2] ->
  (identifierForNamespace cc n1 true = identifierForNamespace cc n2 true <->
   nsGlobal n1 = nsGlobal n2 /\ samePath cc p1 p2 /\ k1 = k2).
Proof. exact (constants cc n1 n2 p1 k1 p2 k2). Qed.
Print Assumptions C28_constants.

(** C28: use a\{b} means use a\b. *)
Theorem C28_groups cc prefix inner k : inner <> [] ->
  identifierForGroup cc prefix inner k =
  identifierForNamespace cc {| nsGlobal := nsGlobal prefix; nsParts := nsParts prefix ++ inner |} k.
Proof. exact (groups cc prefix inner k). Qed.
Print Assumptions C28_groups.

(** C28: looking up a class or function under two spellings gives the same answer and has the
    same effects. *)
Theorem C28_lookup cc w ch t a b : t = ClassDT \/ t = FunctionDT -> sameUpToCase cc a b ->
  findByNode cc w ch t a = findByNode cc w ch t b.
Proof. exact (lookup_spelling cc w ch t a b). Qed.
Print Assumptions C28_lookup.

(** C28: a class or function declared under one spelling in the namespace in force is found
    under every other. *)
Theorem C28_declared_found cc w ch t spelled used d p : t = ClassDT \/ t = FunctionDT ->
  ~ In (lower cc used) selfNames -> sameUpToCase cc spelled used ->
  inNamespace ch p -> dId d = p ++ [lower cc spelled] -> isMatch d t = true -> In d (wFind w (dId d)) ->
  exists d', fst (findByNode cc w ch t used) = Some d' /\ isMatch d' t = true /\ In d' (wFind w (dId d)).
Proof. exact (declared_found cc w ch t spelled used d p). Qed.
Print Assumptions C28_declared_found.

(** C28: variables, constants and properties are told apart by case; calls are not; the spelled
    name is what is shown. *)
Theorem C28_variables d1 s1 d2 s2 : identifierForVariable (d1 :: s1) = identifierForVariable (d2 :: s2) <-> s1 = s2.
Proof. unfold identifierForVariable, plainId. cbn [tl]. split; [intros H; now injection H|now intros ->]. Qed.
Print Assumptions C28_variables.
Theorem C28_members cc a b :
  (memberId cc true a = memberId cc true b <-> sameUpToCase cc a b) /\
  (memberId cc false a = memberId cc false b <-> a = b).
Proof.
  unfold memberId, plainId. rewrite <- (lower_same cc a b).
  split; split; intros H; try (injection H; auto; fail); now rewrite H.
Qed.
Print Assumptions C28_members.
Theorem C28_pair cc a b :
  fst (identifierPairForNode cc a false) = a /\
  (snd (identifierPairForNode cc a false) = snd (identifierPairForNode cc b false) <-> sameUpToCase cc a b) /\
  (snd (identifierPairForNode cc a true) = snd (identifierPairForNode cc b true) <-> a = b).
Proof.
  unfold identifierPairForNode, plainId. cbn [fst snd]. rewrite <- (lower_same cc a b).
  split; [reflexivity|]. split; split; intros H; try (injection H; auto; fail); now rewrite H.
Qed.
Print Assumptions C28_pair.

Definition mkD (no : nat) (id : list qstring) (cls fn : bool) (k : DKind) (t : option bool) (c : option CKind) : Decl :=
  {| dNo := no; dClassKind := PlainClass; dTop := 7; dId := id; dPretty := []; dIsClass := cls; dIsFunction := fn;
     dKind := k; dType := t; dCtx := c |}.
Definition mkC (k : CKind) (l : list qstring) (o : option Decl) (i : list (option (CKind * option Decl))) : Ctx :=
  {| cKind := k; cLocal := l; cOwner := o; cImports := i |}.
Definition theFoo := mkD 1 [str "n"; str "foo"] true false KType (Some false) (Some CNamespace).
Definition inN : Chain := [mkC CNamespace [str "n"] None []; mkC CTop [] None []].
Definition wFoo : World := {| wFind := fun l => if eqParts l [str "n"; str "foo"] then [theFoo] else [];
                              wTable := fun _ => []; wInternal := false |}.
Example C28_nontrivial :
  fst (findByNode asciiCC wFoo inN ClassDT (str "FoO")) = Some theFoo /\
  sameUpToCase asciiCC (str "Foo") (str "FoO") /\ inNamespace inN [str "n"] /\
  makes WClass theFoo.
Proof.
  split; [vm_compute; reflexivity|]. split; [repeat constructor|]. split; [apply (inHere (mkC CNamespace [str "n"] None []) [mkC CTop [] None []] eq_refl)|].
  cbn. repeat split; auto. discriminate.
Qed.

(** C28 fails for the redeclaration check: a class declared twice as "Foo" is not reported. *)
Theorem C28_redeclaration_refuted : exists a b : GDecl,
  gKind a = gKind b /\ gName a = gName b /\ gNs a = gNs b /\
  redeclarations asciiCC [] [a; b] = [false; false].
Proof. exists {| gKind := GClass; gName := str "Foo"; gNs := [] |}, {| gKind := GClass; gName := str "Foo"; gNs := [] |}. repeat split. Qed.
Print Assumptions C28_redeclaration_refuted.

(** C29: a lookup that does not ask for self, static or parent answers with a declaration of the
    full name, visible or else in the symbol table of PHP files (and then its file is imported),
    and of the kind asked for. *)
Theorem C29_found w ch id t l d imp : (t = ClassDT -> ~ reservedName id) -> fullName ch id l ->
  findDeclarationImportHelper w ch id t = (Some d, imp) ->
  isMatch d t = true /\
  ((In d (wFind w l) /\ imp = []) \/
   ((forall x, In x (wFind w l) -> isMatch x t = false) /\ t <> GlobalVariableDT /\ wInternal w = false /\ imp = [dTop d] /\
    exists e, In e (wTable w l) /\ eLang e = Some true /\ eDecl e = Some d)).
Proof. exact (found_sound w ch id t l d imp). Qed.
Print Assumptions C29_found.

(** C29: no answer means there is none. *)
Theorem C29_not_found w ch id t l imp : (t = ClassDT -> ~ reservedName id) -> fullName ch id l ->
  findDeclarationImportHelper w ch id t = (None, imp) ->
  imp = [] /\ (forall d, In d (wFind w l) -> isMatch d t = false) /\
  (wInternal w = false -> t <> GlobalVariableDT ->
   forall e d, In e (wTable w l) -> eLang e = Some true -> eDecl e = Some d -> isMatch d t = false).
Proof. exact (found_complete w ch id t l imp). Qed.
Print Assumptions C29_not_found.

(** C29: what is found was declared as the kind asked for, except that a variable holding a
    constant's value answers for a constant, and a define() without value or a property answers
    for a variable. *)
Theorem C29_kind_partial d t w : makes w d -> dId d <> [] -> isMatch d t = true ->
  wanted t w \/ (t = ConstantDT /\ w = WVariable true) \/ (t = GlobalVariableDT /\ w = WDefine false)
  \/ (t = GlobalVariableDT /\ w = WProperty false).
Proof. exact (match_made d t w). Qed.
Print Assumptions C29_kind_partial.
Theorem C29_kind_class_function d t w : t = ClassDT \/ t = FunctionDT \/ t = NamespaceDT ->
  makes w d -> dId d <> [] -> isMatch d t = true -> wanted t w.
Proof. intros Ht M N H. destruct (match_made d t w M N H) as [X|[(X & _)|[(X & _)|(X & _)]]]; auto; destruct Ht as [E|[E|E]]; congruence. Qed.
Print Assumptions C29_kind_class_function.

(** C29 fails for constants: after define('FOO', 1); $x = FOO; the constant x is found; and the
    variable x is no longer. *)
Theorem C29_constant_refuted : exists w ch d,
  makes (WVariable true) d /\ dId d = [str "x"] /\ wFind w [str "x"] = [d] /\
  findByNode asciiCC w ch ConstantDT (str "x") = (Some d, []) /\
  findByVariable w ch GlobalVariableDT (str "$x") = (None, []).
Proof.
  exists {| wFind := fun l => if eqParts l [str "x"] then [mkD 1 [str "x"] false false KInstance (Some true) (Some CTop)] else [];
            wTable := fun _ => []; wInternal := false |},
         [mkC CTop [] None []], (mkD 1 [str "x"] false false KInstance (Some true) (Some CTop)).
  split; [cbn; repeat split; discriminate|]. repeat split.
Qed.
Print Assumptions C29_constant_refuted.

(** C29 fails for global variables used inside a namespace: variables are declared outside
    namespaces (declarationbuilder.cpp 1147-1150) but looked up inside them. *)
Theorem C29_global_in_namespace_refuted : exists w ch d,
  makes (WVariable false) d /\ dId d = [str "x"] /\ wFind w [str "x"] = [d] /\
  findByVariable w ch GlobalVariableDT (str "$x") = (None, []).
Proof.
  exists {| wFind := fun l => if eqParts l [str "x"] then [mkD 1 [str "x"] false false KInstance (Some false) (Some CTop)] else [];
            wTable := fun _ => []; wInternal := false |},
         inN, (mkD 1 [str "x"] false false KInstance (Some false) (Some CTop)).
  split; [cbn; repeat split; discriminate|]. repeat split.
Qed.
Print Assumptions C29_global_in_namespace_refuted.

(** C29: self and static answer only with the class around the position, and do answer in the
    class and in the bodies of its methods. *)
Theorem C29_self w ch n b d imp : n = "self"%string \/ n = "static"%string ->
  findDeclarationImportHelper w ch {| qGlobal := b; qParts := [str n] |} ClassDT = (Some d, imp) ->
  imp = [] /\ exists k, insideClass ch k /\ cOwner k = Some d.
Proof. exact (self_sound w ch n b d imp). Qed.
Print Assumptions C29_self.
Theorem C29_self_in_methods w n b c up : n = "self"%string \/ n = "static"%string -> cKind c = CClass ->
  findDeclarationImportHelper w (c :: up) {| qGlobal := b; qParts := [str n] |} ClassDT = (cOwner c, []) /\
  forall body, cKind body <> CClass ->
    findDeclarationImportHelper w (body :: c :: up) {| qGlobal := b; qParts := [str n] |} ClassDT = (cOwner c, []).
Proof. exact (self_direct w n b c up). Qed.
Print Assumptions C29_self_in_methods.
(** C29 fails in a closure in a method: self is not found there. *)
Theorem C29_self_refuted : exists w ch k d, insideClass ch k /\ cOwner k = Some d /\
  findDeclarationImportHelper w ch {| qGlobal := false; qParts := [str "self"] |} ClassDT = (None, []).
Proof.
  pose (k := mkC CClass [str "foo"] (Some theFoo) []).
  exists wFoo, [mkC COther [] None []; mkC COther [str "m"] None []; k; mkC CTop [] None []], k, theFoo.
  split; [|split; reflexivity]. apply icUp; [discriminate|]. apply icUp; [discriminate|]. now apply icHere.
Qed.
Print Assumptions C29_self_refuted.

(** C29: parent answers only with a class-like import of the class around the position. *)
Theorem C29_parent_partial w ch b d imp :
  findDeclarationImportHelper w ch {| qGlobal := b; qParts := [str "parent"] |} ClassDT = (Some d, imp) ->
  imp = [] /\ exists k, insideClass ch k /\ In (Some (CClass, Some d)) (cImports k).
Proof. exact (parent_sound w ch b d imp). Qed.
Print Assumptions C29_parent_partial.
(** C29 fails for parent: in a class that only implements an interface, parent is the interface. *)
Theorem C29_parent_refuted : exists w ch d,
  dClassKind d = Interface /\
  findDeclarationImportHelper w ch {| qGlobal := false; qParts := [str "parent"] |} ClassDT = (Some d, []).
Proof.
  pose (i := {| dNo := 2; dClassKind := Interface; dTop := 7; dId := [str "i"]; dPretty := str "I"; dIsClass := true; dIsFunction := false;
     dKind := KType; dType := Some false; dCtx := Some CTop |}).
  exists wFoo, [mkC CClass [str "foo"] (Some theFoo) [Some (CClass, Some i)]; mkC CTop [] None []], i.
  split; reflexivity.
Qed.
Print Assumptions C29_parent_refuted.

(** C53: outside namespaces, and for classes and functions spelled in lower case, a redeclaration
    is reported exactly where an earlier declaration of the same kind has the same name. *)
Theorem C53_redeclaration_partial cc l i g :
  (forall x, In x l -> gNs x = [] /\ (gKind x <> GConstant -> lower cc (gName x) = gName x)) ->
  nth_error l i = Some g ->
  (nth_error (redeclarations cc [] l) i = Some true <->
   exists j e, (j < i)%nat /\ nth_error l j = Some e /\ gKind e = gKind g /\ gName e = gName g).
Proof. exact (redecl_exact cc l i g). Qed.
Print Assumptions C53_redeclaration_partial.
(** C53 fails in namespaces in both directions. *)
Theorem C53_namespace_refuted :
  (exists a b, gKind a = gKind b /\ gId asciiCC a <> gId asciiCC b /\ redeclarations asciiCC [] [a; b] = [false; true]) /\
  (exists a, gNs a <> [] /\ redeclarations asciiCC [] [a; a] = [false; false]).
Proof.
  split.
  - exists {| gKind := GFunction; gName := str "f"; gNs := [] |}, {| gKind := GFunction; gName := str "f"; gNs := [str "n"] |}.
    split; [reflexivity|]. split; [discriminate|reflexivity].
  - exists {| gKind := GFunction; gName := str "f"; gNs := [str "n"] |}. split; [discriminate|reflexivity].
Qed.
Print Assumptions C53_namespace_refuted.
Example C53_nontrivial : redeclarations asciiCC []
  [{| gKind := GFunction; gName := str "f"; gNs := [] |}; {| gKind := GClass; gName := str "f"; gNs := [] |};
   {| gKind := GFunction; gName := str "f"; gNs := [] |}] = [false; false; true].
Proof. reflexivity. Qed.
