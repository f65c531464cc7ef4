(** C49: uses of namespaced names. *)
From Verif Require Import Chars LookModel UseModel UseSpec UseProofs.

Section C49.
Variables (D Node : Type) (declaredAt : D -> Node -> bool) (deprecated : D -> bool).
Variable find : DeclarationType -> QId -> option D.
Variable cc : CharClass.
Notation usesOfName := (usesOfName D Node declaredAt deprecated find).
Notation scope := (scope D find).

(** C49: a name in code: the scope is chosen as specified, then one use per component. *)
Theorem C49_name name nodes t : nsParts name <> [] -> List.length nodes = List.length (nsParts name) ->
  let id := identifierForNamespace cc name (match t with ConstantDT => true | _ => false end) in
  exists g l, scope t (nsGlobal name) (qParts id) g /\
    nameUses D Node declaredAt deprecated find cc name nodes t = Some l /\ usesOfName t g (qParts id) (nth_error nodes) 0 l.
Proof.
  intros HN HL id. apply (build_plain D Node declaredAt deprecated find id nodes t).
  - unfold id, identifierForNamespace. cbn. destruct (nsParts name) as [|x [|y l]]; [contradiction|discriminate|discriminate].
  - unfold id, identifierForNamespace. cbn. rewrite pushParts_length. exact HL.
Qed.
(** C49: a use statement without group. *)
Theorem C49_use_statement name nodes t : nsParts name <> [] -> List.length nodes = List.length (nsParts name) ->
  let id := identifierForNamespace cc name (isConstImport t) in
  exists g l, scope (typeOfImport t) (nsGlobal name) (qParts id) g /\
    useStatement D Node declaredAt deprecated find cc name nodes t = Some l /\ usesOfName (typeOfImport t) g (qParts id) (nth_error nodes) 0 l.
Proof.
  intros HN HL id. apply (build_plain D Node declaredAt deprecated find id nodes (typeOfImport t)).
  - unfold id, identifierForNamespace. cbn. destruct (nsParts name) as [|x [|y l]]; [contradiction|discriminate|discriminate].
  - unfold id, identifierForNamespace. cbn. rewrite pushParts_length. exact HL.
Qed.
(** C49: a member of a group, if it has one component. *)
Theorem C49_group_member_partial prefix x node t :
  let id := identifierForGroup cc prefix [x] (isConstImport t) in
  exists g l, scope (typeOfImport t) (nsGlobal prefix) (qParts id) g /\
    groupMember D Node declaredAt deprecated find cc prefix [x] [node] t = Some l /\
    usesOfName (typeOfImport t) g (qParts id) (fun i => nth_error [node] (i - List.length (nsParts prefix))) (List.length (nsParts prefix)) l.
Proof.
  intros id. apply (build_single D Node declaredAt deprecated find id _ node (typeOfImport t)).
  unfold id, identifierForGroup. cbn. rewrite app_length, map_length. cbn. lia.
Qed.
(** C49 fails for longer members: after a prefix of two components or more, the analysis of any
    member of two or more does not come to an end (there is no such node), *)
Theorem C49_group_no_end prefix inner nodes t : (2 <= List.length (nsParts prefix))%nat -> (2 <= List.length inner)%nat ->
  List.length nodes = List.length inner ->
  groupMember D Node declaredAt deprecated find cc prefix inner nodes t = None.
Proof.
  intros H1 H2 H3. apply build_hang; [exact H1|lia|]. unfold identifierForGroup. cbn. rewrite app_length, map_length, pushParts_length. lia.
Qed.
(** and after a prefix of one component the use of every component but the last is put at the
    node of the next one. *)
Theorem C49_group_late prefix p inner nodes t : nsParts prefix = [p] -> (1 <= List.length inner)%nat -> List.length nodes = List.length inner ->
  let id := identifierForGroup cc prefix inner (isConstImport t) in
  exists g l groups u n, scope (typeOfImport t) (nsGlobal prefix) (qParts id) g /\
    groupMember D Node declaredAt deprecated find cc prefix inner nodes t = Some l /\
    l = List.concat groups ++ [u] /\ List.length groups = (List.length nodes - 1)%nat /\
    (forall k gr, nth_error groups k = Some gr ->
       exists n, nth_error nodes (S k) = Some n /\ component D Node declaredAt deprecated find g (qParts id) (S k) n gr) /\
    nth_error nodes (List.length nodes - 1) = Some n /\
    useFor D Node deprecated find (typeOfImport t) g (qParts id) (match typeOfImport t with GlobalVariableDT => false | _ => true end) n u.
Proof.
  intros HP H1 H2 id. unfold groupMember. fold id. rewrite HP. apply (build_late D Node declaredAt deprecated find id nodes (typeOfImport t)); [lia|].
  unfold id, identifierForGroup. cbn. rewrite app_length, map_length, pushParts_length, HP. cbn. lia.
Qed.
(** C49: names in expressions: component number [k], but the last, is a use of the namespace that
    ends there. *)
Theorem C49_expression id nodes k : List.length nodes = List.length (qParts id) ->
  nth_error (exprNamespaceUses D Node find id nodes) k =
  if (k <? List.length (qParts id) - 1)%nat then match nth_error nodes k with
     | Some n => Some (n, find NamespaceDT {| qGlobal := qGlobal id; qParts := firstn (S k) (qParts id) |}) | None => None end else None.
Proof. intros H. exact (expr_uses D Node find nodes (qGlobal id) (qParts id) [] (qParts id) eq_refl H k). Qed.
End C49.
Print Assumptions C49_name.
Print Assumptions C49_use_statement.
Print Assumptions C49_group_member_partial.
Print Assumptions C49_group_no_end.
Print Assumptions C49_group_late.
Print Assumptions C49_expression.

Definition exFind (t : DeclarationType) (id : QId) : option nat :=
  match t, qGlobal id, qParts id with
  | NamespaceDT, true, [_] => Some 1%nat
  | ClassDT, true, [_; _] => Some 2%nat
  | _, _, _ => None
  end.
Example C49_ex : nameUses nat nat (fun _ _ => false) (fun d => Nat.eqb d 2) exFind asciiCC
  {| nsGlobal := false; nsParts := [str "Foo"; str "Bar"] |} [10; 11]%nat ClassDT =
  Some [{| uNode := 10%nat; uDec := Some 1%nat; uReport := NoReport |}; {| uNode := 11%nat; uDec := Some 2%nat; uReport := Deprecated |}].
Proof. reflexivity. Qed.
(** use Foo\{Bar\A}: the use of Foo\Bar is put at A. *)
Theorem C49_group_refuted : exists prefix inner nodes l,
  groupMember nat nat (fun _ _ => false) (fun _ => false) (fun _ _ => Some 7%nat) asciiCC prefix inner nodes NoImportType = Some l /\
  nodes = [10; 11]%nat /\ map uNode l = [11; 11]%nat.
Proof. exists {| nsGlobal := false; nsParts := [str "Foo"] |}, [str "Bar"; str "A"], [10; 11]%nat. eexists. split; [reflexivity|]. split; reflexivity. Qed.
Print Assumptions C49_group_refuted.
Example C49_ex_no_end : useGroup nat nat (fun _ _ => false) (fun _ => false) exFind asciiCC
  {| nsGlobal := false; nsParts := [str "A"; str "B"] |} [1; 2]%nat [([str "C"; str "D"], [3; 4]%nat, NoImportType)] = None.
Proof. reflexivity. Qed.
