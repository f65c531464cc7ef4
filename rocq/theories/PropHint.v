(** C23 and C25: types from hints, defaults and doc comments.  Vocabulary in HintSpec.v. *)
From Verif Require Import HintProofs.
Open Scope nat_scope.

(** C23: with a hint whose alternatives are all known, the parameter's type (inside reference
    and array wrappers) stands for exactly the types the hint allows, plus null if the default
    value is null.  Missing: hints of several alternatives of which one is an unknown class,
    see [C23_refuted]. *)
Theorem C23_hint_partial : forall cc, ascii_ok cc -> forall traversable p l,
  p_hint p = Some l -> l <> [] -> Forall (fun x => altKnown cc traversable (a_kind x)) l ->
  exists b, parameterType cc traversable p = Some (wrap (p_ref p) (p_variadic p) b) /\
    forall a, In a (atoms b) <-> hintAllows cc traversable l a \/ (a = Integral KNull /\ p_default p = Some (Some (Integral KNull))).
Proof. exact param_hint. Qed.
Print Assumptions C23_hint_partial.
(** Without a hint, or with a single unknown class as hint: the type of the default value, else
    that of the doc comment, else mixed. *)
Theorem C23_fallback : forall cc traversable p,
  p_hint p = None \/ (exists x, p_hint p = Some [x] /\ altType cc traversable (a_kind x) = None) ->
  parameterType cc traversable p = Some (wrap (p_ref p) (p_variadic p)
    (match p_default p with Some (Some t) => t | _ => match p_doc p with Some t => t | None => Integral KMixed end end)).
Proof. exact param_nohint. Qed.
Print Assumptions C23_fallback.
(** function f(Unknown|int $x): a null pointer is dereferenced. *)
Theorem C23_refuted : exists p, parameterType asciiCC None p = None.
Proof.
  exists {| p_hint := Some [{| a_kind := AGeneric (GName (str "Unknown") None); a_nullable := false |}; {| a_kind := AGeneric (GName (str "int") None); a_nullable := false |}];
    p_default := None; p_doc := None; p_ref := false; p_variadic := false |}. vm_compute. reflexivity.
Qed.
Print Assumptions C23_refuted.

(** Properties: hint, else doc comment, else mixed.  Declared return types: hint, else doc
    comment, else none (the return statements decide, C22). *)
Theorem C23_property_partial : forall cc, ascii_ok cc -> forall traversable l doc,
  l <> [] -> Forall (fun x => altKnown cc traversable (a_kind x)) l ->
  exists b, propertyType cc traversable (Some l) doc = Some b /\ returnType cc traversable (Some l) doc = Some (Some b) /\
    forall a, In a (atoms b) <-> hintAllows cc traversable l a.
Proof. exact property_hint. Qed.
Print Assumptions C23_property_partial.
Theorem C23_property_fallback : forall cc traversable hint doc,
  hint = None \/ (exists x, hint = Some [x] /\ altType cc traversable (a_kind x) = None) ->
  propertyType cc traversable hint doc = Some (match doc with Some t => t | None => Integral KMixed end) /\
  returnType cc traversable hint doc = Some doc.
Proof. exact property_nohint. Qed.
Print Assumptions C23_property_fallback.
Example C23_property_case : propertyType asciiCC None (Some [{| a_kind := AGeneric (GName (str "INT") None); a_nullable := true |}]) (Some (Integral KString)) =
  Some (Unsure [Integral KInt; Integral KNull]).
Proof. vm_compute. reflexivity. Qed.

Definition p23 := {| p_hint := Some [{| a_kind := AGeneric (GName (str "iTerable") None); a_nullable := false |}; {| a_kind := AGeneric (GName (str "Foo") (Some (Struct 5))); a_nullable := false |}];
    p_default := Some (Some (Integral KNull)); p_doc := Some (Integral KInt); p_ref := true; p_variadic := false |}.
Example C23_case : (exists l, p_hint p23 = Some l /\ l <> [] /\ Forall (fun x => altKnown asciiCC (Some (Struct 3)) (a_kind x)) l) /\
  parameterType asciiCC (Some (Struct 3)) p23 = Some (Ref (Unsure [Integral KArray; Struct 3; Struct 5; Integral KNull])).
Proof.
  split; [|vm_compute; reflexivity]. eexists. split; [reflexivity|]. split; [discriminate|].
  constructor; [|constructor; [|constructor]].
  - right. left. split; [vm_compute; reflexivity|discriminate].
  - right. right. split; [|split; [vm_compute; reflexivity|discriminate]]. intros n k H. cbn in H.
    repeat (destruct H as [H|H]; [injection H as <- <-; vm_compute; reflexivity|]). destruct H.
Qed.

(** C25: a scalar name in any case denotes its type; self, this and static the enclosing class. *)
Theorem C25_scalar : forall cc, ascii_ok cc -> forall selfType findClass s n k,
  In (n, k) docNames -> eqsCI cc s (str n) = true -> parseSimpleType cc selfType findClass s = Integral k.
Proof. exact simple_scalar. Qed.
Print Assumptions C25_scalar.
Theorem C25_self : forall cc, ascii_ok cc -> forall selfType findClass s n t,
  In n selfNames -> eqsCI cc s (str n) = true -> selfType = Some t -> parseSimpleType cc selfType findClass s = t.
Proof. intros cc OK selfType findClass s n t H1 H2 ->. exact (simple_self cc OK (Some t) findClass s n H1 H2). Qed.
Print Assumptions C25_self.
(** Any other name: the class of that name ignoring case, else mixed. *)
Theorem C25_class : forall cc selfType findClass s,
  (forall n, In n (map fst docNames ++ selfNames) -> eqsCI cc s (str n) = false) ->
  parseSimpleType cc selfType findClass s = match findClass (className cc s) with Some t => t | None => Integral KMixed end.
Proof. exact simple_class. Qed.
Print Assumptions C25_class.
(** T[] is an array of T; a type without | and [] is a simple name; blanks around do not count. *)
Theorem C25_array : forall cc selfType findClass s n, ~ In cPIPE (trimmed cc s) -> trimmed cc s = n ++ str "[]" ->
  parseType cc selfType findClass s = Arr (parseSimpleType cc selfType findClass n).
Proof. intros cc st fc s n H1 H2. rewrite (parse_single cc st fc s H1). exact (parse_part_array cc st fc s n H2). Qed.
Print Assumptions C25_array.
Theorem C25_simple : forall cc selfType findClass s, ~ In cPIPE (trimmed cc s) -> (forall n, trimmed cc s <> n ++ str "[]") ->
  parseType cc selfType findClass s = parseSimpleType cc selfType findClass (trimmed cc s).
Proof. intros cc st fc s H1 H2. rewrite (parse_single cc st fc s H1). exact (parse_part_simple cc st fc s H2). Qed.
Print Assumptions C25_simple.
(** A|B|...: the union of the members' types other than mixed, each once. *)
Theorem C25_union : forall cc selfType findClass s, In cPIPE (trimmed cc s) ->
  parseType cc selfType findClass s =
  Unsure (firsts (filter (fun t => negb (isMixed t)) (map (parsePart cc selfType findClass) (HintModel.split cPIPE (trimmed cc s))))).
Proof. exact parse_union. Qed.
Print Assumptions C25_union.
(** ... where a member is read like a type without |. *)
Theorem C25_member : forall cc selfType findClass s, ~ In cPIPE (trimmed cc s) -> parseType cc selfType findClass s = parsePart cc selfType findClass s.
Proof. exact parse_single. Qed.
Print Assumptions C25_member.
(** The members are the stretches between the bars, and trimming removes exactly the blanks at both ends. *)
Theorem C25_split : forall sep s, join sep (HintModel.split sep s) = s /\ HintModel.split sep s <> [] /\ Forall (fun p => ~ In sep p) (HintModel.split sep s).
Proof. exact split_spec. Qed.
Print Assumptions C25_split.
Theorem C25_trimmed : forall cc s, exists a b, s = a ++ trimmed cc s ++ b /\ Forall (fun c => isSpace cc c = true) (a ++ b) /\
  match trimmed cc s with c :: _ => isSpace cc c = false | [] => True end /\
  match rev (trimmed cc s) with c :: _ => isSpace cc c = false | [] => True end.
Proof. exact trimmed_spec. Qed.
Print Assumptions C25_trimmed.

Example C25_case : parseType asciiCC (Some (Struct 1)) (fun s => if eqs s (str "foo::bar") then Some (Struct 2) else None)
  (str " Int | Foo\Bar[]|unknown|INTEGER |self ") = Unsure [Integral KInt; Arr (Struct 2); Struct 1].
Proof. vm_compute. reflexivity. Qed.
(** [T[]] with an array T is not an array of arrays. *)
Theorem C25_nested_refuted : exists s, parseType asciiCC None (fun _ => None) (s ++ str "[]") <> Arr (parseType asciiCC None (fun _ => None) s) /\
  parseType asciiCC None (fun _ => None) (s ++ str "[]") = Arr (Integral KMixed).
Proof. exists (str "int[]"). vm_compute. split; [discriminate|reflexivity]. Qed.
Print Assumptions C25_nested_refuted.
