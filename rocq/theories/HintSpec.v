(** Vocabulary for C23 and C25. *)
From Verif Require Export HintModel MergeSpec.
Open Scope nat_scope.

(** C23.  The plain types an alternative of a hint allows. *)
Section H.
Variable cc : CharClass.
Variable traversable : option ty.
(** The built-in hint names. *)
Definition builtinHints : list (string * ikind) :=
  [("bool", KBool); ("float", KFloat); ("int", KInt); ("string", KString); ("object", KObject); ("mixed", KMixed)]%string.
Inductive altAllows : altKind -> ty -> Prop :=
| AACallable : altAllows ACallable (Integral KCallable)
| AAVoid : altAllows AVoid (Integral KVoid)
| AAArray : altAllows (AGeneric GArray) (Integral KArray)
| AABuiltin s cls n k : In (n, k) builtinHints -> eqsCI cc s (str n) = true -> altAllows (AGeneric (GName s cls)) (Integral k)
| AAIterA s cls : eqsCI cc s (str "iterable") = true -> altAllows (AGeneric (GName s cls)) (Integral KArray)
| AAIterT s cls t a : eqsCI cc s (str "iterable") = true -> traversable = Some t -> In a (atoms t) -> altAllows (AGeneric (GName s cls)) a
| AAClass s c a : (forall n k, In (n, k) builtinHints -> eqsCI cc s (str n) = false) -> eqsCI cc s (str "iterable") = false ->
    In a (atoms c) -> altAllows (AGeneric (GName s (Some c))) a.
(** The alternative can be resolved: only an unknown class (or iterable without the class
    Traversable) cannot. *)
Definition altKnown (k : altKind) : Prop :=
  match k with
  | AOther => False
  | AGeneric (GName s cls) =>
      (exists n k, In (n, k) builtinHints /\ eqsCI cc s (str n) = true) \/
      (eqsCI cc s (str "iterable") = true /\ traversable <> None) \/
      ((forall n k, In (n, k) builtinHints -> eqsCI cc s (str n) = false) /\ eqsCI cc s (str "iterable") = false /\ cls <> None)
  | _ => True
  end.
(** What a hint allows.  A question mark adds null, except on the first of several
    alternatives (which PHP does not allow to be written). *)
Definition hintAllows (l : list alt) (a : ty) : Prop :=
  (exists x, In x l /\ altAllows (a_kind x) a) \/
  (a = Integral KNull /\ match l with [x] => a_nullable x = true | _ :: r => exists x, In x r /\ a_nullable x = true | [] => False end).
Definition wrap (isRef isVariadic : bool) (t : ty) : ty :=
  let t' := if isRef then Ref t else t in if isVariadic then Arr t' else t'.
End H.

(** C25: the scalar names of doc comments. *)
Definition docNames : list (string * ikind) :=
  [("int", KInt); ("integer", KInt); ("float", KFloat); ("double", KFloat); ("bool", KBool); ("boolean", KBool); ("false", KBool);
   ("true", KBool); ("string", KString); ("mixed", KMixed); ("array", KArray); ("resource", KResource); ("null", KNull); ("void", KVoid);
   ("object", KObject)]%string.
Definition selfNames : list string := ["self"; "this"; "static"]%string.
