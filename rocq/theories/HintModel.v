(** Types from hints, default values and doc comments. *)
From Verif Require Export PhpTypes DocModel.
Open Scope nat_scope.

(** One alternative of a type hint: UnionParameterTypeAst / UnionReturnTypeAst / ... with
    callableType, voidType, genericType and isNullable. *)
Inductive generic := GArray | GName (first : qstring) (cls : option ty).
Inductive altKind := ACallable | AVoid | AGeneric (g : generic) | AOther.
Record alt := { a_kind : altKind; a_nullable : bool }.

Section Hints.
Variable cc : CharClass.
(** abstractType() of the class Traversable, if it is found. *)
Variable traversable : option ty.

Definition isName (s : qstring) (n : string) : bool := eqsCI cc s (str n).

(** determineGenericTypeHint, duchain/helper.cpp 518-565.  [first] is the first component of the
    name; [cls] the type of the class the whole name resolves to. *)
Definition genericHint (g : generic) : option ty :=
  match g with
  | GArray => Some (Integral KArray)
  | GName s cls =>
      if isName s "bool" then Some (Integral KBool)
      else if isName s "float" then Some (Integral KFloat)
      else if isName s "int" then Some (Integral KInt)
      else if isName s "string" then Some (Integral KString)
      else if isName s "object" then Some (Integral KObject)
      else if isName s "mixed" then Some (Integral KMixed)
      else if isName s "iterable" then
        match traversable with
        | Some t => Some (Unsure (addT (addT [] (Integral KArray)) t))
        | None => None
        end
      else cls
  end.
Definition altType (a : altKind) : option ty :=
  match a with
  | ACallable => Some (Integral KCallable)
  | AVoid => Some (Integral KVoid)
  | AGeneric g => genericHint g
  | AOther => None
  end.

(** The loop over the further alternatives, helper.cpp 587-600; [None]: a null pointer is
    dereferenced (593). *)
Fixpoint hintRest (l : list alt) (u : list ty) : option (list ty) :=
  match l with
  | [] => Some u
  | a :: r =>
      let u1 := match a_kind a with
        | AOther => Some u
        | k => match altType k with Some t => Some (addT u t) | None => None end
        end in
      match u1 with
      | None => None
      | Some u1 => hintRest r (if a_nullable a then addT u1 (Integral KNull) else u1)
      end
  end.
(** determineTypehintFromList, helper.cpp 567-618; the outer [None]: a null pointer is
    dereferenced (584). *)
Definition hintType (l : list alt) : option (option ty) :=
  match l with
  | [] => Some None
  | a :: r =>
      let type := altType (a_kind a) in
      match r with
      | [] =>
          match type with
          | None => Some None
          | Some t =>
              if a_nullable a then
                match t with
                | Unsure u => Some (Some (Unsure (addT u (Integral KNull))))
                | _ => Some (Some (Unsure (addT (addT [] t) (Integral KNull))))
                end
              else Some (Some t)
          end
      | _ =>
          match type with
          | None => None
          | Some t =>
              match hintRest r (match t with Unsure u => u | _ => addT [] t end) with
              | None => None
              | Some u => Some (Some (Unsure u))
              end
          end
      end
  end.

(** ParameterAst: hint, type of the default value (inner [None]: evaluated to no type), type
    from the doc comment, & and ... *)
Record param := { p_hint : option (list alt); p_default : option (option ty); p_doc : option ty; p_ref : bool; p_variadic : bool }.
Definition isNullT (t : option ty) : bool := match t with Some (Integral KNull) => true | _ => false end.

(** parameterType, helper.cpp 631-689; [None]: null pointer dereferenced in the hint. *)
Definition parameterType (p : param) : option ty :=
  match (match p_hint p with Some l => hintType l | None => Some None end) with
  | None => None
  | Some type0 =>
      let type1 :=
        match p_default p with
        | None => type0
        | Some dt =>
            match type0 with
            | Some t => if isNullT dt then
                match t with
                | Unsure u => Some (Unsure (addT u (Integral KNull)))
                | _ => Some (Unsure (addT (addT [] t) (Integral KNull)))
                end else Some t
            | None => dt
            end
        end in
      let type2 := match type1 with
        | Some t => t
        | None => match p_doc p with Some t => t | None => Integral KMixed end
        end in
      let type3 := if p_ref p then Ref type2 else type2 in
      Some (if p_variadic p then Arr type3 else type3)
  end.

(** propertyType 691-708 and returnType 710-719 *)
Definition propertyType (hint : option (list alt)) (doc : option ty) : option ty :=
  match (match hint with Some l => hintType l | None => Some None end) with
  | None => None
  | Some (Some t) => Some t
  | Some None => Some (match doc with Some t => t | None => Integral KMixed end)
  end.
Definition returnType (hint : option (list alt)) (doc : option ty) : option (option ty) :=
  match (match hint with Some l => hintType l | None => Some None end) with
  | None => None
  | Some (Some t) => Some (Some t)
  | Some None => Some doc
  end.
End Hints.

(** Doc comment types. *)
Section DocTypes.
Variable cc : CharClass.
(** Type of the class context the comment is in, if any; and findDeclarationImport of a class
    by (lower-cased name with :: for backslashes). *)
Variable selfType : option ty.
Variable findClass : qstring -> option ty.

(** QString::trimmed *)
Fixpoint trimL (s : qstring) : qstring := match s with c :: t => if isSpace cc c then trimL t else s | [] => [] end.
Definition trimmed (s : qstring) : qstring := rev (trimL (rev (trimL s))).
(** QString::split with one separator character, empty parts kept *)
Fixpoint split (sep : N) (s : qstring) : list qstring :=
  match s with
  | [] => [[]]
  | c :: t => if N.eqb c sep then [] :: split sep t
              else match split sep t with p :: ps => (c :: p) :: ps | [] => [[c]] end
  end.
(** toLower().replace("\\", "::") *)
Definition className (s : qstring) : qstring :=
  flat_map (fun c => if N.eqb c cBSLASH then [cCOLON; cCOLON] else [c]) (map (toLower cc) s).

(** parseSimpleType, duchain/builders/typebuilder.cpp 73-124 *)
Definition parseSimpleType (s : qstring) : ty :=
  if isName cc s "int" || isName cc s "integer" then Integral KInt
  else if isName cc s "float" || isName cc s "double" then Integral KFloat
  else if isName cc s "bool" || isName cc s "boolean" || isName cc s "false" || isName cc s "true" then Integral KBool
  else if isName cc s "string" then Integral KString
  else if isName cc s "mixed" then Integral KMixed
  else if isName cc s "array" then Integral KArray
  else if isName cc s "resource" then Integral KResource
  else if isName cc s "null" then Integral KNull
  else if isName cc s "void" then Integral KVoid
  else if isName cc s "self" || isName cc s "this" || isName cc s "static" then
    match selfType with Some t => t | None => Integral KNone end
  else if isName cc s "object" then Integral KObject
  else match findClass (className s) with Some t => t | None => Integral KMixed end.

(** QString::endsWith *)
Definition endsWith (suf s : qstring) : bool := startsWith (rev suf) (rev s).
(** parseType, typebuilder.cpp 45-71.  A part of a split contains no '|', so the recursion is
    one level deep: [parsePart] is parseType on such a string. *)
Definition parsePart (s0 : qstring) : ty :=
  let s := trimmed s0 in
  if endsWith (str "[]") s then Arr (parseSimpleType (firstn (List.length s - 2) s))
  else parseSimpleType s.
Definition parseType (s0 : qstring) : ty :=
  let s := trimmed s0 in
  if existsb (N.eqb cPIPE) s then
    Unsure (fold_left (fun u p => if isMixed (parsePart p) then u else addT u (parsePart p)) (split cPIPE s) [])
  else parsePart s0.
End DocTypes.
