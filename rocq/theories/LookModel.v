(** Names and declaration lookup (duchain/helper.cpp, duchain/builders/contextbuilder.cpp,
    duchain/builders/declarationbuilder.cpp, duchain/expressionvisitor.cpp). *)
From Verif Require Import Chars.

(** KDevelop::QualifiedIdentifier: components and the explicitlyGlobal flag. *)
Record QId := { qGlobal : bool; qParts : list qstring }.

(** NamespacedIdentifierAst (parser/php.g, namespacedIdentifier): isGlobal token (present iff not
    -1) and the texts of namespaceNameSequence; the grammar guarantees one component at least. *)
Record NsName := { nsGlobal : bool; nsParts : list qstring }.

Section Names.
Variable cc : CharClass.

(** QString::toLower, code unit by code unit (the same simplification as in the lexer model). *)
Definition lower (s : qstring) : qstring := map (toLower cc) s.

(** helper.cpp 441-456 and 458-473 (two overloads with the same body): the last component is
    kept as it is spelled for constants. *)
Fixpoint pushParts (lastIsConst : bool) (l : list qstring) : list qstring :=
  match l with
  | [] => []
  | [x] => [if lastIsConst then x else lower x]
  | x :: r => lower x :: pushParts lastIsConst r
  end.
Definition identifierForNamespace (n : NsName) (lastIsConst : bool) : QId :=
  {| qGlobal := nsGlobal n; qParts := pushParts lastIsConst (nsParts n) |}.
(** helper.cpp 475-501: grouped use: prefix and inner name. *)
Definition identifierForGroup (prefix : NsName) (inner : list qstring) (lastIsConst : bool) : QId :=
  {| qGlobal := nsGlobal prefix; qParts := map lower (nsParts prefix) ++ pushParts lastIsConst inner |}.

(** contextbuilder.cpp 165-179 and expressionvisitor.cpp 936-942: QualifiedIdentifier(text).
    Simplified: QualifiedIdentifier(QString) splits at "::", which no identifier contains. *)
Definition plainId (s : qstring) : QId := {| qGlobal := false; qParts := [s] |}.
Definition identifierForNode (s : qstring) : QId := plainId s.
(** contextbuilder.cpp 181-188, expressionvisitor.cpp 944-959: variables lose the leading $. *)
Definition identifierForVariable (s : qstring) : QId := plainId (tl s).
(** contextbuilder.cpp 190-222: pretty name and identifier. *)
Definition identifierPairForNode (s : qstring) (isConst : bool) : qstring * QId :=
  (s, plainId (if isConst then s else lower s)).
(** expressionvisitor.cpp 612-617 (and 325 for static calls): the name after -> . *)
Definition memberId (isFunctionCall : bool) (s : qstring) : QId := plainId (if isFunctionCall then lower s else s).

(** ** Contexts and declarations *)
Inductive CKind := CTop | CNamespace | CClass | CFunction | COther.
Inductive DKind := KType | KInstance | KNamespace | KNamespaceAlias | KImport | KAlias.

(** What isMatch and its callers read of a declaration: identity, file, qualified identifier,
    dynamic_cast to ClassDeclaration (and its classType) and FunctionDeclaration, kind(), abstractType() with its
    const modifier, the type of context(). *)
Inductive ClassKind := PlainClass | Interface | Trait.
Record Decl := { dNo : nat; dClassKind : ClassKind; dTop : nat; dId : list qstring; dPretty : qstring;
                 dIsClass : bool; dIsFunction : bool; dKind : DKind;
                 dType : option bool; dCtx : option CKind }.

(** A context: kind, localScopeIdentifier, owner, importedParentContexts (an import may have no
    loaded context). *)
Record Ctx := { cKind : CKind; cLocal : list qstring; cOwner : option Decl;
                cImports : list (option (CKind * option Decl)) }.
(** A context with its parents, innermost first. *)
Definition Chain := list Ctx.

Definition isKind (k : CKind) (c : Ctx) : bool :=
  match k, cKind c with
  | CTop, CTop | CNamespace, CNamespace | CClass, CClass | CFunction, CFunction | COther, COther => true
  | _, _ => false
  end.

(** DUContext::scopeIdentifier() (platform): the local identifiers of the context and its
    parents, outermost first, without those of classes. *)
Definition scopeIdentifier (ch : Chain) : list qstring :=
  List.concat (map (fun c => if isKind CClass c then [] else cLocal c) (rev ch)).

(** helper.cpp 503-517 *)
Fixpoint findNamespace (ch : Chain) : option Chain :=
  match ch with
  | [] => None
  | c :: up => if isKind CNamespace c then Some ch else findNamespace up
  end.
Definition identifierWithNamespace (base : list qstring) (ch : Chain) : list qstring :=
  match findNamespace ch with
  | Some sc => scopeIdentifier sc ++ base
  | None => base
  end.

(** duchain/helper.h 26-34 *)
Inductive DeclarationType := ClassDT | FunctionDT | ConstantDT | GlobalVariableDT | NamespaceDT.

Definition isConst (d : Decl) : bool := match dType d with Some b => b | None => false end.
Definition dkEq (a b : DKind) : bool :=
  match a, b with
  | KType, KType | KInstance, KInstance | KNamespace, KNamespace | KNamespaceAlias, KNamespaceAlias
  | KImport, KImport | KAlias, KAlias => true | _, _ => false end.
(** helper.cpp 48-74 *)
Definition isMatch (d : Decl) (t : DeclarationType) : bool :=
  match t with
  | ClassDT => dIsClass d
  | FunctionDT => dIsFunction d
  | ConstantDT => isConst d && match dCtx d with Some CClass => false | _ => true end
  | GlobalVariableDT => dkEq (dKind d) KInstance && negb (isConst d)
  | NamespaceDT => dkEq (dKind d) KNamespace || dkEq (dKind d) KNamespaceAlias || dIsClass d
  end.

(** The world a lookup sees: TopDUContext::findDeclarations (platform, any function of the
    identifier), the entries of the persistent symbol table for an identifier (each with the
    language of its file if there is meta-data, and the declaration if it can be loaded), and
    whether the current file is the file of internal functions. *)
Record Entry := { eLang : option bool; eDecl : option Decl }.
Record World := { wFind : list qstring -> list Decl; wTable : list qstring -> list Entry;
                  wInternal : bool }.

(** helper.cpp 259-300: the first usable declaration of the table; the file that declares it
    becomes an import of the current file. *)
Definition usable (t : DeclarationType) (e : Entry) : option Decl :=
  match eLang e with
  | None => None
  | Some false => None
  | Some true => match eDecl e with
                 | None => None
                 | Some d => if isMatch d t then Some d else None
                 end
  end.
Fixpoint findInTable (t : DeclarationType) (l : list Entry) : option Decl :=
  match l with
  | [] => None
  | e :: r => match usable t e with Some d => Some d | None => findInTable t r end
  end.

Definition eqParts (a b : list qstring) : bool :=
  (List.length a =? List.length b)%nat && forallb (fun p => eqs (fst p) (snd p)) (combine a b).

(** The class owner used for self and static (helper.cpp 190-209). *)
Definition enclosingClass (ch : Chain) : option Ctx :=
  match ch with
  | [] => None
  | c :: up => if isKind CClass c then Some c
               else match up with
                    | p :: _ => if isKind CClass p then Some p else None
                    | [] => None
                    end
  end.
(** helper.cpp 221-226: the first class among the imports. *)
Fixpoint firstClassImport (l : list (option (CKind * option Decl))) : option Decl :=
  match l with
  | [] => None
  | Some (CClass, o) :: _ => o
  | _ :: r => firstClassImport r
  end.

(** helper.cpp 165-257: the declaration found and the files imported on the way.
    QualifiedIdentifier::operator== (platform) compares the components. *)
Definition findDeclarationImportHelper (w : World) (ch : Chain) (id : QId) (t : DeclarationType)
    : option Decl * list nat :=
  let lookup := if qGlobal id then qParts id else identifierWithNamespace (qParts id) ch in
  let isClass := match t with ClassDT => true | _ => false end in
  if isClass && eqParts (qParts id) [str "self"] then
    (match enclosingClass ch with Some c => cOwner c | None => None end, [])
  else if isClass && eqParts (qParts id) [str "static"] then
    (match enclosingClass ch with Some c => cOwner c | None => None end, [])
  else if isClass && eqParts (qParts id) [str "parent"] then
    (match enclosingClass ch with Some c => firstClassImport (cImports c) | None => None end, [])
  else
    match find (fun d => isMatch d t) (wFind w lookup) with
    | Some d => (Some d, [])
    | None =>
        if wInternal w then (None, [])
        else match t with
             | GlobalVariableDT => (None, [])
             | _ => match findInTable t (wTable w lookup) with
                    | Some d => (Some d, [dTop d])
                    | None => (None, [])
                    end
             end
    end.

(** contextbuilder.cpp 521-551 and expressionvisitor.cpp 1008-1018: lookup by an identifier
    node: classes and functions in lower case. *)
Definition findByNode (w : World) (ch : Chain) (t : DeclarationType) (s : qstring) : option Decl * list nat :=
  findDeclarationImportHelper w ch
    (match t with ClassDT | FunctionDT => plainId (lower s) | _ => plainId s end) t.
(** contextbuilder.cpp 553-558: by a variable node. *)
Definition findByVariable (w : World) (ch : Chain) (t : DeclarationType) (s : qstring) : option Decl * list nat :=
  findDeclarationImportHelper w ch (identifierForVariable s) t.

(** ** What the builders declare *)
Inductive What :=
| WClass | WFunction | WMethod | WClosure
| WConst                       (** const X = ...; outside classes *)
| WDefine (hasValue : bool)    (** define('X', ...) or define('X') *)
| WVariable (constValue : bool)(** $x = e; [constValue]: the type of e carries the const modifier *)
| WProperty (constValue : bool) | WClassConst
| WNamespace | WUseAlias | WNamespaceAlias | WInclude.

(** A constant read as an expression has the type of its declaration, const modifier included
    (expressionvisitor.cpp 411-457, expressionevaluationresult.cpp 60-75); nothing removes it. *)
Definition makes (w : What) (d : Decl) : Prop :=
  match w with
  (** predeclarationbuilder.cpp 39-43, 80-84, 106-114 *)
  | WClass => dIsClass d = true /\ dIsFunction d = false /\ dKind d = KType /\ dType d = Some false
              /\ dCtx d <> Some CClass
  (** predeclarationbuilder.cpp 138-147 *)
  | WFunction => dIsClass d = false /\ dIsFunction d = true /\ dKind d = KType /\ dType d = Some false
              /\ dCtx d <> Some CClass
  (** declarationbuilder.cpp 318-327: ClassMethodDeclaration is not a FunctionDeclaration *)
  | WMethod => dIsClass d = false /\ dIsFunction d = false /\ dKind d = KType /\ dType d = Some false
              /\ dCtx d = Some CClass
  (** declarationbuilder.cpp 884-899: a closure has the empty identifier *)
  | WClosure => dIsClass d = false /\ dIsFunction d = true /\ dKind d = KType /\ dType d = Some false
              /\ dId d = []
  (** declarationbuilder.cpp 622-644, typebuilder.cpp 365-379 *)
  | WConst => dIsClass d = false /\ dIsFunction d = false /\ dKind d = KInstance /\ dType d = Some true
              /\ dCtx d <> Some CClass
  (** declarationbuilder.cpp 1341-1371: without a value no type is set *)
  | WDefine b => dIsClass d = false /\ dIsFunction d = false /\ dKind d = KInstance
              /\ dType d = (if b then Some true else None) /\ dCtx d <> Some CClass
  (** declarationbuilder.cpp 1136-1150 *)
  | WVariable b => dIsClass d = false /\ dIsFunction d = false /\ dKind d = KInstance /\ dType d = Some b
              /\ dCtx d <> Some CClass
  (** declarationbuilder.cpp 571-585 *)
  | WProperty b => dIsClass d = false /\ dIsFunction d = false /\ dKind d = KInstance /\ dType d = Some b
              /\ dCtx d = Some CClass
  (** declarationbuilder.cpp 675-684, typebuilder.cpp 381-395 *)
  | WClassConst => dIsClass d = false /\ dIsFunction d = false /\ dKind d = KInstance /\ dType d = Some true
              /\ dCtx d = Some CClass
  (** predeclarationbuilder.cpp 165-166 *)
  | WNamespace => dIsClass d = false /\ dIsFunction d = false /\ dKind d = KNamespace /\ dType d = None
  (** declarationbuilder.cpp 1664-1665, 1533-1536; kind Alias set by the platform *)
  | WUseAlias => dIsClass d = false /\ dIsFunction d = false /\ dKind d = KAlias
  (** declarationbuilder.cpp 1671-1675 *)
  | WNamespaceAlias => dIsClass d = false /\ dIsFunction d = false /\ dKind d = KNamespaceAlias /\ dType d = None
  (** declarationbuilder.cpp 1573-1576 *)
  | WInclude => dIsClass d = false /\ dIsFunction d = false /\ dKind d = KImport /\ dType d = None
  end.

(** ** Redeclaration checks *)
(** A class, function or define() in the order of the file: kind of declaration, the spelled
    name, the namespace (in lower case) it is in. *)
Inductive GKind := GClass | GFunction | GConstant.
Record GDecl := { gKind : GKind; gName : qstring; gNs : list qstring }.
(** predeclarationbuilder.cpp 39-41, 138-140 (lower case), declarationbuilder.cpp 1362-1364
    (as spelled). *)
Definition gId (g : GDecl) : list qstring :=
  gNs g ++ [match gKind g with GConstant => gName g | _ => lower (gName g) end].
Definition gKindEq (a b : GKind) : bool :=
  match a, b with GClass, GClass | GFunction, GFunction | GConstant, GConstant => true | _, _ => false end.
(** declarationbuilder.cpp 226, 855, 1362-1363 and 927-950: the identifier looked up in the top
    context is the spelled name alone; only declarations met before count.
    Simplified: one file, errors are reported (m_reportErrors), the ranges of two declarations
    do not overlap. *)
Definition isGlobalRedeclaration (before : list GDecl) (g : GDecl) : bool :=
  existsb (fun e => eqParts (gId e) [gName g] && gKindEq (gKind e) (gKind g)) before.
Fixpoint redeclarations (before rest : list GDecl) : list bool :=
  match rest with
  | [] => []
  | g :: r => isGlobalRedeclaration before g :: redeclarations (before ++ [g]) r
  end.
End Names.
