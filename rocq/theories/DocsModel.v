(** PHP documentation plugin (docs/phpdocsplugin.cpp, docs/phpdocsmodel.cpp). *)
From Verif Require Import Chars.

(** What getDocumentationFilename asks of a declaration with dynamic_cast.  [KMethod owner ctor
    dtor]: a ClassFunctionDeclaration, the name of the class if its context is a class context
    with an owner, isConstructor, isDestructor. *)
Inductive Kind :=
| KMethod (owner : option qstring) (ctor dtor : bool)
| KClass
| KFunction
| KOther.
Record Decl := { dKind : Kind; dName : qstring }.

(** phpdocsplugin.cpp 101-113 *)
Definition reservedVariables : list qstring :=
  map str ["GLOBALS"; "php_errormsg"; "HTTP_RAW_POST_DATA"; "http_response_header"; "argc"; "argv";
           "_GET"; "_POST"; "_FILES"; "_REQUEST"; "_SESSION"; "_ENV"; "_COOKIE"]%string.
Definition isReserved (n : qstring) : bool := existsb (eqs n) reservedVariables.
(** phpdocsplugin.cpp 74-120 *)
Definition baseName (d : Decl) (isLocal : bool) : qstring :=
  match dKind d with
  | KMethod None _ _ => []
  | KMethod (Some cls) ctor dtor =>
      if negb isLocal then cls ++ cDOT :: dName d
      else str "function." ++ cls ++ cMINUS ::
           (if ctor then str "construct" else if dtor then str "destruct" else dName d)
  | KClass => str "class." ++ dName d
  | KFunction => str "function." ++ dName d
  | KOther =>
      if isReserved (dName d)
      then if isLocal then str "reserved.variables." ++ filter (fun c => negb (c =? cUNDERSCORE)) (dName d) else dName d
      else []
  end.
Section D.
Variable cc : CharClass.
(** phpdocsplugin.cpp 122-131; QString::toLower is character by character here. *)
Definition getDocumentationFilename (d : Decl) (isLocal : bool) : qstring :=
  let fname := baseName d isLocal in
  match fname with
  | [] => []
  | _ => if isLocal
         then map (fun c => if c =? cUNDERSCORE then cMINUS else c) (map (toLower cc) fname) ++ str ".html"
         else fname
  end.
(** phpdocsplugin.cpp 137-166: [internal]: the declaration is in the internal function file;
    [path]: the path of the documentation location; [exists_]: QFile::exists.  The result is the
    path of the page, if one is shown. *)
Definition documentationForDeclaration (internal : bool) (path : qstring) (isLocal : bool)
    (exists_ : qstring -> bool) (d : Decl) : option qstring :=
  if negb internal then None
  else match getDocumentationFilename d isLocal with
       | [] => None
       | file => let url := path ++ cSLASH :: file in
                 if isLocal && negb (exists_ url) then None else Some url
       end.
(** phpdocsplugin.cpp 204-213 *)
Definition homePage (path : qstring) (isLocal : bool) : qstring :=
  path ++ (if isLocal then str "/index.html" else str "/manual").
(** phpdocsplugin.cpp 168-174 *)
Definition documentation (location url : qstring) : bool := startsWith location url.
End D.

(** ** Index *)
Section Index.
Variable D : Type.
(** A declaration of the internal function file: whether its type is constant, and, if its type is
    a class, the local declarations of its context. *)
Record Entry := { eDecl : D; eConst : bool; eMembers : option (list D) }.
(** phpdocsmodel.cpp 57-79 (fillModel): appended to m_declarations. *)
Definition fillModel (m : list D) (top : list Entry) : list D :=
  fold_left (fun m e => if eConst e then m
                        else let m := m ++ [eDecl e] in
                             match eMembers e with Some l => fold_left (fun m d => m ++ [d]) l m | None => m end) top m.
(** phpdocsmodel.cpp 50-55: [ours]: the file is the internal function file; [top]: its context. *)
Definition updateReady (m : list D) (ours : bool) (top : option (list Entry)) : list D :=
  match top with Some t => if ours then fillModel m t else m | None => m end.
(** phpdocsmodel.cpp 117-130 *)
Definition rowCount (parentValid : bool) (m : list D) : nat := if parentValid then 0 else List.length m.
Definition declarationForIndex (m : list D) (row : nat) : option D := nth_error m row.
End Index.
Arguments eDecl {D}. Arguments eConst {D}. Arguments eMembers {D}.
