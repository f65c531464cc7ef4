(** The rules of the language the declaration builder checks while it walks over a file
    (duchain/builders/declarationbuilder.cpp, contextbuilder.cpp, duchain/helper.cpp). *)
From Coq Require Import String.
From Verif Require Export Chars.
Open Scope nat_scope.

(** ** The tree, parser/php.g.  Positions are numbers; names and defaults are their text. *)

(** One alternative of a type hint, rules parameterTypeHint, returnTypeHint, propertyTypeHint 952-979:
    the keywords, or a name: its first part and the others. *)
Inductive hint := HCallable | HVoid | HArray | HName (p : nat) (first : qstring) (rest : list qstring).
(** Rule parameter 948-950: where it is, the alternatives of its type hint (none: no hint), is it
    variadic, its default value: where, its text, the expression. *)
Record param (A : Type) := { pPos : nat; pHint : list hint; pVariadic : bool; pDefault : option (nat * qstring * A) }.
Arguments pPos {A}. Arguments pHint {A}. Arguments pVariadic {A}. Arguments pDefault {A}.
(** Rule functionCallParameterListElement 621-622: where, unpacked with "...", the expression. *)
Record arg (A : Type) := { aPos : nat; aUnpacked : bool; aExpr : A }.
Arguments aPos {A}. Arguments aUnpacked {A}. Arguments aExpr {A}.
Inductive kind := KClass | KInterface | KTrait.
(** Rules useNamespaceOrUseGroupedNamespace, compoundNamespace, innerUseNamespace 742-772: where, the
    parts of the name, the alias and where it is, for a group the aliases in it; the last field:
    what the lookup 1641-1656 finds, is the name already in use? *)
Record useElem := { uPos : nat; uParts : list qstring; uAlias : option (nat * qstring);
                    uGroup : option (list (option (nat * qstring))); uTaken : bool }.

(** Rule classStatement 1113-1124: a method (in the tree as a [Fun]), the hint and the values of a
    declaration of properties, a constant.  The traits used and their aliases are C27. *)
Inductive member (A : Type) := MMethod (f : A) | MProp (h : list hint) (values : list A) | MConst (p : nat) (name : qstring) (value : A).
Arguments MMethod {A}. Arguments MProp {A}. Arguments MConst {A}.

(** The pieces of a file.  [Parts]: any node whose parts are just visited one after the other;
    [Fun]: functions, methods and closures, [None] is the missing body of an abstract method;
    the variables a closure uses contain none of the pieces looked at here. *)
Inductive nd :=
| Parts (l : list nd)
| Yield (p : nat) (l : list nd)                                    (* rule varExpression 554-555 *)
| Call (callee : list nd) (args : list (arg nd))                   (* functionCall, ctorArguments, .. *)
| Fun (ps : list (param nd)) (ret : list hint) (body : option nd)  (* 593, 938-941, 1119-1121 *)
| Class (k : kind) (p : nat) (name : qstring) (members : list (member nd)) (* 1080-1096 *)
| Foreach (head : nd) (v1 : nd) (v2 : option nd) (body : nd)       (* 703-707 *)
| Use (l : list useElem).                                          (* 736-740 *)
(** Rules start and outerTopStatement, 294-299: a namespace with its parts and its block, or another statement. *)
Inductive top := TNode (n : nd) | TNamespace (parts : list qstring) (block : option (list nd)).

(** ** The builder *)

Inductive why := VariadicDefault | ClassDefault | VariadicNotLast | PositionalAfterUnpacked | YieldOutside
| ReservedName | ReservedHint | NoEffect | NameTaken | ReservedAlias | TraitConst | ConstClass.
Inductive ctype := TGlobal | TNamespaceCtx | TClassCtx | TFunctionCtx | TOther.
Inductive dtype := DClass (k : kind) | DFunction | DVariable | DNamespace.
(** The types of the open contexts and declarations, innermost first;
    m_functionDeclarationPreviousArgument, m_functionCallPreviousArgument (where it is, has it a
    "..."), how many namespaces m_openNamespaces opened, the problems so far. *)
Record st := { ctxs : list ctype; decls : list dtype; prevParam : option (nat * bool); prevArg : option (nat * bool);
               openNs : nat; probs : list (why * nat) }.
Definition setCtxs c s := {| ctxs := c; decls := decls s; prevParam := prevParam s; prevArg := prevArg s; openNs := openNs s; probs := probs s |}.
Definition setDecls d s := {| ctxs := ctxs s; decls := d; prevParam := prevParam s; prevArg := prevArg s; openNs := openNs s; probs := probs s |}.
Definition setPrevParam q s := {| ctxs := ctxs s; decls := decls s; prevParam := q; prevArg := prevArg s; openNs := openNs s; probs := probs s |}.
Definition setPrevArg q s := {| ctxs := ctxs s; decls := decls s; prevParam := prevParam s; prevArg := q; openNs := openNs s; probs := probs s |}.
Definition setOpenNs n s := {| ctxs := ctxs s; decls := decls s; prevParam := prevParam s; prevArg := prevArg s; openNs := n; probs := probs s |}.
(** ContextBuilder::reportError, contextbuilder.cpp 488-519 *)
Definition report (w : why) (p : nat) s :=
  {| ctxs := ctxs s; decls := decls s; prevParam := prevParam s; prevArg := prevArg s; openNs := openNs s; probs := probs s ++ [(w, p)] |}.
Definition openCtx t s := setCtxs (t :: ctxs s) s.
Definition closeCtx s := setCtxs (tl (ctxs s)) s.
Definition openDecl d s := setDecls (d :: decls s) s.
Definition closeDecl s := setDecls (tl (decls s)) s.
(** currentContext()->type() *)
Definition curType s : ctype := hd TGlobal (ctxs s).
Definition isOther (t : ctype) : bool := match t with TOther => true | _ => false end.
Definition isNamespace (t : ctype) : bool := match t with TNamespaceCtx => true | _ => false end.

Section Builder.
Variable cc : CharClass.
(** m_reportErrors; m_isInternalFunctions *)
Variable reportErrors internal : bool.

Definition is (s : qstring) (n : string) : bool := eqsCI cc s (str n).

(** isReservedClassName, declarationbuilder.cpp 1735-1746 *)
Definition isReservedClassName (s : qstring) : bool :=
  is s "string" || is s "bool" || is s "int" || is s "float" || is s "iterable" || is s "object"
  || is s "null" || is s "true" || is s "false".
(** isGenericClassTypehint, helper.cpp 76-99: it looks at the first part. *)
Definition isGenericClassTypehint (first : qstring) : bool :=
  if is first "bool" then false else if is first "float" then false else if is first "int" then false
  else if is first "string" then false else if is first "iterable" then false
  else if is first "object" then false else if is first "mixed" then false else true.
(** isClassTypehint, helper.cpp 101-119 *)
Definition isClassTypehint (h : hint) : bool :=
  match h with HCallable => false | HVoid => false | HArray => false | HName _ f _ => isGenericClassTypehint f end.
(** hasClassTypehint, helper.cpp 121-133 *)
Fixpoint hasClassTypehint (l : list hint) : bool :=
  match l with [] => false | h :: r => if isClassTypehint h then true else hasClassTypehint r end.

(** DeclarationBuilder::visitGenericTypeHint, 869-882: it looks at the last part. *)
Definition visitHint (s : st) (h : hint) : st :=
  match h with
  | HName p f r =>
      if isGenericClassTypehint f then
        if isReservedClassName (List.last r f) then report ReservedHint p s else s
      else s
  | _ => s
  end.
Definition visitHints (l : list hint) (s : st) : st := fold_left visitHint l s.

(** visitNonGroupedUseNamespace 1622-1686, visitUseNamespaceOrUseGroupedNamespace 1613-1620; what the
    declarations are is not followed. *)
Definition visitUse (s : st) (u : useElem) : st :=
  if (match uGroup u with Some _ => true | None => false end) then s
  else if negb (isNamespace (curType s)) && (match uAlias u with None => true | Some _ => false end)
          && (List.length (uParts u) =? 1) then report NoEffect (uPos u) s
  else if uTaken u then report NameTaken (uPos u) s
  else match uAlias u with
       | Some (p, a) => if isReservedClassName a then report ReservedAlias p s else s
       | None => s
       end.

(** visitParameterList 809-814, visitParameter 816-851 with TypeBuilder::visitParameter
    (typebuilder.cpp 397-421) and the DefaultVisitor: hint, then default.  Not here: the problem
    typebuilder.cpp 409-414 reports for the type "object". *)
Definition visitParam (v : nd -> st -> st) (s : st) (q : param nd) : st :=
  let s := match pDefault q with
           | Some (p, text, _) =>
               if pVariadic q then report VariadicDefault p s
               else if hasClassTypehint (pHint q) && negb (is text "null") then report ClassDefault p s
               else s
           | None => s
           end in
  let s := openDecl DVariable s in
  let s := visitHints (pHint q) s in
  let s := match pDefault q with Some (_, _, e) => v e s | None => s end in
  let s := match prevParam s with
           | Some (p, true) => report VariadicNotLast p s
           | _ => s
           end in
  let s := closeDecl s in
  setPrevParam (Some (pPos q, pVariadic q)) s.
Definition visitParams (v : nd -> st -> st) (l : list (param nd)) (s : st) : st :=
  let old := prevParam s in
  setPrevParam old (fold_left (visitParam v) l (setPrevParam None s)).

(** visitFunctionCallParameterList 1377-1383, visitFunctionCallParameterListElement 1385-1412 *)
Definition visitArg (v : nd -> st -> st) (s : st) (a : arg nd) : st :=
  let s := v (aExpr a) s in
  let s := match prevArg s with
           | Some (_, true) => if aUnpacked a then s else report PositionalAfterUnpacked (aPos a) s
           | _ => s
           end in
  setPrevArg (Some (aPos a, aUnpacked a)) s.
Definition visitArgs (v : nd -> st -> st) (l : list (arg nd)) (s : st) : st :=
  let old := prevArg s in
  setPrevArg old (fold_left (visitArg v) l (setPrevArg None s)).

(** A member of a class.  The properties: visitClassVariable 543-560; constants:
    visitClassConstantDeclaration 646-689; redeclarations are C53, modifiers C26. *)
Definition visitMember (v : nd -> st -> st) (s : st) (m : member nd) : st :=
  match m with
  | MMethod f => v f s
  | MProp h values => fold_left (fun s e => closeDecl (v e (openDecl DVariable s))) values (visitHints h s)
  | MConst p name value =>
      let s := if reportErrors then
                 let s := match decls s with DClass KTrait :: _ => report TraitConst p s | _ => s end in
                 if eqs (map (toLower cc) name) (str "class") then report ConstClass p s else s
               else s in
      closeDecl (v value (openDecl DVariable s))
  end.

(** The walk. *)
Fixpoint visit (n : nd) (s : st) {struct n} : st :=
  match n with
  | Parts l => fold_left (fun s m => visit m s) l s
  (* visitVarExpression 1688-1696 *)
  | Yield p l =>
      let s := fold_left (fun s m => visit m s) l s in
      if isOther (curType s) then s else report YieldOutside p s
  | Call f args => visitArgs visit args (fold_left (fun s m => visit m s) f s)
  (* visitFunctionDeclarationStatement 853-870, visitClosure 884-898, visitClassStatement 296-381;
     ContextBuilder, contextbuilder.cpp 273-300, 304-328, 330-364 *)
  | Fun ps ret body =>
      let s := openDecl DFunction s in
      let s := openCtx TFunctionCtx s in
      let s := visitParams visit ps s in
      let s := visitHints ret s in
      let s := closeCtx s in
      let s := match body with
               | Some b => if internal then s else closeCtx (visit b (openCtx TOther s))
               | None => s
               end in
      closeDecl s
  (* visitClassDeclarationStatement 171-189, visitInterface.. 191-204, visitTrait.. 206-220;
     contextbuilder.cpp 244-271 *)
  | Class k p name members =>
      let s := openDecl (DClass k) s in
      let s := openCtx TClassCtx s in
      let s := fold_left (visitMember visit) members s in
      let s := closeCtx s in
      let s := closeDecl s in
      if isReservedClassName name then report ReservedName p s else s
  (* visitStatement 1472-1500: the variables are visited a second time *)
  | Foreach h v1 v2 b =>
      let s := visit h s in
      let s := visit v1 s in
      let s := match v2 with Some v => visit v s | None => s end in
      let s := visit b s in
      let s := match v2 with Some v => visit v s | None => s end in
      visit v1 s
  | Use l => fold_left visitUse l s
  end.

(** closeNamespaces / closeNamespace, contextbuilder.cpp 400-408, declarationbuilder.cpp 1591-1595 *)
Fixpoint closeNs (n : nat) (s : st) : st :=
  match n with O => s | S m => closeNs m (closeDecl (closeCtx s)) end.
Fixpoint openNsN (n : nat) (s : st) : st :=
  match n with O => s | S m => openNsN m (openCtx TNamespaceCtx (openDecl DNamespace s)) end.
(** visitNamespaceDeclarationStatement, contextbuilder.cpp 366-398 *)
Definition visitTop (s : st) (t : top) : st :=
  match t with
  | TNode n => visit n s
  | TNamespace parts block =>
      let s := setOpenNs 0 (closeNs (openNs s) s) in
      match parts with
      | [] => match block with Some l => fold_left (fun s m => visit m s) l s | None => s end
      | _ =>
          let s := openNsN (List.length parts) s in
          match block with
          | Some l => closeNs (List.length parts) (fold_left (fun s m => visit m s) l s)
          | None => setOpenNs (List.length parts) s
          end
      end
  end.
Definition initial : st := {| ctxs := [TGlobal]; decls := []; prevParam := None; prevArg := None; openNs := 0; probs := [] |}.
(** The problems reported for a file. *)
Definition check (l : list top) : list (why * nat) := probs (fold_left visitTop l initial).
End Builder.
