(** Which type is recorded for each declaration: the stack of types of TypeBuilder, the type
    closed last and the flags that decide where a type comes from. *)
From Verif Require Export PhpTypes.
Open Scope nat_scope.

(** A type together with AbstractType::ConstModifier. *)
Definition rty : Type := ty * bool.
Definition plainT (t : ty) : rty := (t, false).

(** What the doc comment before a node has for the tag asked for (TypeBuilder::parseDocComment,
    duchain/builders/typebuilder.cpp 203-231): no such tag, [$this] (with the type of the owner of
    the current context, if there is an owner), or a type already parsed (typebuilder.cpp 40-124,
    modelled in HintModel.v). *)
Inductive tag := NoTag | ThisTag (owner : option ty) | TypeTag (t : ty).
(** An expression: the doc comment at its first token and the type the expression visitor finds. *)
Record value := { v_tag : tag; v_eval : option ty }.

(** A file as the builders walk through it.  A number names a declaration; function and class
    types carry the number of their declaration.  Expressions are reduced to what the builders
    stop at inside them: assignments and closures.  Left out: everything that neither opens a
    type nor declares something. *)
Inductive node :=
| NAssign (d : N) (isArray : bool) (v : value) (kids : nodes)
| NStatic (d : N) (v : option value)
| NReturn (v : value) (kids : nodes)
| NFun (d : N) (doc : tag) (hinted : bool) (params : list (N * ty)) (body : nodes)
| NClass (d : N) (ms : members)
| NCatch (d : N) (classes : list (option ty)) (kids : nodes)
| NForeach (key : option N) (val : N) (elem : option ty) (kids : nodes)
| NConsts (cs : list (N * value))
| NDefine (d : N) (v : option value) (kids : nodes)
| NNamespace (d : N) (kids : nodes)
| NOther (kids : nodes)
with nodes := nil_ | cons_ (n : node) (l : nodes)
with members := mnil | mcons (m : member) (l : members)
with member :=
| MMethod (d : N) (doc : tag) (hinted : bool) (params : list (N * ty)) (body : nodes)
| MConsts (cs : list (N * value))
| MProps (hint : option (option ty)) (doc : tag) (vs : list (N * option value))
| MTraits (ds : list (N * ty)).

(** What a declaration is; the recorded type is [None] when none is set. *)
Inductive sort := Ordinary | Constant | Property | Caught | ForeachKey | NamespaceDecl.
Record st := {
  stack : list rty;            (* AbstractTypeBuilder::m_typeStack, top first *)
  last : option rty;           (* AbstractTypeBuilder::m_lastType *)
  gotDoc : bool;               (* m_gotTypeFromDocComment *)
  gotHint : bool;              (* m_gotTypeFromTypeHint *)
  gotRet : bool;               (* m_gotReturnTypeFromDocComment *)
  trace : list (sort * N * option rty) (* the declarations with the types set, in order *)
}.
Definition setGot b s := {| stack := stack s; last := last s; gotDoc := b; gotHint := gotHint s; gotRet := gotRet s; trace := trace s |}.
Definition setLast t s := {| stack := stack s; last := t; gotDoc := gotDoc s; gotHint := gotHint s; gotRet := gotRet s; trace := trace s |}.
Definition setHint b s := {| stack := stack s; last := last s; gotDoc := gotDoc s; gotHint := b; gotRet := gotRet s; trace := trace s |}.
Definition setRet b s := {| stack := stack s; last := last s; gotDoc := gotDoc s; gotHint := gotHint s; gotRet := b; trace := trace s |}.
(** AbstractTypeBuilder (KDevplatform, language/duchain/builders/abstracttypebuilder.h):
    openAbstractType, closeType, injectType. *)
Definition openT (t : rty) s := {| stack := t :: stack s; last := last s; gotDoc := gotDoc s; gotHint := gotHint s; gotRet := gotRet s; trace := trace s |}.
Definition closeT s := {| stack := tl (stack s); last := hd_error (stack s); gotDoc := gotDoc s; gotHint := gotHint s; gotRet := gotRet s; trace := trace s |}.
Definition injectT (t : rty) s := closeT (openT t s).
Definition record (k : sort) (d : N) (t : option rty) s :=
  {| stack := stack s; last := last s; gotDoc := gotDoc s; gotHint := gotHint s; gotRet := gotRet s; trace := trace s ++ [(k, d, t)] |}.
(** DeclarationBuilder::closeDeclaration, duchain/builders/declarationbuilder.cpp 153-163. *)
Definition closeDecl (k : sort) (d : N) s := record k d (last s) s.

(** TypeBuilder::parseDocComment, typebuilder.cpp 207-231: only the branch for a named type
    injects it (126-132). *)
Definition parseDoc (g : tag) (s : st) : option ty * st :=
  let s := setGot false s in                                        (* 209 *)
  match g with
  | NoTag => (None, s)                                              (* 230 *)
  | ThisTag None => (None, s)                                       (* 216-220, 224 *)
  | ThisTag (Some t) => (Some t, setGot true s)                     (* 216-220, 224-226 *)
  | TypeTag t => (Some t, setGot true (injectT (plainT t) s))       (* 222, 224-226 *)
  end.
(** TypeBuilder::getTypeForNode, typebuilder.cpp 249-272. *)
Definition getType (v : option value) (s : st) : ty * st :=
  match v with
  | None => (Integral KMixed, s)                                    (* 253, 268-270 *)
  | Some v =>
      let (t, s) := parseDoc (v_tag v) s in                         (* 254 *)
      (match t with Some t => t | None =>
         match v_eval v with Some t => t | None => Integral KMixed end end, s)
  end.

(** Parameters: DeclarationBuilder::visitParameter (declarationbuilder.cpp 816-851) around
    TypeBuilder::visitParameter (typebuilder.cpp 397-421); the type itself is parameterType,
    HintModel.v. *)
Fixpoint runParams (ps : list (N * ty)) (s : st) : st :=
  match ps with
  | [] => s
  | (d, t) :: ps => runParams ps (closeDecl Ordinary d (closeT (openT (plainT t) s)))
  end.
(** DeclarationBuilder::visitClassConstantDeclaration (declarationbuilder.cpp 646-689) around
    TypeBuilder::visitClassConstantDeclaration (typebuilder.cpp 381-395), and the same for
    visitConstantDeclaration (622-644, 365-379).  In the else branch the modifiers of the type on
    top of the stack are masked, which leaves its ConstModifier as it is. *)
Definition runConst (d : N) (v : value) (s : st) : st :=
  closeDecl Constant d
    (if negb (gotDoc s) || match stack s with [] => true | _ => false end then
       let (t, s) := getType (Some v) s in closeT (openT (t, true) s)
     else s).
Fixpoint runConsts (cs : list (N * value)) (s : st) : st :=
  match cs with [] => s | (d, v) :: cs => runConsts cs (runConst d v s) end.
(** DeclarationBuilder::visitClassVariable (declarationbuilder.cpp 543-560) around
    TypeBuilder::visitClassVariable (typebuilder.cpp 348-363). *)
Definition runVar (d : N) (v : option value) (s : st) : st :=
  closeDecl Property d
    (if negb (gotDoc s) && negb (gotHint s) then
       match v with
       | Some _ => let (t, s) := getType v s in closeT (openT (plainT t) s)
       | None => closeT (openT (plainT (Integral KNull)) s)
       end
     else s).
Fixpoint runVars (vs : list (N * option value)) (s : st) : st :=
  match vs with [] => s | (d, v) :: vs => runVars vs (runVar d v s) end.
(** propertyType, duchain/helper.cpp 691-708; the hint is given with the type it denotes, if any. *)
Definition propType (hint : option ty) (doc : option ty) : ty :=
  match hint with Some t => t | None => match doc with Some t => t | None => Integral KMixed end end.
(** A statement of properties: TypeBuilder::visitClassStatement, typebuilder.cpp 323-346. *)
Definition runProps (hint : option (option ty)) (doc : tag) (vs : list (N * option value)) (s : st) : st :=
  match hint with
  | Some h =>
      let s := setHint true s in                                     (* 324 *)
      let (t, s) := parseDoc doc s in                                (* 325 *)
      let s := injectT (plainT (propType h t)) s in                  (* 326-328 *)
      let s := setHint false (setLast None (runVars vs s)) in        (* 329-331 *)
      if gotDoc s then setGot false (setLast None s) else s          (* 333-336 *)
  | None =>
      let s := snd (parseDoc doc s) in                               (* 339 *)
      let s := runVars vs s in                                       (* 340 *)
      if gotDoc s then setGot false (setLast None s) else s          (* 341-344 *)
  end.
(** Members taken from traits: DeclarationBuilder::importTraitMethods (declarationbuilder.cpp
    498-515) and visitTraitAliasStatement (733, 758, 804-805), openAbstractType of the type of the
    trait's member, closeType and closeDeclaration. *)
Fixpoint runTraits (ds : list (N * ty)) (s : st) : st :=
  match ds with [] => s | (d, t) :: ds => runTraits ds (closeDecl Ordinary d (closeT (openT (plainT t) s))) end.
(** Whether the type on top of the stack is a function type. *)
Definition inFunction (s : st) : bool := match stack s with (Func _, _) :: _ => true | _ => false end.
(** A class caught alone: its type, if it is known; several: an unsure type of the known ones
    (typebuilder.cpp 608-645). *)
Definition known (cs : list (option ty)) : list ty := flat_map (fun c => match c with Some t => [t] | None => [] end) cs.
Definition catchType (cs : list (option ty)) (s : st) : st :=
  match cs with
  | [c] => match c with Some t => injectT (plainT t) s | None => s end   (* 614-621 *)
  | _ => injectT (plainT (Unsure (fold_left addT (known cs) []))) s      (* 622-643 *)
  end.

(** The head of a function, closure or method: openType, parseDocComment for @return and the flag
    m_gotReturnTypeFromDocComment (typebuilder.cpp 303-312, 425-437, 452-459; the function's type is
    opened at declarationbuilder.cpp 864). *)
Definition openFun (d : N) (doc : tag) (hinted : bool) (s : st) : st :=
  let (t, s) := parseDoc doc (openT (plainT (Func d)) s) in
  setRet (hinted || match t with Some _ => true | None => false end) s.

Fixpoint run (n : node) (s : st) {struct n} : st :=
  match n with
  (* TypeBuilder::visitAssignmentExpression (typebuilder.cpp 471-483) around
     DeclarationBuilder::visitAssignmentExpressionEqual (declarationbuilder.cpp 1269-1292) or the
     compound assignments (1430-1464): the variable is declared with the current type, or as array. *)
  | NAssign d isArray v kids =>
      let (t, s) := getType (Some v) s in
      let s := runs kids (openT (plainT t) s) in
      closeT (record Ordinary d (if isArray then Some (plainT (Integral KArray)) else hd_error (stack s)) s)
  (* typebuilder.cpp 485-492, declarationbuilder.cpp 1501-1512 *)
  | NStatic d v => let (t, s) := getType v s in closeDecl Ordinary d (closeT (openT (plainT t) s))
  (* typebuilder.cpp 494-501; what becomes of the type is in MergeModel.v *)
  | NReturn v kids =>
      let s := runs kids s in
      if negb (gotRet s) && inFunction s then snd (getType (Some v) s) else s
  (* typebuilder.cpp 423-448 with declarationbuilder.cpp 853-870, typebuilder.cpp 450-469 with
     declarationbuilder.cpp 884-898 *)
  | NFun d doc hinted params body =>
      closeDecl Ordinary d (closeT (runs body (runParams params (openFun d doc hinted s))))
  (* declarationbuilder.cpp 171-213 *)
  | NClass d ms => closeDecl Ordinary d (closeT (runms ms (openT (plainT (Struct d)) s)))
  (* typebuilder.cpp 608-645, declarationbuilder.cpp 1541-1550 *)
  | NCatch d classes kids => closeDecl Caught d (catchType classes (runs kids s))
  (* typebuilder.cpp 555-605: the element's type or mixed; declarationbuilder.cpp 1470-1498 *)
  | NForeach key val elem kids =>
      let s := runs kids s in
      let s := injectT (plainT (match elem with Some t => t | None => Integral KMixed end)) s in
      let s := record Ordinary val (last s) s in
      match key with Some k => record ForeachKey k (last s) s | None => s end
  | NConsts cs => runConsts cs s
  (* define(): declarationbuilder.cpp 1335-1373 *)
  | NDefine d v kids =>
      let s := runs kids s in
      match v with
      | Some v => let (t, s) := getType (Some v) s in closeDecl Constant d (injectT (t, true) s)
      | None => closeDecl Constant d s
      end
  (* declarationbuilder.cpp 1581-1595 *)
  | NNamespace d kids => closeDecl NamespaceDecl d (runs kids s)
  | NOther kids => runs kids s
  end
with runs (l : nodes) (s : st) {struct l} : st :=
  match l with nil_ => s | cons_ n l => runs l (run n s) end
with runms (l : members) (s : st) {struct l} : st :=
  match l with mnil => s | mcons m l => runms l (runm m s) end
with runm (m : member) (s : st) {struct m} : st :=
  match m with
  (* typebuilder.cpp 301-319, declarationbuilder.cpp 381-383 *)
  | MMethod d doc hinted params body =>
      closeDecl Ordinary d (closeT (runs body (runParams params (openFun d doc hinted s))))
  (* typebuilder.cpp 320-322 *)
  | MConsts cs => runConsts cs s
  | MProps hint doc vs => runProps hint doc vs s
  | MTraits ds => runTraits ds s
  end.
(** The builder at the start of a file. *)
Definition start : st := {| stack := []; last := None; gotDoc := false; gotHint := false; gotRet := false; trace := [] |}.
Definition recorded (file : nodes) : list (sort * N * option rty) := trace (runs file start).
