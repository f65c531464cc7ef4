(** How the variables of a scope are found: the walk of DeclarationBuilder over the syntax tree.

    Names of variables and properties are numbers.  Positions in the text are numbers.  The types of
    expressions are given by two functions: [T s n] is what TypeBuilder::getTypeForNode (duchain/
    builders/typebuilder.cpp 249-270) finds for node [n], [F s n] what visitStatement (555-602) finds
    for the elements of [n] in a foreach.

    Everything is modelled for the first time a file is built, not for building it again
    (recompiling(), wasEncountered()).  Ranges are reduced to their start. *)
From Coq Require Import List Bool Arith.
From Verif Require Import PhpTypes MergeModel.
Import ListNotations.
Open Scope nat_scope.

(** The name of [$this]. *)
Definition this : nat := 0.

(** ** The syntax tree as far as the walk looks at it *)

(** parser/php.g, rules baseVariableWithFunctionCalls and baseVariable: [$x] or [$x[..]] at a
    position, or something else: a call, [A::$x], [$$x]. *)
Inductive base := BName (p x : nat) (indexed : bool) | BOther.
(** Rule variableObjectProperty: [->x], [->x[..]], [->x(..)] with a plain name at a position, or
    another form; is it a call?  (No function here asks whether it is.) *)
Record step := { sname : option (nat * nat); sindexed : bool; scalled : bool }.
(** What is called: a function (with its declaration, if it is known: which parameters are
    references), a method or constructor, a static method. *)
Inductive callee := Function (known : option (list bool)) | Method (refs : list bool) | StaticMethod (refs : list bool).

Inductive nd :=
| Val                                                     (* no part is a variable, call, .. *)
| Op (parts : list nd)                                    (* any node whose parts are just visited *)
| Var (b : base) (steps : list step) (parts : list nd)    (* rule variable; parts: index expressions, calls *)
| Assign (l r : nd)                                       (* l = r *)
| Call (c : callee) (args : list nd)                      (* rules functionCall, functionCallParameterList *)
| Elem (part : nd)                                        (* rule assignmentListElement *)
| Foreach (e v1 : nd) (v2 : option nd) (body : nd)        (* foreach (e as v1 => v2) body *)
| StaticVar (p x : nat) (value : nd)
| GlobalVar (p x : nat)
| Catch (t : option ty) (p x : nat) (body : nd)           (* t: the type of the classes, if known *)
| Fun (params : list (nat * nat * ty)) (uses : list (nat * nat)) (body : nd). (* function or closure *)

(** ** Declarations *)

(** A declaration seen from a scope: its name, its position and the number its type is kept
    under; an alias (of a global or of a used variable) has the number of what it stands for, because
    DUContext::findDeclarations replaces aliases.  [ea]: it is an alias, or from another file, so its own
    declaration is not at [ep]. *)
Inductive ekind := EVariable | EMember (private : bool).
Record entry := { en : nat; ep : nat; ei : nat; ek : ekind; ea : bool }.
(** What kind of context: a function body, a class, the file.  For a class: is it an ArrayAccess,
    is it abstract, how many of the four methods has it, which properties are declared further down. *)
Inductive skind := KBody | KClass (arrayAccess abstr : bool) (offsets : nat) (upcoming : list nat) | KTop.
(** A context: its own declarations, oldest first, and those of the imported contexts (parameters
    and used variables of a function, inherited members of a class, included files). *)
Record scope := { sk : skind; own : list entry; imps : list entry }.
(** FindVariableResults, declarationbuilder.h 220-229 *)
Record fvr := { find : bool; ident : option nat; parent : option nat; node : option nat; isArr : bool }.
Inductive problem := ReassignThis (p : nat) | AbstractMethods (n p : nat).
(** The builder: m_findVariable, m_currentFunctionType (which parameters are references), the
    types of all declarations, currentContext(), its parents, lastType(), the contexts closed so far. *)
Record st := { fnd : fvr; cft : option (list bool); heap : list ty; cur : scope; outer : list scope;
               last : ty; closed : list scope; probs : list problem }.

Definition setFnd (f : fvr) (s : st) := {| fnd := f; cft := cft s; heap := heap s; cur := cur s; outer := outer s; last := last s; closed := closed s; probs := probs s |}.
Definition setCft (c : option (list bool)) (s : st) := {| fnd := fnd s; cft := c; heap := heap s; cur := cur s; outer := outer s; last := last s; closed := closed s; probs := probs s |}.
Definition setHeap (h : list ty) (s : st) := {| fnd := fnd s; cft := cft s; heap := h; cur := cur s; outer := outer s; last := last s; closed := closed s; probs := probs s |}.
Definition setCur (c : scope) (s : st) := {| fnd := fnd s; cft := cft s; heap := heap s; cur := c; outer := outer s; last := last s; closed := closed s; probs := probs s |}.
Definition setOuter (o : list scope) (s : st) := {| fnd := fnd s; cft := cft s; heap := heap s; cur := cur s; outer := o; last := last s; closed := closed s; probs := probs s |}.
Definition setLast (t : ty) (s : st) := {| fnd := fnd s; cft := cft s; heap := heap s; cur := cur s; outer := outer s; last := t; closed := closed s; probs := probs s |}.
Definition addClosed (c : scope) (s : st) := {| fnd := fnd s; cft := cft s; heap := heap s; cur := cur s; outer := outer s; last := last s; closed := closed s ++ [c]; probs := probs s |}.
Definition report (q : problem) (s : st) := {| fnd := fnd s; cft := cft s; heap := heap s; cur := cur s; outer := outer s; last := last s; closed := closed s; probs := probs s ++ [q] |}.

Definition typeAt (h : list ty) (i : nat) : ty := nth i h (Integral KMixed).
Fixpoint update (h : list ty) (i : nat) (t : ty) : list ty :=
  match h, i with [], _ => [] | _ :: r, O => t :: r | a :: r, S j => a :: update r j t end.

(** DUContext::findDeclarations (KDevplatform): the declarations of this name in the context itself,
    otherwise in the imported contexts, otherwise (unless DontSearchInParent) in the parents. *)
Definition named (x : nat) (l : list entry) : list entry := filter (fun e => Nat.eqb (en e) x) l.
Definition inScope (x : nat) (c : scope) : list entry :=
  match named x (own c) with [] => named x (imps c) | l => l end.
Fixpoint lookup (x : nat) (l : list scope) : list entry :=
  match l with [] => [] | c :: r => match inScope x c with [] => lookup x r | d => d end end.
(** ... with a position: only declarations that begin before it. *)
Definition before (p : nat) (l : list entry) : list entry := filter (fun e => ep e <? p) l.
Definition inScopeBefore (x p : nat) (c : scope) : list entry :=
  match before p (named x (own c)) with [] => before p (named x (imps c)) | l => l end.

Definition isVar (e : entry) : bool := match ek e with EVariable => true | EMember _ => false end.
(** The last element of a list. *)
Fixpoint lastOf {A} (l : list A) : option A := match l with [] => None | [a] => Some a | _ :: r => lastOf r end.

(** ** Getting at the assigned variable *)

(** FindVariableResults::FindVariableResults, duchain/builders/declarationbuilder.cpp 49-55 *)
Definition fresh : fvr := {| find := true; ident := None; parent := None; node := None; isArr := false |}.
(** getVariableIdentifier, 57-119 *)
Definition parentOf (b : base) (steps : list step) : option nat :=
  match rev steps with
  | [] => None
  | [_] => match b with BName _ x false => Some x | _ => None end                  (* 67-77 *)
  | _ :: q :: _ => if sindexed q then None else option_map snd (sname q)           (* 78-92 *)
  end.
Definition getIdentifier (b : base) (steps : list step) (f : fvr) : fvr :=
  match lastOf steps with
  | None =>
      match b with                                                                 (* 110-118 *)
      | BName p x idx => {| find := find f; ident := Some x; parent := None; node := Some p; isArr := idx |}
      | BOther => {| find := find f; ident := ident f; parent := None; node := node f; isArr := isArr f |}
      end
  | Some t =>
      match parentOf b steps, sname t with                                         (* 94-108 *)
      | Some q, Some (p, x) => {| find := find f; ident := Some x; parent := Some q; node := Some p; isArr := sindexed t |}
      | Some q, None => {| find := find f; ident := None; parent := Some q; node := None; isArr := isArr f |}
      | None, _ => {| find := find f; ident := ident f; parent := None; node := node f; isArr := isArr f |}
      end
  end.
(** visitVariable 996-1004, without the parts *)
Definition foundVariable (b : base) (steps : list step) (s : st) : st :=
  if find (fnd s) then
    let f := getIdentifier b steps (fnd s) in
    setFnd {| find := false; ident := ident f; parent := parent f; node := node f; isArr := isArr f |} s
  else s.

(** ** Declaring *)
Definition newEntry (k : ekind) (x p : nat) (t : ty) (s : st) : entry := {| en := x; ep := p; ei := List.length (heap s); ek := k; ea := false |}.
Definition addOwn (e : entry) (c : scope) : scope := {| sk := sk c; own := own c ++ [e]; imps := imps c |}.
(** openDefinition<VariableDeclaration> .. closeDeclaration in the current context *)
Definition openVariable (x p : nat) (t : ty) (s : st) : st :=
  setHeap (heap s ++ [t]) (setCur (addOwn (newEntry EVariable x p t s) (cur s)) s).

(** declareVariable 1006-1154.  Left out: the superglobal mark (1136-1141) and that a variable in a
    namespace is declared in the file's context (1145-1148).  Only a declared type is changed, a new
    range is not set (1077-1082, building again). *)
Definition declareVariable (t : ty) (x p : nat) (s : st) : st :=
  match (if Nat.eqb x this then match outer s with c :: _ => Some (sk c) | [] => None end else None) with
  | Some (KClass aa ab n _) =>                                                     (* 1015-1061 *)
      if aa && teq t (Integral KArray)
      then if (n <? 4) && negb ab then report (AbstractMethods (4 - n) p) s else s
      else report (ReassignThis p) s
  | _ =>
      match lastOf (filter isVar (inScopeBefore x p (cur s))) with                 (* 1067-1132 *)
      | Some e => setHeap (update (heap s) (ei e) (assign (typeAt (heap s) (ei e)) t)) s
      | None => openVariable x p t s                                               (* 1134-1153 *)
      end
  end.

(** getClassContext 1156-1173 for [$this]: the context around the current one.  Left out: other
    objects.  What is declared in their classes is taken not to be seen from here. *)
Definition thisClass (s : st) : option scope :=
  match outer s with c :: _ => match sk c with KClass _ _ _ _ => Some c | _ => None end | [] => None end.
(** declareClassMember 590-620, for the class around the current context *)
Definition declareMember (t : ty) (x p : nat) (s : st) : st :=
  match outer s with
  | c :: r =>
      match sk c with
      | KClass _ _ _ up =>
          if existsb (Nat.eqb x) up then s
          else setHeap (heap s ++ [t]) (setOuter (addOwn (newEntry (EMember false) x p t s) c :: r) s)
      | _ => s
      end
  | [] => s
  end.

(** visitAssignmentExpressionEqual 1178-1288, after the parts; [t] is currentAbstractType(). *)
Definition usable (c : scope) (p : nat) (e : entry) : bool :=
  negb (Nat.eqb (ep e) p) &&                                                       (* 1191-1194 *)
  match ek e with EMember true => existsb (fun e' => Nat.eqb (ei e') (ei e)) (own c) | _ => true end. (* 1198-1206 *)
Definition assigned (t : ty) (s : st) : st :=
  match ident (fnd s), node (fnd s) with
  | Some x, Some p =>
      let t' := if isArr (fnd s) then Integral KArray else t in                    (* 1269-1275 *)
      match parent (fnd s) with
      | Some q =>
          if Nat.eqb q this then
            match thisClass s with
            | Some c =>
                match lastOf (filter (usable c p) (lookup x (cur s :: outer s))) with
                | Some e =>                                                        (* 1210-1222 *)
                    match typeAt (heap s) (ei e) with
                    | Integral KNull => setHeap (update (heap s) (ei e) t) s
                    | _ => s
                    end
                | None => declareMember t' x p s                                   (* 1277-1282 *)
                end
            | None => s
            end
          else s
      | None => declareVariable t' x p s                                           (* 1283-1286 *)
      end
  | _, _ => s
  end.

(** declareFoundVariable 1425-1467: the declaration found, if it is in the current context and begins
    after [p], now begins at [p] (1444-1449).  Left out: one in another file is given the range here too
    (it was not encountered). *)
Definition moves (p : nat) (e e' : entry) : bool := Nat.eqb (en e') (en e) && Nat.eqb (ei e') (ei e) && negb (ea e') && (p <? ep e').
Definition movedTo (p : nat) (e : entry) : entry := {| en := en e; ep := p; ei := ei e; ek := ek e; ea := ea e |}.
Definition moveTo (p : nat) (e : entry) (l : list entry) : list entry :=
  map (fun e' => if moves p e e' then movedTo p e' else e') l.
Definition topOf (s : st) : scope := List.last (outer s) (cur s).
Definition declareFound (t : ty) (s : st) : st :=
  match node (fnd s), ident (fnd s) with
  | Some p, Some x =>
      if isArr (fnd s) then s                                                      (* 1431 *)
      else match parent (fnd s) with
      | None =>
          match lookup x (cur s :: outer s) with
          | e :: _ =>                                                              (* 1443-1454 *)
              setCur {| sk := sk (cur s); own := moveTo p e (own (cur s)); imps := imps (cur s) |} s
          | [] =>
              match filter isVar (inScope x (topOf s)) with                        (* 1456-1459 *)
              | _ :: _ => s
              | [] => declareVariable t x p s
              end
          end
      | Some q =>
          if Nat.eqb q this then
            match thisClass s with
            | Some _ => match lookup x (outer s) with [] => declareMember t x p s | _ => s end
            | None => s
            end
          else s
      end
  | _, _ => s
  end.

(** A value put in place and restored: PushValue<FindVariableResults> *)
Definition pushed (f : st -> st) (s : st) : st := setFnd (fnd s) (f (setFnd fresh s)).

(** m_currentFunctionType while the arguments of a call are visited, visitFunctionCall 1297-1333.  A
    method call is no FunctionCall and leaves it alone; for [A::f()] a function called like the class is
    looked for, taken not to exist. *)
Definition calling (c : callee) (g : option (list bool)) : option (list bool) :=
  match c with Function k => k | Method _ => g | StaticMethod _ => None end.
Definition refAt (g : option (list bool)) (i : nat) : bool :=
  match g with Some l => nth i l false | None => false end.

Section Walk.
Variable T : st -> nd -> ty.
Variable F : st -> nd -> ty.

(** visitFunctionCallParameterListElement 1385-1412, [i] is m_functionCallParameterPos.  The problem
    about arguments after unpacking is left out.  Here, in visitAssignmentListElement and in
    visitStatement the code asks first whether a node was found; [declareFound] does so itself. *)
Definition afterArg (i : nat) (s : st) : st :=
  if refAt (cft s) i then declareFound (Integral KNull) s else s.
(** visitLexicalVar 899-926, in the list of a closure: [c :: o] is what surrounds it *)
Definition lexical (s : st) (u : nat * nat) : list entry :=
  match lookup (snd u) (cur s :: outer s) with
  | e :: _ => [{| en := snd u; ep := fst u; ei := ei e; ek := ek e; ea := true |}]
  | [] => []
  end.
(** visitParameter 816-851: each parameter is a variable of the parameter context *)
Fixpoint parameters (n : nat) (ps : list (nat * nat * ty)) : list entry :=
  match ps with [] => [] | (p, x, _) :: r => {| en := x; ep := p; ei := n; ek := EVariable; ea := false |} :: parameters (S n) r end.
(** ContextBuilder::visitFunctionDeclarationStatement (contextbuilder.cpp 304-328) and visitClosure
    (330-364): a context for the body that imports parameters and used variables.  m_findVariable and
    m_currentFunctionType stay as they are. *)
Definition enter (ps : list (nat * nat * ty)) (uses : list (nat * nat)) (s : st) : st :=
  let us := flat_map (lexical s) uses in
  let c := {| sk := KBody; own := []; imps := parameters (List.length (heap s)) ps ++ us |} in
  setHeap (heap s ++ map snd ps) (setOuter (cur s :: outer s) (setCur c s)).
Definition leave (t : ty) (s : st) : st :=
  match outer s with
  | c :: o => setLast t (setOuter o (setCur c (addClosed (cur s) s)))
  | [] => s
  end.

Fixpoint visit (n : nd) (s : st) {struct n} : st :=
  match n with
  | Val => s
  | Op l => fold_left (fun s k => visit k s) l s
  | Var b steps l => fold_left (fun s k => visit k s) l (foundVariable b steps s)  (* 996-1004 *)
  | Assign l r =>                                                                  (* 985-993, typebuilder.cpp 471-483 *)
      let t := T s (Assign l r) in
      setLast t (pushed (fun s => assigned t (visit r (visit l s))) s)
  | Call c args =>                                                                 (* 1297-1333, 1377-1383 *)
      setCft (cft s) (snd (fold_left (fun is k =>
        (S (fst is), pushed (fun s => afterArg (fst is) (visit k s)) (snd is))) args (0, setCft (calling c (cft s)) s)))
  | Elem k =>                                                                      (* 1414-1423 *)
      pushed (fun s => declareFound (Integral KMixed) (visit k s)) s
  | Foreach e v1 v2 body =>                                                        (* 1472-1500 *)
      let again v s := pushed (fun s => let s' := visit v s in declareFound (last s') s') s in
      let opt s := match v2 with Some v => visit v s | None => s end in
      let s1 := visit body (opt (visit v1 (visit e s))) in
      let s2 := setLast (F s1 e) s1 in
      again v1 (match v2 with Some v => again v s2 | None => s2 end)
  | StaticVar p x v =>                                                             (* 1502-1511 *)
      let s1 := setLast (T s v) (visit v s) in openVariable x p (last s1) s1
  | GlobalVar p x =>                                                               (* 1514-1538 *)
      match filter isVar (inScope x (topOf s)) with
      | e :: _ => setCur (addOwn {| en := x; ep := p; ei := ei e; ek := EVariable; ea := true |} (cur s)) s
      | [] => s
      end
  | Catch t p x body =>                                                            (* 1541-1549, typebuilder.cpp 607-641 *)
      let s1 := visit body s in
      let s2 := match t with Some t => setLast t s1 | None => s1 end in
      openVariable x p (last s2) s2
  | Fun ps uses body => leave (T s (Fun ps uses body)) (visit body (enter ps uses s))
  end.
End Walk.
