(** How the type of a variable and the return type of a function accumulate. *)
From Verif Require Export PhpTypes.
Open Scope nat_scope.

(** declareVariable, duchain/builders/declarationbuilder.cpp 1067-1132: the variable is already
    declared with type [c]; type [t] is assigned.  Simplified: the search for the declaration
    (1070-1083) is left out. *)
Definition assign (c t : ty) : ty :=
  if teq c t then c                                       (* 1084 *)
  else match c with
  | Ref (Integral KMixed) => Ref t                        (* 1086-1096 *)
  | Integral KMixed => t                                  (* 1097-1103 *)
  | Unsure l => Unsure (addT l t)                         (* 1105, 1119, 1124 *)
  | Ref (Unsure l) => Ref (Unsure (addT l t))             (* 1107-1110, 1119-1122 *)
  | Ref b => Ref (Unsure (addT [b] t))                    (* 1111-1114, 1119-1122 *)
  | _ => Unsure (addT [c] t)                              (* 1111-1117, 1119, 1124 *)
  end.
(** The first assignment declares the variable (1142-1150); later ones meet its declaration. *)
Definition assignTo (c : option ty) (t : ty) : option ty :=
  Some (match c with None => t | Some c => assign c t end).
Definition variableType (ts : list ty) : option ty := fold_left assignTo ts None.

(** The merge in TypeBuilder::visitStatement, duchain/builders/typebuilder.cpp 494-545. *)
Definition isCallable (t : ty) : bool := match t with Integral KCallable => true | _ => false end.
Definition isFunc (t : ty) : bool := match t with Func _ => true | _ => false end.
Definition mergeReturn (r : option ty) (t0 : ty) : option ty :=
  let t := match t0 with Ref b => b | _ => t0 end in                     (* 503-506 *)
  match r with
  | Some e =>
      if negb (teq e t) then                                             (* 507 *)
        if isMixed e then Some t                                         (* 512-516 *)
        else if (isCallable e && isFunc t) || (isCallable t && isFunc e) then Some (Integral KCallable)  (* 517-519 *)
        else Some (match e, t with
             | Unsure l, Unsure m => Unsure (fold_left addT m l)         (* 522-530 *)
             | Unsure l, _ => Unsure (addT l t)                          (* 531-534 *)
             | _, Unsure m => Unsure (addT m e)                          (* 536-537, 542 *)
             | _, _ => Unsure (addT (addT [] t) e)                       (* 538-542 *)
             end)
      else Some t                                                        (* 546-548 *)
  | None => Some t
  end.

(** A function body as the builder meets it: return statements with the type of their
    expression ([None]: no expression or no type), and nested functions, closures and methods
    with the type fixed by hint or doc comment and their own body. *)
Inductive stmt := SReturn (t : option ty) | SFun (fixed : option ty) (body : list stmt).

(** visitStatement (494-552) for the statements, visitClassStatement (301-321),
    visitFunctionDeclarationStatement (423-448) and visitClosure (450-469) for the functions.
    [got] is m_gotReturnTypeFromDocComment, a plain member of the builder. *)
Definition isSome {A} (o : option A) : bool := match o with Some _ => true | None => false end.
Fixpoint visitStmt (s : stmt) (got : bool) (r : option ty) : bool * option ty :=
  match s with
  | SReturn None => (got, r)
  | SReturn (Some t) => (got, if got then r else mergeReturn r t)
  | SFun fixed body =>
      (fst ((fix go (b : list stmt) (got : bool) (r : option ty) : bool * option ty :=
        match b with [] => (got, r) | s :: b' => let (g', r') := visitStmt s got r in go b' g' r' end) body (isSome fixed) fixed), r)
  end.
Fixpoint visitBody (b : list stmt) (got : bool) (r : option ty) : bool * option ty :=
  match b with [] => (got, r) | s :: b' => let (g', r') := visitStmt s got r in visitBody b' g' r' end.
(** The return type recorded for a function: void if nothing was found (315-317, 442-444, 464-466). *)
Definition functionReturn (fixed : option ty) (body : list stmt) : ty :=
  match snd (visitBody body (isSome fixed) fixed) with Some t => t | None => Integral KVoid end.
