(** Namespace contexts of a file (duchain/builders/contextbuilder.cpp,
    predeclarationbuilder.cpp, declarationbuilder.cpp). *)
From Coq Require Export List Arith Bool Lia.
Export ListNotations.

(** Kinds of DUContext; [OtherCtx] stands for class, function and block contexts. *)
Inductive CtxKind := TopCtx | NamespaceCtx | OtherCtx.

(** parser/php.g 310-332: a statement inside a namespace body or between namespace statements.
    Simplified: a statement is a leaf or a scope (class, function, block) with statements in it;
    the grammar (297-299, 1072-1078) allows no namespace statement below another statement. *)
Inductive Stmt := Leaf (id : nat) | Scope (name : nat) (body : list Stmt).
(** parser/php.g 297-299 and 1072-1078: [Ns [] b]: no namespaceNameSequence; [None]: the form
    ended by a semicolon. *)
Inductive Outer := Ns (names : list nat) (body : option (list Stmt)) | Plain (s : Stmt).

(** What is observable of the builder: contexts and declarations opened and closed and the
    statements visited, with the namespaces they are visited in. *)
Inductive Event :=
| EOpenDecl (n : nat) | ECloseDecl (n : nat)
| EOpen (k : CtxKind) (n : nat) | EClose (k : CtxKind) (n : nat)
| EVisit (id : nat) (inside : list nat).

(** Builder state: context stack (innermost first), declaration stack, m_openNamespaces
    (contextbuilder.h 116), events (latest first), and whether a Q_ASSERT or a stack underflow
    was hit. *)
Record St := { ctxs : list (CtxKind * nat); decls : list nat; openNs : option (list nat);
               evs : list Event; bad : bool }.

Definition start : St := {| ctxs := [(TopCtx, 0)]; decls := []; openNs := None; evs := []; bad := false |}.

Definition emit (s : St) (e : Event) : St :=
  {| ctxs := ctxs s; decls := decls s; openNs := openNs s; evs := e :: evs s; bad := bad s |}.
Definition fail (s : St) : St :=
  {| ctxs := ctxs s; decls := decls s; openNs := openNs s; evs := evs s; bad := true |}.
Definition setOpen (s : St) (o : option (list nat)) : St :=
  {| ctxs := ctxs s; decls := decls s; openNs := o; evs := evs s; bad := bad s |}.

(** openContext / closeContext of the platform. *)
Definition openCtx (s : St) (k : CtxKind) (n : nat) : St :=
  {| ctxs := (k, n) :: ctxs s; decls := decls s; openNs := openNs s; evs := EOpen k n :: evs s; bad := bad s |}.
Definition closeCtx (s : St) : St :=
  match ctxs s with
  | (k, n) :: r => {| ctxs := r; decls := decls s; openNs := openNs s; evs := EClose k n :: evs s; bad := bad s |}
  | [] => fail s
  end.
(** openDefinition/openDeclarationInternal and closeDeclaration of the platform. *)
Definition openDecl (s : St) (n : nat) : St :=
  {| ctxs := ctxs s; decls := n :: decls s; openNs := openNs s; evs := EOpenDecl n :: evs s; bad := bad s |}.
Definition closeDecl (s : St) : St :=
  match decls s with
  | n :: r => {| ctxs := ctxs s; decls := r; openNs := openNs s; evs := ECloseDecl n :: evs s; bad := bad s |}
  | [] => fail s
  end.

(** contextbuilder.cpp 415-422, predeclarationbuilder.cpp 157-172, declarationbuilder.cpp
    1581-1589: openNamespace: the declaration first, then the context. *)
Definition openNamespace (s : St) (n : nat) : St := openCtx (openDecl s n) NamespaceCtx n.
(** contextbuilder.cpp 424-427, predeclarationbuilder.cpp 174-179, declarationbuilder.cpp
    1591-1595: closeNamespace: the context first, then the declaration. *)
Definition closeNamespace (s : St) : St := closeDecl (closeCtx s).

(** contextbuilder.cpp 405-413: closeNamespaces, a do-while over the name components with the
    Q_ASSERT on the kind of the current context at 410. *)
Fixpoint closeLoop (names : list nat) (s : St) : St :=
  match names with
  | [] => s
  | _ :: r => let s := match ctxs s with (NamespaceCtx, _) :: _ => s | _ => fail s end in
              closeLoop r (closeNamespace s)
  end.
Definition closeNamespaces (names : list nat) (s : St) : St :=
  match names with
  | [] => fail s      (* 408: namespaceNameSequence is null *)
  | _ => closeLoop names s
  end.

(** The namespaces around the current position, outermost first: the scope part of identifiers
    declared there. *)
Definition inside (s : St) : list nat :=
  rev (flat_map (fun c => match fst c with NamespaceCtx => [snd c] | _ => [] end) (ctxs s)).

(** DefaultVisitor on a statement: contexts of classes, functions and blocks are opened and
    closed around their bodies (contextbuilder.cpp 224-362; the declaration of a class or
    function likewise, predeclarationbuilder.cpp 35-156). *)
Fixpoint visitStmt (x : Stmt) (s : St) : St :=
  match x with
  | Leaf id => emit s (EVisit id (inside s))
  | Scope n body =>
      closeDecl (closeCtx (
        (fix go (l : list Stmt) (s : St) : St :=
           match l with [] => s | y :: r => go r (visitStmt y s) end)
          body (openCtx (openDecl s n) OtherCtx n)))
  end.
Fixpoint visitStmts (l : list Stmt) (s : St) : St :=
  match l with [] => s | y :: r => visitStmts r (visitStmt y s) end.

(** contextbuilder.cpp 366-403: visitNamespaceDeclarationStatement. *)
Definition visitNs (names : list nat) (body : option (list Stmt)) (s : St) : St :=
  let s := match openNs s with
           | Some o => setOpen (closeNamespaces o s) None
           | None => s
           end in
  match names with
  | [] => match body with Some b => visitStmts b s | None => s end
  | _ =>
      let s := fold_left openNamespace names s in
      match body with
      | Some b => closeNamespaces names (visitStmts b s)
      | None => setOpen s (Some names)
      end
  end.

Fixpoint visitOuters (l : list Outer) (s : St) : St :=
  match l with
  | [] => s
  | Ns ns b :: r => visitOuters r (visitNs ns b s)
  | Plain x :: r => visitOuters r (visitStmt x s)
  end.

(** contextbuilder.cpp 91-125: startVisiting (the imports at 93-118 do not touch namespaces). *)
Definition startVisiting (l : list Outer) : St :=
  let s := visitOuters l start in
  match openNs s with
  | Some o => setOpen (closeNamespaces o s) None
  | None => s
  end.
Definition trace (l : list Outer) : list Event := rev (evs (startVisiting l)).
