(** Traits used by a class (duchain/builders/declarationbuilder.cpp 428-526 and 690-807,
    duchain/declarations/traitmethodaliasdeclaration.cpp). *)
From Verif Require Export ModModel.
Open Scope nat_scope.

(** A declaration in the internal context of a trait.  [m_id] identifies the declaration;
    [m_name] is its identifier (methods lower case, properties without '$'). *)
Record Member := { m_id : nat; m_name : nat; m_isMethod : bool; m_access : Access; m_static : bool }.

(** A trait.  [t_qid] is its qualified identifier, [t_local] the local scope identifier of its
    context: they differ inside a namespace. *)
Record TraitD := { t_qid : nat; t_local : nat; t_members : list Member }.

(** A declaration in the class using the traits: one of its own, a TraitMethodAliasDeclaration
    or a TraitMemberAliasDeclaration. *)
Inductive LKind := Own | MethodAlias | MemberAlias.
Record Loc := { l_name : nat; l_kind : LKind; l_isMethod : bool; l_aliasOf : option nat;
                l_over : list nat; l_access : Access; l_static : bool }.

Inductive TError := Collision (m : nat) | AliasAbstract | AliasFinal | AliasStatic.

(** traitmethodaliasdeclaration.cpp 112-120: isOverriding. *)
Definition isOverriding (l : Loc) (id : nat) : bool := existsb (Nat.eqb id) (l_over l).
Definition aliases (l : Loc) (m : Member) : bool :=
  match l_aliasOf l with Some i => Nat.eqb i (m_id m) | None => false end.

(** What the scan of the local declarations decides for one trait declaration. *)
Inductive Found := NotFound | FoundOK | FoundCollision.

(** declarationbuilder.cpp 447-487, the inner loop.  All declarations of a class or trait are
    ClassMemberDeclarations (483), and TraitMethodAliasDeclaration is one too. *)
Fixpoint scan (t : TraitD) (m : Member) (ls : list Loc) : Found :=
  match ls with
  | [] => NotFound
  | l :: r =>
      match l_kind l with
      | MethodAlias =>
          if aliases l m then FoundOK
          else if Nat.eqb (l_name l) (m_name m) then
            if isOverriding l (t_local t) then FoundOK
            else if m_isMethod m then FoundCollision
            else FoundOK                                 (* 482-486 *)
          else scan t m r
      | MemberAlias =>
          if aliases l m then FoundOK
          else if Nat.eqb (l_name l) (m_name m) then FoundOK else scan t m r
      | Own => if Nat.eqb (l_name l) (m_name m) then FoundOK else scan t m r
      end
  end.

(** declarationbuilder.cpp 498-517: the new alias declaration. *)
Definition aliasFor (m : Member) : Loc :=
  {| l_name := m_name m; l_kind := if m_isMethod m then MethodAlias else MemberAlias;
     l_isMethod := m_isMethod m; l_aliasOf := Some (m_id m); l_over := [];
     l_access := m_access m; l_static := m_static m |}.

(** declarationbuilder.cpp 444-518: all declarations of one trait against [snapshot], the local
    declarations fetched at 440 before the loop. *)
Fixpoint importMembers (t : TraitD) (snapshot : list Loc) (ms : list Member) : list Loc * list TError :=
  match ms with
  | [] => ([], [])
  | m :: r =>
      let '(ls, es) := importMembers t snapshot r in
      match scan t m snapshot with
      | NotFound => (aliasFor m :: ls, es)
      | FoundOK => (ls, es)
      | FoundCollision => (ls, Collision (m_id m) :: es)
      end
  end.

(** declarationbuilder.cpp 428-526: importTraitMethods.  [None]: findDeclarationImport finds no
    trait, or it has no internal context: the loop ends (435-437). *)
Fixpoint importTraits (ls : list Loc) (ts : list (option TraitD)) : list Loc * list TError :=
  match ts with
  | [] => (ls, [])
  | None :: _ => (ls, [])
  | Some t :: r =>
      let '(new, es) := importMembers t ls (t_members t) in
      let '(ls', es') := importTraits (ls ++ new) r in
      (ls', es ++ es')
  end.

(** A statement "T::m as modifiers alias" or "T::m insteadof T1, T2" (php.g 1130-1140).
    [a_conflicts]: the qualified identifiers of the traits after insteadof that resolve. *)
Record AliasStmt := { a_trait : option TraitD; a_method : nat; a_alias : option nat;
                      a_mods : option (list Mod); a_conflicts : list nat }.

(** declarationbuilder.cpp 690-807: visitTraitAliasStatement and createTraitAliasDeclarations.
    [None]: olddec (720) is null and dereferenced (733, 759): the first declaration of that name
    is no method. *)
Definition aliasDecl (s : AliasStmt) : option (list Loc * list TError) :=
  match a_trait s with
  | None => Some ([], [])
  | Some t =>
      match find (fun m => Nat.eqb (m_name m) (a_method s)) (t_members t) with
      | None => Some ([], [])
      | Some m =>
          if m_isMethod m then
            let ms := match a_mods s with Some l => modifiers l | None => 0%N end in
            let acc := if has ms Public then APublic
                       else if has ms Protected then AProtected
                       else if has ms Private then APrivate
                       else m_access m in
            Some ([{| l_name := match a_alias s with Some n => n | None => a_method s end;
                      l_kind := MethodAlias; l_isMethod := true; l_aliasOf := Some (m_id m);
                      l_over := a_conflicts s; l_access := acc; l_static := m_static m |}],
                  (if has ms Abstract then [AliasAbstract] else []) ++
                  (if has ms Final then [AliasFinal] else []) ++
                  (if has ms Static then [AliasStatic] else []))
          else None
      end
  end.

Fixpoint aliasDecls (ls : list Loc) (ss : list AliasStmt) : option (list Loc * list TError) :=
  match ss with
  | [] => Some (ls, [])
  | s :: r =>
      match aliasDecl s with
      | None => None
      | Some (new, es) => match aliasDecls (ls ++ new) r with
                          | None => None
                          | Some (ls', es') => Some (ls', es ++ es')
                          end
      end
  end.

(** One statement of a class body: a member of the class itself or a use statement
    (declarationbuilder.cpp 384-387: the alias statements are visited first). *)
Inductive ClassStmt := Declares (l : Loc) | Uses (ts : list (option TraitD)) (ss : list AliasStmt).

Fixpoint classBody (ls : list Loc) (b : list ClassStmt) : option (list Loc * list TError) :=
  match b with
  | [] => Some (ls, [])
  | Declares l :: r => classBody (ls ++ [l]) r
  | Uses ts ss :: r =>
      match aliasDecls ls ss with
      | None => None
      | Some (ls1, e1) =>
          let '(ls2, e2) := importTraits ls1 ts in
          match classBody ls2 r with
          | None => None
          | Some (ls3, e3) => Some (ls3, e1 ++ e2 ++ e3)
          end
      end
  end.
