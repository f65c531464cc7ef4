(** Classes as the completion sees them (completion/context.cpp): the identifiers that may not
    be completed again, the filter on completion items, member completion, override
    completion. *)
From Coq Require Export List Arith Bool Lia String.
Export ListNotations.
Open Scope nat_scope.

(** ClassDeclarationData of the platform, as used at completion/context.cpp 1707-1728 and
    1196.  Simplified: only the fields the completion reads.  A class is its index in the
    [World]; [cd_id] is its qualified identifier; a base is the class the base type resolves
    to, or [None] when it is no structure type or does not resolve (1012-1020). *)
Inductive ClassKind := KClass | KInterface | KTrait.
Inductive ClassMod := ModNone | ModFinal | ModAbstract.
Record ClassDecl := { cd_id : nat; cd_bases : list (option nat); cd_kind : ClassKind; cd_mod : ClassMod }.
Definition World := list ClassDecl.

(** completion/context.cpp 1011-1020: the bases that resolve to a class declaration. *)
Definition resolved (w : World) (c : ClassDecl) : list nat :=
  flat_map (fun b => match b with
                     | Some i => match nth_error w i with Some _ => [i] | None => [] end
                     | None => []
                     end) (cd_bases c).

Definition mem (x : nat) (l : list nat) : bool := existsb (Nat.eqb x) l.

(** completion/context.cpp 990-1027: forbidIdentifier(ClassDeclaration* ).  [None] models
    running out of fuel, i.e. a recursion that is too deep. *)
Fixpoint forbidClass (fuel : nat) (w : World) (d : nat) (forb : list nat) : option (list nat) :=
  match fuel with
  | 0 => None
  | S fuel =>
      match nth_error w d with
      | None => Some forb
      | Some c =>
          if mem (cd_id c) forb then Some forb
          else fold_left (fun acc b => match acc with
                                       | Some f => forbidClass fuel w b f
                                       | None => None
                                       end) (resolved w c) (Some (cd_id c :: forb))
      end
  end.

(** completion/context.cpp 974-988: forbidIdentifier(QString).  [find] stands for
    findDeclarationImportHelper (the class declaration of that name, if any). *)
Definition forbidName (fuel : nat) (w : World) (find : nat -> option nat) (id : nat) (forb : list nat)
  : option (list nat) :=
  match find id with
  | Some d => forbidClass fuel w d forb
  | None => Some (id :: forb)
  end.

(** completion/context.cpp 296-375: the calls, one per identifier in the token stream. *)
Fixpoint forbidNames (fuel : nat) (w : World) (find : nat -> option nat) (ids : list nat) (forb : list nat)
  : option (list nat) :=
  match ids with
  | [] => Some forb
  | i :: r => match forbidName fuel w find i forb with
              | Some f => forbidNames fuel w find r f
              | None => None
              end
  end.

(** ** isValidCompletionItem *)
Inductive AccessOp :=
  NoMemberAccess | MemberAccess | StaticMemberAccess | NewClassChoose | ExceptionChoose
| ExceptionInstanceChoose | InterfaceChoose | ClassExtendsChoose | InstanceOfChoose
| BackslashAccess | NamespaceChoose | OtherOp.

Inductive Access := Public | Protected | Private.
(** The enum order of Declaration::AccessPolicy of the platform, used at 1402. *)
Definition accessNum (a : Access) : nat := match a with Public => 0 | Protected => 1 | Private => 2 end.

Inductive DeclKind := KindType | KindInstance | KindNamespace | KindOther.

(** A declaration as isValidCompletionItem and completionItems read it.  [d_class]: the class
    when it is a ClassDeclaration; [d_typeClass]: the class its type denotes;
    [d_member]: access policy when it is a ClassMemberDeclaration; [d_inClassCtx]: its context
    has type Class; [d_ctx]: its context; [d_visible]: that context is imported by the current
    one; [d_var]: for a VariableDeclaration, whether it is a superglobal; [d_line]: start of its
    range. *)
Record Decl := { d_qid : nat; d_emptyQid : bool; d_emptyRange : bool; d_kind : DeclKind;
                 d_class : option nat; d_typeClass : option nat; d_member : option Access;
                 d_inClassCtx : bool; d_ctx : nat; d_visible : bool; d_var : option bool;
                 d_ident : nat; d_isFunction : bool; d_line : nat }.

(** The completion context: current DUContext, its parent, the cursor, the operation and the
    forbidden identifiers; [x_exception] is the declaration of class Exception (1664-1679). *)
Record CCtx := { x_ctx : nat; x_parent : option nat; x_pos : nat; x_op : AccessOp;
                 x_forbidden : list nat; x_exception : option nat }.

(** ClassDeclaration::isPublicBaseClass of the platform is a parameter: [pub a b] says that [b]
    is [a] or one of its ancestors. *)
Definition isClassOp (o : AccessOp) : bool :=
  match o with ExceptionChoose | NewClassChoose | InterfaceChoose | ClassExtendsChoose
             | InstanceOfChoose => true | _ => false end.

(** completion/context.cpp 1654-1768: isValidCompletionItem. *)
Definition isValid (w : World) (pub : nat -> nat -> bool) (x : CCtx) (d : Decl) : bool :=
  if d_emptyRange d then false
  else if match d_kind d with KindType => d_emptyQid d | _ => false end then false
  else if isClassOp (x_op x) then
    if mem (d_qid d) (x_forbidden x) then false
    else match d_class d with
         | None => false
         | Some ci =>
             match nth_error w ci with
             | None => false
             | Some c =>
                 match x_op x with
                 | NewClassChoose =>
                     match cd_mod c with ModAbstract => false | _ => true end &&
                     match cd_kind c with KClass => true | _ => false end
                 | ExceptionChoose =>
                     match x_exception x with
                     | None => false
                     | Some e => match nth_error w e with
                                 | Some ec => Nat.eqb (cd_id c) (cd_id ec) || pub ci e
                                 | None => false
                                 end
                     end
                 | InterfaceChoose => match cd_kind c with KInterface => true | _ => false end
                 | ClassExtendsChoose =>
                     match cd_mod c with ModFinal => false | _ => true end &&
                     match cd_kind c with KClass => true | _ => false end
                 | _ => true
                 end
             end
         end
  else
    match x_op x with
    | ExceptionInstanceChoose =>
        match x_exception x with
        | None => false
        | Some e =>
            match d_kind d with
            | KindInstance => match d_typeClass d with Some ci => pub ci e | None => false end
            | _ => false
            end
        end
    | NoMemberAccess =>
        if d_inClassCtx d && negb (match x_parent x with Some p => Nat.eqb p (d_ctx d) | None => false end)
           && match d_member d with Some Private => true | _ => false end then false
        else if negb (d_isFunction d) && Nat.eqb (x_ctx x) (d_ctx d) && Nat.ltb (x_pos x) (d_line d) then false
        else true
    | NamespaceChoose => match d_kind d with KindNamespace => true | _ => false end
    | _ => true
    end.

(** completion/context.cpp 1440-1473: all declarations visible at the cursor, from the last to
    the first; of the instances of one name only the last one is considered. *)
Fixpoint visibleItems (w : World) (pub : nat -> nat -> bool) (x : CCtx) (rdecls : list Decl) (seen : list nat)
  : list Decl :=
  match rdecls with
  | [] => []
  | d :: r =>
      let go seen := if isValid w pub x d then d :: visibleItems w pub x r seen
                     else visibleItems w pub x r seen in
      match d_kind d with
      | KindInstance =>
          if negb (Nat.eqb (d_ctx d) (x_ctx x)) && negb (d_visible d)
             && match d_var d with Some false => true | _ => false end
          then visibleItems w pub x r seen
          else if mem (d_ident d) seen then visibleItems w pub x r seen
          else go (d_ident d :: seen)
      | _ => go seen
      end
  end.

(** completion/context.cpp 1475-1513: functions and superglobals of the other files of the
    open projects that the current context does not import; [others] are the declarations the
    code model finds, [inClassCtx] ones are skipped at 1491-1493. *)
Definition modelItems (w : World) (pub : nat -> nat -> bool) (x : CCtx) (others : list Decl) : list Decl :=
  filter (fun d => negb (d_inClassCtx d) && isValid w pub x d &&
                   match d_var d with Some false => false | _ => true end) others.

(** completion/context.cpp 1515-1533 (and completioncodemodel): an entry of the completion code
    model names a class and says whether it is an exception; [decl] is what the item resolves to
    (completion/codemodelitem.cpp 97-107). *)
Record ModelItem := { mi_exception : bool; mi_decl : Decl }.
Definition classItems (x : CCtx) (entries : list ModelItem) : list Decl :=
  map mi_decl (filter (fun m => match x_op x with ExceptionChoose => mi_exception m | _ => true end) entries).

(** completion/context.cpp 1438-1534: the branch that shows all visible declarations. *)
Definition allItems (w : World) (pub : nat -> nat -> bool) (x : CCtx)
    (decls others : list Decl) (entries : list ModelItem) : list Decl :=
  visibleItems w pub x (rev decls) [] ++ modelItems w pub x others ++ classItems x entries.

(** ** Members *)
(** A member declaration as the completion reads it.  [m_isMember]: it is a
    ClassMemberDeclaration; [m_owner]: the class owning its context; [m_isFunction]:
    isFunctionDeclaration; [m_final], [m_abstract]: of a ClassFunctionDeclaration;
    [m_named]: its identifier is not empty. *)
Record Member := { m_name : nat; m_isMember : bool; m_access : Access; m_static : bool; m_final : bool;
                   m_abstract : bool; m_isFunction : bool; m_owner : option nat; m_named : bool }.

(** completion/context.cpp 1384-1404: the best access policy that is shown. *)
Definition shownAccess (pub : nat -> nat -> bool) (current : option nat) (accessed : nat) (owner : option nat)
  : Access :=
  match current, owner with
  | Some cur, Some own =>
      if Nat.eqb cur accessed then
        if Nat.eqb cur own then Private
        else if pub cur own then Protected else Public
      else if pub cur accessed && (Nat.eqb accessed own || pub accessed own) then Protected
      else Public
  | _, _ => Public
  end.

(** completion/context.cpp 1366-1415: one declaration of the container. *)
Definition memberOffered (pub : nat -> nat -> bool) (isStaticOp : bool) (current accessed : option nat)
    (m : Member) : bool :=
  (if isStaticOp then m_isMember m && m_static m else negb (m_isMember m && m_static m)) &&
  match accessed with
  | Some acc => if m_isMember m
                then Nat.leb (accessNum (m_access m)) (accessNum (shownAccess pub current acc (m_owner m)))
                else true
  | None => true
  end && m_named m.

(** completion/context.cpp 1356-1425: the containers, each the class owning it and all the
    declarations found in it. *)
Definition memberItems (pub : nat -> nat -> bool) (isStaticOp : bool) (current : option nat)
    (containers : list (option nat * list Member)) : list Member :=
  flat_map (fun c => filter (memberOffered pub isStaticOp current (fst c)) (snd c)) containers.

(** ** Override completion (ClassMemberChoose) *)
(** The modifiers getMethodTokens can return (completion/helpers.cpp 141-152). *)
Inductive Word := WFunction | WPrivate | WPublic | WProtected | WStatic | WAbstract | WFinal | WVar | WConst.
Definition wordNum (k : Word) : nat :=
  match k with WFunction => 0 | WPrivate => 1 | WPublic => 2 | WProtected => 3 | WStatic => 4
             | WAbstract => 5 | WFinal => 6 | WVar => 7 | WConst => 8 end.
Definition has (k : Word) (l : list Word) : bool := existsb (fun x => Nat.eqb (wordNum k) (wordNum x)) l.

Record Filters := { f_show : bool; f_static : bool; f_nonStatic : bool; f_public : bool }.

(** completion/context.cpp 1186-1250: the keywords that are offered (in order) and the flags. *)
Definition keywordsFor (cm : ClassMod) (mods : list Word) : list Word * Filters :=
  let addK := negb (has WFunction mods) in
  let '(k1, show1) :=
    match cm with
    | ModAbstract => if has WAbstract mods then ([], false) else (if addK then [WAbstract] else [], true)
    | _ => (if addK && negb (has WFinal mods) then [WFinal] else [], true)
    end in
  let '(k2, show2, fpub) :=
    if has WPrivate mods then ([], false, false)
    else if has WProtected mods then ([], show1, true)
    else if addK && negb (has WPublic mods) then ([WPublic; WProtected; WPrivate], show1, false)
    else ([], show1, false) in
  let '(k3, fstat, fnon) :=
    if has WStatic mods then ([], false, true)
    else if addK then ([WStatic], false, false) else ([], true, false) in
  let k4 := if addK then [WFunction] else [] in
  let k5 := match mods with [] => [WVar; WConst] | _ => [] end in
  (k1 ++ k2 ++ k3 ++ k4 ++ k5,
   {| f_show := show2; f_static := fstat; f_nonStatic := fnon; f_public := fpub |}).

Inductive Helper := OverrideVar | Implement | Override.

(** completion/context.cpp 1310-1318 *)
Definition helperOf (m : Member) : Helper :=
  if negb (m_isFunction m) then OverrideVar else if m_abstract m then Implement else Override.

(** completion/context.cpp 1263-1327: the loop over all declarations of the class context
    with their inheritance depth. *)
Fixpoint overrides (pub : nat -> nat -> bool) (cur : nat) (f : Filters) (l : list (Member * nat)) (impl : list nat)
  : list (Member * Helper) :=
  match l with
  | [] => []
  | (m, depth) :: r =>
      if negb (m_isMember m) then overrides pub cur f r impl
      else if Nat.eqb depth 0 then overrides pub cur f r (m_name m :: impl)
      else if mem (m_name m) impl then overrides pub cur f r impl
      else if f_nonStatic f && negb (m_static m) then overrides pub cur f r impl
      else if f_static f && m_static m then overrides pub cur f r impl
      else match m_access m with
           | Private => overrides pub cur f r impl
           | a =>
               if f_public f && match a with Public => true | _ => false end
               then overrides pub cur f r (m_name m :: impl)
               else if m_isFunction m && m_final m then overrides pub cur f r (m_name m :: impl)
               else match m_owner m with
                    | None => overrides pub cur f r impl
                    | Some o => if pub cur o
                                then (m, helperOf m) :: overrides pub cur f r (m_name m :: impl)
                                else overrides pub cur f r impl
                    end
           end
  end.

(** completion/context.cpp 1184-1332: override completion in class [cur]. *)
Definition classMemberItems (w : World) (pub : nat -> nat -> bool) (cur : nat) (mods : list Word)
    (l : list (Member * nat)) : list Word * list (Member * Helper) :=
  match nth_error w cur with
  | None => ([], [])
  | Some c =>
      let '(ks, f) := keywordsFor (cd_mod c) mods in
      (ks, if f_show f && negb (match cd_bases c with [] => true | _ => false end)
           then overrides pub cur f l [] else [])
  end.
