(** Modifiers of class members (parser/php.g, duchain/builders/declarationbuilder.cpp). *)
From Coq Require Export List Arith NArith Bool Lia Permutation.
Export ListNotations.
Open Scope N_scope.

(** The modifier keywords, parser/php.g 1165-1172. *)
Inductive Mod := Public | Protected | Private | Static | Abstract | Final.

(** enum ModifierFlags, parser/php.g 82-89. *)
Definition flag (m : Mod) : N :=
  match m with
  | Private => 1
  | Public => N.shiftl 1 1
  | Protected => N.shiftl 1 2
  | Static => N.shiftl 1 3
  | Final => N.shiftl 1 4
  | Abstract => N.shiftl 1 5
  end.

(** optionalModifiers, parser/php.g 1164-1176: the flags are or-ed together. *)
Definition modifiers (l : list Mod) : N := fold_left (fun acc m => N.lor acc (flag m)) l 0.

(** "modifiers & flag" as a condition. *)
Definition has (ms : N) (m : Mod) : bool := negb (N.land ms (flag m) =? 0).

(** ClassDeclarationData::ClassType / ClassModifier of the enclosing class. *)
Inductive ClassKind := Class | Interface | Trait.
Inductive ClassMod := CNone | CAbstract | CFinal.
(** Declaration::AccessPolicy *)
Inductive Access := APublic | AProtected | APrivate.

(** The flags of a ClassMemberDeclaration/ClassMethodDeclaration. *)
Record Flags := { access : Access; isStatic : bool; isAbstract : bool; isFinal : bool }.
(** A new declaration: public, nothing else set (platform defaults). *)
Definition fresh : Flags := {| access := APublic; isStatic := false; isAbstract := false; isFinal := false |}.

(** The errors of declarationbuilder.cpp 340-377, 391-402, 411-420. *)
Inductive Error :=
| InterfaceAccess | InterfaceBody | ClassNotAbstract | AbstractBody | FinalAbstract | NeedsBody
| ConstFinal | ConstStatic | ConstAbstract | PropFinal | PropAbstract.

Definition setAccess (d : Flags) (a : Access) : Flags :=
  {| access := a; isStatic := isStatic d; isAbstract := isAbstract d; isFinal := isFinal d |}.
Definition setStatic (d : Flags) : Flags :=
  {| access := access d; isStatic := true; isAbstract := isAbstract d; isFinal := isFinal d |}.
Definition setAbstract (d : Flags) : Flags :=
  {| access := access d; isStatic := isStatic d; isAbstract := true; isFinal := isFinal d |}.
Definition setFinal (d : Flags) : Flags :=
  {| access := access d; isStatic := isStatic d; isAbstract := isAbstract d; isFinal := true |}.

(** declarationbuilder.cpp 328-334 and 575-581. *)
Definition accessFrom (d : Flags) (ms : N) : Flags :=
  if has ms Public then setAccess d APublic
  else if has ms Protected then setAccess d AProtected
  else if has ms Private then setAccess d APrivate
  else d.

(** declarationbuilder.cpp 322-379: a method.  [d]: the declaration openDefinition returned, a
    new one or, when the file is parsed again, the one found at the same place; [empty]:
    isEmptyMethodBody (declarationbuilder.h 92-94); [report]: m_reportErrors. *)
Definition method (d : Flags) (k : ClassKind) (cm : ClassMod) (report : bool) (ms : N) (empty : bool)
  : Flags * list Error :=
  let d := accessFrom d ms in
  let d := if has ms Static then setStatic d else d in
  match k with
  | Interface =>
      (setAbstract d,
       if report then
         (if has ms Final || has ms Abstract then [InterfaceAccess] else []) ++
         (if negb empty then [InterfaceBody] else [])
       else [])
  | _ =>
      let '(d, e) :=
        if has ms Abstract then
          if negb report then (setAbstract d, [])
          else if negb (match cm with CAbstract => true | _ => false end)
                  && negb (match k with Trait => true | _ => false end) then (d, [ClassNotAbstract])
          else if negb empty then (d, [AbstractBody])
          else if has ms Final then (d, [FinalAbstract])
          else (setAbstract d, [])
        else if has ms Final then (setFinal d, [])
        else (d, []) in
      (d, e ++ (if report && negb (isAbstract d) && empty then [NeedsBody] else []))
  end.

(** declarationbuilder.cpp 562-588 (openClassMemberDeclaration) for a property; 409-425 for the
    errors. *)
Definition property (d : Flags) (report : bool) (ms : N) : Flags * list Error :=
  let d := accessFrom d ms in
  let d := if has ms Static then setStatic d else d in
  (d, if report then (if has ms Final then [PropFinal] else []) ++
                     (if has ms Abstract then [PropAbstract] else [])
      else []).

(** declarationbuilder.cpp 675-684 (visitClassConstantDeclaration); 388-404 for the errors. *)
Definition classConst (d : Flags) (report : bool) (ms : N) : Flags * list Error :=
  let d := if has ms Protected then setAccess d AProtected
           else if has ms Private then setAccess d APrivate
           else setAccess d APublic in
  (setStatic d,
   if report then (if has ms Final then [ConstFinal] else []) ++
                  (if has ms Static then [ConstStatic] else []) ++
                  (if has ms Abstract then [ConstAbstract] else [])
   else []).
