(** Base classes: how they are recorded while class declarations are (re)built
    (duchain/builders/contextbuilder.cpp, predeclarationbuilder.cpp) and the walk up the parents
    made when a method is declared (duchain/builders/declarationbuilder.cpp). *)
From Coq Require Export List Arith Bool Lia Relations.
Export ListNotations.

(** ClassDeclarationData::ClassTypeEnum as set at predeclarationbuilder.cpp 45, 86, 116. *)
Inductive Kind := Class | Interface | Trait.

(** The part of the class declarations and class contexts these functions touch.
    [kind c = None]: no class declaration [c] can be resolved.  [imp c]: the contexts imported by
    the internal context of class [c]; [bas c]: its recorded base classes; [errs]: the reported
    circularities; [known]: classes declared so far (ghost, for the complexity bound).
    Simplified: a declaration and its internal context are one number, i.e. an indexed type
    resolves to the declaration it was taken from. *)
Record St := { kind : nat -> option Kind; imp : nat -> list nat; bas : nat -> list nat;
               errs : list (nat * nat); known : list nat; unresolved : bool }.

Definition init : St :=
  {| kind := fun _ => None; imp := fun _ => []; bas := fun _ => []; errs := []; known := []; unresolved := false |}.

Definition upd {A} (f : nat -> A) (c : nat) (v : A) : nat -> A := fun x => if Nat.eqb x c then v else f x.

(** DUContext::imports of the platform, as used at contextbuilder.cpp 443: reflexive and
    transitive.  (Platform code: modelled by this relation, not by its implementation.) *)
Definition importsCtx (s : St) : nat -> nat -> Prop := clos_refl_trans_1n nat (fun a b => In b (imp s a)).

(** What any interleaving of parse jobs does to the class declarations, one action per write
    lock. *)
Inductive Op :=
| Declare (c : nat) (k : Kind)      (* predeclarationbuilder.cpp 35-72, 76-103, 105-129 *)
| Reopen (c : nat)                  (* the class context is reopened: AbstractContextBuilder *)
| AddBase (report : bool) (c : nat) (b : option nat)   (* contextbuilder.cpp 429-459 *)
| Remove (c : nat).                 (* the declaration disappears *)

(** predeclarationbuilder.cpp 42-45, 83-86, 113-116: openDefinition, clearBaseClasses and
    setClassType. *)
Definition declare (s : St) (c : nat) (k : Kind) : St :=
  {| kind := upd (kind s) c (Some k); imp := imp s; bas := upd (bas s) c [];
     errs := errs s; known := c :: known s; unresolved := unresolved s |}.

(** AbstractContextBuilder::openContext of the platform clears the imports of a context it
    finds again.  It only happens in a builder pass that runs after [declare] emptied the base
    classes and before any [addBase], hence the condition in [step]. *)
Definition reopen (s : St) (c : nat) : St :=
  {| kind := kind s; imp := upd (imp s) c []; bas := bas s; errs := errs s; known := known s;
     unresolved := unresolved s |}.

(** contextbuilder.cpp 444-449: the import and the base class are added together. *)
Definition link (s : St) (c b : nat) : St :=
  {| kind := kind s; imp := upd (imp s) c (imp s c ++ [b]); bas := upd (bas s) c (bas s c ++ [b]);
     errs := errs s; known := known s; unresolved := unresolved s |}.

(** contextbuilder.cpp 450-452. *)
Definition refuse (s : St) (report : bool) (c b : nat) : St :=
  {| kind := kind s; imp := imp s; bas := bas s;
     errs := if report && match kind s b with Some Interface => false | _ => true end
             then (c, b) :: errs s else errs s;
     known := known s; unresolved := unresolved s |}.

(** contextbuilder.cpp 455-458. *)
Definition missing (s : St) : St :=
  {| kind := kind s; imp := imp s; bas := bas s; errs := errs s; known := known s; unresolved := true |}.

Definition remove (s : St) (c : nat) : St :=
  {| kind := upd (kind s) c None; imp := imp s; bas := bas s; errs := errs s; known := known s;
     unresolved := unresolved s |}.

(** contextbuilder.cpp 429-459 (addBaseType), and the other actions.  [AddBase] with [None], or
    with a name that is no class, is an unresolved identifier; with [Some b] the test at 443
    decides.  [kind s c <> None]: currentClass is a class declaration (441). *)
Inductive step : St -> Op -> St -> Prop :=
| st_declare s c k : step s (Declare c k) (declare s c k)
| st_reopen s c : bas s c = [] -> step s (Reopen c) (reopen s c)
| st_remove s c : step s (Remove c) (remove s c)
| st_missing s r c : step s (AddBase r c None) (missing s)
| st_missing2 s r c b : kind s b = None -> step s (AddBase r c (Some b)) (missing s)
| st_noclass s r c b : kind s b <> None -> kind s c = None -> step s (AddBase r c (Some b)) s
| st_link s r c b :
    kind s b <> None -> kind s c <> None ->
    ~ importsCtx s b c -> ~ importsCtx s c b ->
    step s (AddBase r c (Some b)) (link s c b)
| st_refuse s r c b :
    kind s b <> None -> kind s c <> None ->
    (importsCtx s b c \/ importsCtx s c b) ->
    step s (AddBase r c (Some b)) (refuse s r c b).

Inductive Run : list Op -> St -> Prop :=
| run_nil : Run [] init
| run_snoc h s o s' : Run h s -> step s o s' -> Run (h ++ [o]) s'.

(** ** isBaseMethodRedeclaration *)

(** A method declaration found in a base class: name, final, abstract, and whether the builder
    has encountered it in this pass (declarationbuilder.cpp 264-281). *)
Record Meth := { m_name : nat; m_isFun : bool; m_seen : bool; m_final : bool; m_abstract : bool }.

(** declarationbuilder.cpp 243-256: the first base that is a class of kind Class. *)
Fixpoint firstClass (s : St) (l : list nat) : option nat :=
  match l with
  | [] => None
  | b :: r => match kind s b with
              | Some Class => Some b
              | _ => firstClass s r
              end
  end.

(** declarationbuilder.cpp 264-281: the declarations of that name in one base class. *)
Definition clashes (ms : list Meth) (name : nat) (abs : bool) : bool :=
  existsb (fun m => Nat.eqb (m_name m) name && m_isFun m && m_seen m
                    && (m_final m || (m_abstract m && abs))) ms.

(** declarationbuilder.cpp 237-288: isBaseMethodRedeclaration.  [meths c = None]: the type has no
    internal context (261).  The result [None] of the model is a loop that has not ended within
    the fuel. *)
Fixpoint baseRedecl (fuel : nat) (s : St) (meths : nat -> option (list Meth)) (c : nat)
         (name : nat) (abs : bool) : option bool :=
  match bas s c with
  | [] => Some false
  | l => match firstClass s l with
         | None => Some false
         | Some p =>
             match fuel with
             | 0 => None
             | S fuel =>
                 match meths p with
                 | None => baseRedecl fuel s meths p name abs
                 | Some ms => if clashes ms name abs then Some true
                              else baseRedecl fuel s meths p name abs
                 end
             end
         end
  end.
