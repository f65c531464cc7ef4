(** Rename (codegen/refactoring.cpp). *)
From Verif Require Import Chars.
Local Open Scope Z_scope.

Record Range := { sLine : Z; sCol : Z; eLine : Z; eCol : Z }.
Definition isEmpty (r : Range) : bool := (sLine r =? eLine r) && (sCol r =? eCol r).
(** Use (platform): m_declarationIndex, m_range. *)
Record Use := { uDecl : Z; uRange : Range }.
(** DUContext: its uses and child contexts, in order. *)
Inductive Ctx := mkCtx (uses : list Use) (children : list Ctx).
Definition ctxUses (c : Ctx) : list Use := match c with mkCtx u _ => u end.
Definition ctxChildren (c : Ctx) : list Ctx := match c with mkCtx _ l => l end.
(** DocumentChange: document, range, old text, new text. *)
Record Change := { chUrl : nat; chRange : Range; chOld : qstring; chNew : qstring }.

(** refactoring.cpp 97-113, both overloads. *)
Definition shouldRemoveDollar (r : Range) (name : qstring) : bool :=
  if negb (sLine r =? eLine r) then false
  else (eCol r - sCol r =? Z.of_nat (List.length name) + 1).
(** refactoring.cpp 50-53 and 83-90 *)
Definition withoutDollar (r : Range) (name : qstring) : Range :=
  if shouldRemoveDollar r name then {| sLine := sLine r; sCol := sCol r + 1; eLine := eLine r; eCol := eCol r |} else r.
Definition intMax : Z := 2147483647.

Section Rename.
(** DocumentChangeSet::addChange (platform): whether a change is accepted after those made. *)
Variable accept : list Change -> Change -> bool.
(** DUContext::url and transformFromLocalRevision (platform), for the contexts of one file. *)
Variables (url : nat) (transform : Range -> Range).
Variables oldName newName : qstring.

(** The changes made and whether all were accepted. *)
Definition addChange (changes : list Change) (c : Change) : list Change * bool :=
  if accept changes c then (changes ++ [c], true) else (changes, false).
(** refactoring.cpp 39-58: the loop over the uses of one context. *)
Fixpoint applyUses (changes : list Change) (uses : list Use) (idx : Z) : list Change * bool :=
  match uses with
  | [] => (changes, true)
  | u :: rest =>
      if negb (uDecl u =? idx) then applyUses changes rest idx
      else if isEmpty (uRange u) then applyUses changes rest idx
      else match addChange changes {| chUrl := url; chRange := transform (withoutDollar (uRange u) oldName);
                                      chOld := oldName; chNew := newName |} with
           | (changes', true) => applyUses changes' rest idx
           | (changes', false) => (changes', false)
           end
  end.
(** refactoring.cpp 28-68; [idx = intMax]: the declaration is not used. *)
Fixpoint applyChanges (changes : list Change) (c : Ctx) (idx : Z) {struct c} : list Change * bool :=
  if idx =? intMax then (changes, true)
  else match c with
       | mkCtx uses children =>
           match applyUses changes uses idx with
           | (changes1, false) => (changes1, false)
           | (changes1, true) =>
               (fix go (changes : list Change) (l : list Ctx) : list Change * bool :=
                  match l with
                  | [] => (changes, true)
                  | child :: rest =>
                      match applyChanges changes child idx with
                      | (changes', true) => go changes' rest
                      | (changes', false) => (changes', false)
                      end
                  end) changes1 children
           end
       end.
(** refactoring.cpp 70-95: declarations, as document and range; [None]: gone. *)
Fixpoint applyChangesToDeclarations (changes : list Change) (decls : list (option (nat * Range))) : list Change * bool :=
  match decls with
  | [] => (changes, true)
  | None :: rest => applyChangesToDeclarations changes rest
  | Some (u, r) :: rest =>
      match addChange changes {| chUrl := u; chRange := withoutDollar r oldName; chOld := oldName; chNew := newName |} with
      | (changes', true) => applyChangesToDeclarations changes' rest
      | (changes', false) => (changes', false)
      end
  end.
End Rename.
