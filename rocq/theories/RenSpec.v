(** Specification for C42. *)
From Verif Require Import Chars RenModel.
Local Open Scope Z_scope.

(** The uses of the contexts of a tree, a context before its children, children in order. *)
Inductive usesOf : Ctx -> list Use -> Prop :=
| uo_ctx uses children l : usesOfAll children l -> usesOf (mkCtx uses children) (uses ++ l)
with usesOfAll : list Ctx -> list Use -> Prop :=
| ua_nil : usesOfAll [] []
| ua_cons c l a b : usesOf c a -> usesOfAll l b -> usesOfAll (c :: l) (a ++ b).

(** [l] is the subsequence of the elements of [m] that satisfy [P]. *)
Inductive exactly {A} (P : A -> Prop) : list A -> list A -> Prop :=
| ex_nil : exactly P [] []
| ex_yes x m l : P x -> exactly P m l -> exactly P (x :: m) (x :: l)
| ex_no x m l : ~ P x -> exactly P m l -> exactly P (x :: m) l.

(** A use of declaration [idx] that is not empty. *)
Definition realUse (idx : Z) (u : Use) : Prop :=
  uDecl u = idx /\ (sLine (uRange u) <> eLine (uRange u) \/ sCol (uRange u) <> eCol (uRange u)).
(** The range to replace: without its first column exactly when it is one line and one longer than the name. *)
Definition replaced (name : qstring) (r r' : Range) : Prop :=
  (sLine r = eLine r /\ eCol r = sCol r + Z.of_nat (List.length name) + 1 ->
     r' = {| sLine := sLine r; sCol := sCol r + 1; eLine := eLine r; eCol := eCol r |}) /\
  (~ (sLine r = eLine r /\ eCol r = sCol r + Z.of_nat (List.length name) + 1) -> r' = r).

(** The text of a range within one line. *)
Definition textOf (line : qstring) (r : Range) : qstring :=
  firstn (Z.to_nat (eCol r - sCol r)) (skipn (Z.to_nat (sCol r)) line).
Definition within (line : qstring) (r : Range) : Prop :=
  sLine r = eLine r /\ 0 <= sCol r <= eCol r /\ eCol r <= Z.of_nat (List.length line).
(** Replacing a range within a line. *)
Definition edit (line : qstring) (r : Range) (new : qstring) : qstring :=
  firstn (Z.to_nat (sCol r)) line ++ new ++ skipn (Z.to_nat (eCol r)) line.
