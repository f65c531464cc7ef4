(** Doc comments: duchain/builders/typebuilder.cpp 145-205 (findInDocComment). *)
From Verif Require Export Chars.
Open Scope nat_scope.

(** Outcome of a loop: finished, read outside the string, or out of fuel. *)
Inductive Res (A : Type) := Ret (a : A) | OutOfRange | OutOfFuel.
Arguments Ret {A} a. Arguments OutOfRange {A}. Arguments OutOfFuel {A}.

(** QStringView::operator[]; [None] is an out-of-range access. *)
Definition at_ (d : qstring) (i : nat) : option N := nth_error d i.
(** QStringView::mid(pos, n) for 0 <= pos <= size *)
Definition mid (d : qstring) (pos n : nat) : qstring := firstn n (skipn pos d).
(** QStringView::indexOf(c, from); [None] is -1. *)
Fixpoint indexFrom (c : N) (d : qstring) (base : nat) : option nat :=
  match d with
  | [] => None
  | x :: t => if N.eqb x c then Some base else indexFrom c t (S base)
  end.
Definition indexOf (d : qstring) (c : N) (from : nat) : option nat := indexFrom c (skipn from d) from.

Section Doc.
Variable cc : CharClass.

(** The inner while loops, typebuilder.cpp 179-181 and 184-186: advance while in range and the
    character is (not) a space. *)
Fixpoint whileSpace (fuel : nat) (want : bool) (d : qstring) (i : nat) : Res nat :=
  match fuel with
  | O => OutOfFuel
  | S fuel' =>
      if Nat.ltb i (List.length d) then
        match at_ d i with
        | None => OutOfRange
        | Some c => if Bool.eqb (isSpace cc c) want then whileSpace fuel' want d (S i) else Ret i
        end
      else Ret i
  end.

(** findInDocComment, typebuilder.cpp 145-205; [i] is the loop variable at the test i < size. *)
Fixpoint findLoop (fuel : nat) (d name : qstring) (onlyOne : bool) (i : nat) (matches : list qstring) : Res (list qstring) :=
  match fuel with
  | O => OutOfFuel
  | S fuel' =>
      let size := List.length d in
      (* lines 196-201: skip to next line *)
      let nextLine (j : nat) (ms : list qstring) :=
        match indexOf d cNL j with
        | None => Ret ms
        | Some k => findLoop fuel' d name onlyOne (S k) ms
        end in
      if negb (Nat.ltb i size) then Ret matches
      else match at_ d i with
      | None => OutOfRange
      | Some c =>
        if isSpace cc c || N.eqb c cSTAR || N.eqb c cSLASH then findLoop fuel' d name onlyOne (S i) matches
        else if N.eqb c cAT && eqs (mid d (i + 1) (List.length name)) name then
          let i1 := i + (List.length name + 1) in
          if negb (Nat.ltb i1 size) then nextLine i1 matches
          else match at_ d i1 with
          | None => OutOfRange
          | Some ch =>
            if negb (isSpace cc ch) then nextLine i1 matches
            else if N.eqb ch cNL then findLoop fuel' d name onlyOne (S i1) matches
            else match whileSpace (S (List.length d)) true d (S i1) with
            | OutOfRange => OutOfRange
            | OutOfFuel => OutOfFuel
            | Ret i2 =>
              match whileSpace (S (List.length d)) false d i2 with
              | OutOfRange => OutOfRange
              | OutOfFuel => OutOfFuel
              | Ret pos =>
                if Nat.ltb i2 pos then
                  let ms := matches ++ [mid d i2 (pos - i2)] in
                  if onlyOne then Ret ms else nextLine pos ms
                else nextLine i2 matches
              end
            end
          end
        else nextLine i matches
      end
  end.
Definition findInDocComment (d name : qstring) (onlyOne : bool) : Res (list qstring) :=
  findLoop (S (List.length d)) d name onlyOne 0 [].
End Doc.
