(** C24: what a doc comment says, line by line. *)
From Verif Require Export DocModel.
Open Scope nat_scope.

Fixpoint lines (s : qstring) : list qstring :=
  match s with
  | [] => [[]]
  | c :: t => if N.eqb c cNL then [] :: lines t
              else match lines t with l :: ls => (c :: l) :: ls | [] => [[c]] end
  end.
Fixpoint dropWhile (p : N -> bool) (s : qstring) : qstring :=
  match s with [] => [] | c :: t => if p c then dropWhile p t else s end.
Fixpoint takeWhile (p : N -> bool) (s : qstring) : qstring :=
  match s with [] => [] | c :: t => if p c then c :: takeWhile p t else [] end.

Section S.
Variable cc : CharClass.
(** Blanks and comment markers in front of the text of a line. *)
Definition lead (c : N) : bool := isSpace cc c || N.eqb c cSTAR || N.eqb c cSLASH.
(** The text of the line after [@name], if the line starts with it. *)
Definition afterTag (name line : qstring) : option qstring :=
  let r := dropWhile lead line in
  if startsWith (cAT :: name) r then Some (skipn (S (List.length name)) r) else None.
(** The word a line gives for the tag: [@name], at least one blank, then the word. *)
Definition lineValue (name line : qstring) : option qstring :=
  match afterTag name line with
  | Some (c :: t) =>
      if isSpace cc c then
        match takeWhile (fun x => negb (isSpace cc x)) (dropWhile (isSpace cc) t) with [] => None | w => Some w end
      else None
  | _ => None
  end.
Definition values (name : qstring) (ls : list qstring) : list qstring :=
  flat_map (fun l => match lineValue name l with Some w => [w] | None => [] end) ls.

(** A line with the tag and nothing but blanks after it. *)
Definition blankTag (name line : qstring) : Prop :=
  exists r, afterTag name line = Some r /\ r <> [] /\ Forall (fun c => isSpace cc c = true) r.
(** ... that is not the last line. *)
Definition noBlankTag (name : qstring) (d : qstring) : Prop :=
  Forall (fun l => ~ blankTag name l) (removelast (lines d)).
End S.
