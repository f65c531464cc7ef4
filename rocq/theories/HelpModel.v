(** completion/helpers.cpp, completion/keyworditem.cpp: modifiers before the cursor, keyword
    templates, argument lists. *)
From Verif Require Export Chars ClsModel.
From Verif Require Import ComplModel.
Open Scope nat_scope.

(** ** getMethodTokens *)
(** completion/helpers.cpp 142, 147-152: the words looked for. *)
Definition wordText (k : Word) : qstring :=
  match k with
  | WFunction => str "function" | WPrivate => str "private" | WPublic => str "public"
  | WProtected => str "protected" | WStatic => str "static" | WAbstract => str "abstract"
  | WFinal => str "final" | WVar => str "var" | WConst => str "const"
  end.
Definition possibleTokens : list Word := [WPrivate; WPublic; WProtected; WStatic; WAbstract; WFinal].

(** QString::endsWith(s, Qt::CaseInsensitive) *)
Definition endsWithCI (cc : CharClass) (text w : qstring) : bool :=
  Nat.leb (List.length w) (List.length text) &&
  eqs (map (foldCase cc) (skipn (List.length text - List.length w) text)) (map (foldCase cc) w).
(** text.left(text.length() - n) *)
Definition chop (text : qstring) (n : nat) : qstring := firstn (List.length text - n) text.
(** QStringList::removeOne for a list without repetitions *)
Definition removeWord (k : Word) (l : list Word) : list Word :=
  filter (fun x => negb (Nat.eqb (wordNum k) (wordNum x))) l.

(** completion/helpers.cpp 154-171: the loop; every round but the last removes one possible
    token, so the list itself bounds it: [fuel] is its length. *)
Fixpoint modifierLoop (cc : CharClass) (fuel : nat) (text : qstring) (possible : list Word) : list Word :=
  match fuel with
  | 0 => []
  | S fuel =>
      let text := trimmed cc text in
      match find (fun k => endsWithCI cc text (wordText k)) possible with
      | Some k => k :: modifierLoop cc fuel (chop text (List.length (wordText k))) (removeWord k possible)
      | None => []
      end
  end.

(** completion/helpers.cpp 136-174: getMethodTokens. *)
Definition getMethodTokens (cc : CharClass) (text : qstring) : list Word :=
  let text := trimmed cc text in
  if endsWithCI cc text (wordText WFunction)
  then WFunction :: modifierLoop cc 6 (chop text 8) possibleTokens
  else modifierLoop cc 6 text possibleTokens.

(** ** KeywordItem::execute *)
Fixpoint isPrefix (p s : qstring) : bool :=
  match p, s with
  | [], _ => true
  | a :: p', b :: s' => N.eqb a b && isPrefix p' s'
  | _ :: _, [] => false
  end.
(** QString::indexOf *)
Fixpoint indexFrom (pat s : qstring) (i : nat) : option nat :=
  if isPrefix pat s then Some i
  else match s with [] => None | _ :: r => indexFrom pat r (S i) end.
(** QString::replace of a non-empty [pat]: left to right, not overlapping; [skip] characters of
    the last match are still to be dropped. *)
Fixpoint replaceAll (pat by_ s : qstring) (skip : nat) : qstring :=
  match s with
  | [] => []
  | c :: r =>
      match skip with
      | S k => replaceAll pat by_ r k
      | 0 => if isPrefix pat s then by_ ++ replaceAll pat by_ r (List.length pat - 1)
             else c :: replaceAll pat by_ r 0
      end
  end.
(** QString::remove *)
Definition removeAll (pat s : qstring) : qstring := replaceAll pat [] s 0.

(** completion/helpers.cpp 190-196: getIndentation. *)
Fixpoint getIndentation (cc : CharClass) (line : qstring) : qstring :=
  match line with c :: r => if isSpace cc c then c :: getIndentation cc r else [] | [] => [] end.

(** completion/helpers.cpp 176-188: indentString; [cfg] is the indent width when tabs are
    replaced ([Some None]: not configured). *)
Definition indentString (cfg : option (option nat)) : qstring :=
  match cfg with
  | Some (Some n) => repeat cSP n
  | Some None => str "    "
  | None => [cTAB]
  end.

(** A text and a position in it: the document and the cursor. *)
Record Cursor := { k_line : nat; k_col : nat }.
Definition countNl (s : qstring) : nat := List.length (filter (N.eqb cNL) s).
(** length - lastIndexOf('\n') - 1 *)
Fixpoint tailLen (s : qstring) (n : nat) : nat :=
  match s with [] => n | c :: r => tailLen r (if N.eqb c cNL then 0 else S n) end.

Record Executed := { x_text : qstring; x_cursor : option Cursor; x_selection : option Cursor }.

(** completion/keyworditem.cpp 53-103: KeywordItem::execute: the text put in place of the word
    that starts at [start] (in a line [line]), the new cursor position and the end of the
    selection. *)
Definition execute (cc : CharClass) (cfg : option (option nat)) (line : qstring) (start : Cursor)
    (keyword template : qstring) : Executed :=
  match template with
  | [] => {| x_text := keyword ++ [cSP]; x_cursor := None; x_selection := None |}
  | _ =>
      let r := replaceAll [cNL] (cNL :: getIndentation cc line) template 0 in
      let r := replaceAll (str "%INDENT%") (indentString cfg) r 0 in
      let '(r, pos, selEnd) :=
        match indexFrom (str "%CURSOR%") r 0 with
        | Some p => (removeAll (str "%CURSOR%") r, Some p, None)
        | None =>
            match indexFrom (str "%SELECT%") r 0 with
            | Some p =>
                let r := removeAll (str "%SELECT%") r in
                let e := match indexFrom (str "%ENDSELECT%") (skipn (S p) r) (S p) with
                         | Some e => e | None => List.length r end in
                (removeAll (str "%ENDSELECT%") r, Some p, Some e)
            | None => (r, None, None)
            end
        end in
      match pos with
      | None => {| x_text := r; x_cursor := None; x_selection := None |}
      | Some p =>
          let before := firstn p r in
          let c := {| k_line := k_line start + countNl before; k_col := k_col start + tailLen before 0 |} in
          {| x_text := r; x_cursor := Some c;
             x_selection := match selEnd with
                            | Some e => Some {| k_line := k_line c; k_col := k_col c + e - p |}
                            | None => None
                            end |}
      end
  end.

(** ** createArgumentList *)
Inductive Format := Normal | Matched.
Definition Segment := (nat * nat * Format)%type.
(** A parameter: its name, the text of its type when one is shown (71-81), without the
    blank. *)
Record Param := { p_name : qstring; p_type : option qstring }.

(** completion/helpers.cpp 52-119: the loop over the parameters.  [None]: the default value
    list is read past its end. *)
Fixpoint argLoop (ps : list Param) (num : nat) (firstDefault : Z) (defaults : list qstring) (dnum : nat)
    (ret : qstring) (hl : list Segment) (fstart : nat) : option (qstring * list Segment * nat) :=
  match ps with
  | [] => Some (ret, hl, fstart)
  | p :: r =>
      let ret := if Nat.eqb num 0 then ret else ret ++ str ", " in
      let '(hl, fstart) := if Nat.eqb (List.length ret) fstart then (hl, fstart)
                           else (hl ++ [(fstart, List.length ret - fstart, Normal)], List.length ret) in
      let ret := match p_type p with Some t => ret ++ t ++ [cSP] | None => ret end in
      let ret := ret ++ cDOLLAR :: p_name p in
      let '(hl, fstart) := if Nat.eqb (List.length ret) fstart then (hl, fstart)
                           else (hl ++ [(fstart, List.length ret - fstart, Matched)], List.length ret) in
      if (firstDefault <=? Z.of_nat num)%Z then
        match nth_error defaults dnum with
        | None => None
        | Some d =>
            let ret := match d with [] => ret | _ => ret ++ str " = " ++ d end in
            argLoop r (S num) firstDefault defaults (S dnum) ret hl fstart
        end
      else argLoop r (S num) firstDefault defaults dnum ret hl fstart
  end.

(** completion/helpers.cpp 31-134: createArgumentList of a function declaration. *)
Definition createArgumentList (ps : list Param) (defaults : list qstring) : option (qstring * list Segment) :=
  let firstDefault := (Z.of_nat (List.length ps) - Z.of_nat (List.length defaults))%Z in
  match argLoop ps 0 firstDefault defaults 0 (str "(") [] 0 with
  | None => None
  | Some (ret, hl, fstart) =>
      let ret := ret ++ str ")" in
      Some (ret, if Nat.eqb (List.length ret) fstart then hl
                 else hl ++ [(fstart, List.length ret, Normal)])
  end.

(** completion/context.cpp 1596-1649: the keywords offered outside member access that have a
    template; line ends are written as ~ here. *)
Definition nl (s : qstring) : qstring := map (fun c => if N.eqb c 126 then cNL else c) s.
Definition builtinTemplates : list (qstring * qstring) :=
  [(str "abstract class", nl (str "abstract class %SELECT%NAME%ENDSELECT% {~%INDENT%~}~"));
   (str "final class", nl (str "final class %SELECT%NAME%ENDSELECT% {~%INDENT%~}~"));
   (str "class", nl (str "class %SELECT%NAME%ENDSELECT% {~%INDENT%~}~"));
   (str "interface", nl (str "interface %SELECT%NAME%ENDSELECT% {~%INDENT%~}~"));
   (str "array", nl (str "array(~%INDENT%%CURSOR%~)"));
   (str "break", nl (str "break;~"));
   (str "case", nl (str "case %SELECT%CASE%ENDSELECT%:~%INDENT%~%INDENT%break;~"));
   (str "throw", nl (str "throw %CURSOR%;~"));
   (str "try", nl (str "try {~%INDENT%%CURSOR%~} catch() {~$%INDENT%~}~"));
   (str "catch", nl (str "catch(%CURSOR%) {~%INDENT%~}~"));
   (str "clone", nl (str "clone %CURSOR%;~"));
   (str "continue", nl (str "continue;~"));
   (str "declare", nl (str "declare(%CURSOR%);~"));
   (str "default", nl (str "default:~%INDENT%%CURSOR%~%INDENT%break;~"));
   (str "do", nl (str "do {~%INDENT%%CURSOR%~} while();~"));
   (str "echo", nl (str "echo %CURSOR%;~"));
   (str "else", nl (str "else {~%INDENT%%CURSOR%~}~"));
   (str "elseif", nl (str "elseif (%CURSOR%) {~%INDENT%~}~"));
   (str "endif", nl (str "endif;"));
   (str "endforeach", nl (str "endforeach;"));
   (str "endswitch", nl (str "endswitch;"));
   (str "endwhile", nl (str "endwhile;"));
   (str "endfor", nl (str "endfor;"));
   (str "enddeclare", nl (str "enddeclare;"));
   (str "empty", nl (str "empty(%CURSOR%)"));
   (str "eval", nl (str "eval(%CURSOR%)"));
   (str "die", nl (str "die(%CURSOR%);~"));
   (str "exit", nl (str "exit(%CURSOR%);~"));
   (str "for", nl (str "for(%CURSOR%;;) {~%INDENT%~}~"));
   (str "foreach", nl (str "foreach(%CURSOR%) {~%INDENT%~}~"));
   (str "function", nl (str "function %SELECT%NAME%ENDSELECT%() {~%INDENT%~}~"));
   (str "global", nl (str "global $%CURSOR%;"));
   (str "if", nl (str "if (%CURSOR%) {~%INDENT%~}~"));
   (str "include", nl (str "include '%CURSOR%';~"));
   (str "include_once", nl (str "include_once '%CURSOR%';~"));
   (str "require", nl (str "require '%CURSOR%';~"));
   (str "require_once", nl (str "require_once '%CURSOR%';~"));
   (str "isset", nl (str "isset(%CURSOR%)"));
   (str "list", nl (str "list(%CURSOR%)"));
   (str "print", nl (str "print %CURSOR%;~"));
   (str "return", nl (str "return %CURSOR%;~"));
   (str "static", nl (str "static $%CURSOR%%;~"));
   (str "unset", nl (str "unset(%CURSOR%);~"));
   (str "while", nl (str "while (%CURSOR%) {~%INDENT%~}~"));
   (str "switch", nl (str "switch (%CURSOR%) {~%INDENT%~}~"))].
