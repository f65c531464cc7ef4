(** Completing the file name of an include: which files are offered, and what choosing one puts into the document. *)
From Coq Require Import List Bool Arith NArith String.
From Verif Require Import Chars.
Import ListNotations.
Open Scope nat_scope.

(** ** What is put into the document: completion/includefileitem.cpp 18-85 *)
Section Item.
Variable cc : CharClass.

(** At the start of a text, case does not matter (Qt::CaseInsensitive); the text behind it. *)
Fixpoint afterCI (p s : qstring) : option qstring :=
  match p, s with
  | [], _ => Some s
  | a :: p', b :: s' => if N.eqb (foldCase cc a) (foldCase cc b) then afterCI p' s' else None
  | _ :: _, [] => None
  end.
(** \s*, what it takes and the text behind it *)
Fixpoint spaces (s : qstring) : qstring := match s with c :: r => if isSpace cc c then c :: spaces r else [] | [] => [] end.
Fixpoint dropSpaces (s : qstring) : qstring := match s with c :: r => if isSpace cc c then dropSpaces r else s | [] => [] end.
Definition cQUOTE : N := 39%N.
Definition cDQUOTE : N := 34%N.
Definition after1 (c : N) (s : qstring) : option qstring := match s with d :: r => if N.eqb c d then Some r else None | [] => None end.

(** (?:dirname\s*\(\s*__FILE__\s*\)\s*\.\s* )?  Without a match nothing is taken. *)
Definition dirnamePart (s0 : qstring) : qstring :=
  match afterCI (str "dirname") s0 with
  | Some s => match after1 40 (dropSpaces s) with
    | Some s => match afterCI (str "__FILE__") (dropSpaces s) with
      | Some s => match after1 41 (dropSpaces s) with
        | Some s => match after1 46 (dropSpaces s) with
          | Some s => dropSpaces s
          | None => s0 end
        | None => s0 end
      | None => s0 end
    | None => s0 end
  | None => s0
  end.
(** 36: (?:include|require)(?:_once)?(\s* )(\(?)(\s* )(?:dirname..)? and a quote, at the start of [s]: is there a
    parenthesis (capture 2), the blanks behind it (3), the quote (4).  No part can match in two ways, so nothing is gained
    by backtracking. *)
Definition matchAt (s : qstring) : option (bool * qstring * N) :=
  match (match afterCI (str "include") s with Some r => Some r | None => afterCI (str "require") s end) with
  | None => None
  | Some r =>
      let r := dropSpaces (match afterCI (str "_once") r with Some r' => r' | None => r end) in
      let '(par, r) := match after1 40 r with Some r' => (true, r') | None => (false, r) end in
      match dirnamePart (dropSpaces r) with
      | q :: _ => if (N.eqb q cQUOTE || N.eqb q cDQUOTE)%bool then Some (par, if par then spaces r else [], q) else None
      | [] => None
      end
  end.
(** QRegExp::lastIndexIn: the last place where it matches *)
Fixpoint lastMatch (s : qstring) : option (bool * qstring * N) :=
  match s with
  | [] => None
  | _ :: r => match lastMatch r with Some x => Some x | None => matchAt s end
  end.

(** An item: name, directory or file. *)
Record item := { iname : qstring; idir : bool }.
(** 23-48 *)
Definition closing (before : qstring) : qstring :=
  match lastMatch before with
  | Some (par, blanks, q) => q :: (if par then blanks ++ [41%N] else []) ++ [59%N]
  | None => []
  end.
Definition newText (before : qstring) (i : item) : qstring := iname i ++ (if idir i then [47%N] else []) ++ closing before.

(** 62-71: behind the quote, the position behind the semicolon, or that of the quote's end *)
Fixpoint semicolon (s : qstring) (i pos : nat) : nat :=
  match s with
  | [] => pos
  | c :: r => if N.eqb c 59 then S i else if (negb (isSpace cc c) && negb (N.eqb c 41))%bool then pos else semicolon r (S i) pos
  end.
(** 55-74; without a match closeChar is the null character *)
Fixpoint removed (close : N) (s : qstring) (pos : nat) : nat :=
  match s with
  | [] => pos
  | c :: r => if isSpace cc c then pos else if N.eqb c close then semicolon r (S pos) (S pos) else removed close r (S pos)
  end.
Fixpoint lineLength (s : qstring) : nat := match s with c :: r => if N.eqb c 10 then 0 else S (lineLength r) | [] => 0 end.
(** The text of the document after it: [before] the word and [after] it are the text around, the word is in one line.
    The removed characters are counted in columns from the end of the word (76), so the removal stops at the end of the
    line (KTextEditor::Document::replaceText, platform). *)
Definition execute (before after : qstring) (i : item) : qstring :=
  let close := match lastMatch before with Some (_, _, q) => q | None => 0%N end in
  before ++ newText before i ++ skipn (Nat.min (removed close after 0) (lineLength after)) after.
(** 80-84: where the cursor is put for a directory, as an offset in the text: by the column of the start of the word *)
Definition cursorAfter (before : qstring) (i : item) : nat := List.length before + List.length (iname i) + 1.
End Item.

(** ** What is offered: completion/context.cpp 1101-1179 *)
(** A path of segments; KDevelop::Path (platform) resolves . and .. *)
Fixpoint splitPath (s cur : qstring) : list qstring :=
  match s with
  | [] => match cur with [] => [] | _ => [cur] end
  | c :: r => if N.eqb c 47 then match cur with [] => splitPath r [] | _ => cur :: splitPath r [] end else splitPath r (cur ++ [c])
  end.
Definition clean1 (acc : list qstring) (s : qstring) : list qstring :=
  if eqs s (str "..") then removelast acc else if eqs s (str ".") then acc else acc ++ [s].
Definition cleanPath (l : list qstring) : list qstring := fold_left clean1 l [].
Definition absolute (s : qstring) : bool := match s with c :: _ => N.eqb c 47 | [] => false end.
Definition endsSlash (s : qstring) : bool := match rev s with c :: _ => N.eqb c 47 | [] => false end.
(** Path(base, child) *)
Definition path (base : list qstring) (child : qstring) : list qstring :=
  if absolute child then cleanPath (splitPath child []) else cleanPath (base ++ splitPath child []).
Definition parent (p : list qstring) : list qstring := removelast p.

(** A folder of the project: its files and folders by name, and whether it is in a folder. *)
Record folder := { files : list qstring; folders : list qstring; inFolder : bool }.
(** 1107-1127: [dir]: the folder of the current document, [afterDir]: behind dirname(__FILE__) . or __DIR__ . *)
Definition base (dir : list qstring) (afterDir : bool) (expr : qstring) : list qstring :=
  if negb afterDir then
    let p := path dir expr in
    match expr with [] => p | _ => if endsSlash expr then p else parent p end
  else
    let p := if absolute expr then path dir (tl expr) else dir in
    match expr with [] => p | _ => if endsSlash expr then p else parent p end.
Definition memq (x : qstring) (l : list qstring) : bool := existsb (eqs x) l.
(** One folder 1137-1170: [added] the names offered so far *)
Definition prepend (afterDir : bool) (expr s : qstring) : qstring := if (afterDir && negb (absolute expr))%bool then 47%N :: s else s.
Fixpoint offer (pre : qstring -> qstring) (isDir : bool) (l added : list qstring) : list item * list qstring :=
  match l with
  | [] => ([], added)
  | n :: r => if memq n added then offer pre isDir r added
              else let '(is, a) := offer pre isDir r (added ++ [n]) in ({| iname := pre n; idir := isDir |} :: is, a)
  end.
(** 1132-1179: [None]: an item that is no folder ends the list *)
Fixpoint listing (pre : qstring -> qstring) (expr : qstring) (l : list (option folder)) (added : list qstring) : list item :=
  match l with
  | [] | None :: _ => []
  | Some f :: r =>
      let '(a, added1) := offer pre false (files f) added in
      let '(b, added2) := offer pre true (folders f) added1 in
      a ++ b ++ (if (negb (inFolder f) && match expr with [] => true | _ => false end)%bool then [{| iname := str ".."; idir := true |}] else [])
        ++ listing pre expr r added2
  end.
(** [at_]: ProjectModel::itemsForPath (platform) *)
Definition offered (at_ : list qstring -> list (option folder)) (dir : list qstring) (afterDir : bool) (expr : qstring) : list item :=
  listing (prepend afterDir expr) expr (at_ (base dir afterDir expr)) [].
