(** completion/implementationitem.cpp: what choosing a member to override puts into the document. *)
From Verif Require Export HelpModel.
Open Scope nat_scope.

(** ** The editor's document: its text, with a line end behind every line but the last *)
Definition origin : Cursor := {| k_line := 0; k_col := 0 |}.
(** How many characters the first [n] lines have, line ends included. *)
Fixpoint linesLen (n : nat) (doc : qstring) : nat :=
  match n with
  | 0 => 0
  | S m => (fix go (s : qstring) : nat :=
              match s with [] => 0 | c :: r => if N.eqb c cNL then S (linesLen m r) else S (go r) end) doc
  end.
(** The place of a cursor in the text; KTextEditor addresses text by line and column. *)
Definition offset (doc : qstring) (k : Cursor) : nat := linesLen (k_line k) doc + k_col k.
(** Document::text of the range from the start to [k] *)
Definition textBefore (doc : qstring) (k : Cursor) : qstring := firstn (offset doc k) doc.
Fixpoint firstLine (s : qstring) : qstring :=
  match s with [] => [] | c :: r => if N.eqb c cNL then [] else c :: firstLine r end.
(** Document::line *)
Definition lineAt (doc : qstring) (n : nat) : qstring := firstLine (skipn (linesLen n doc) doc).
(** Document::replaceText *)
Definition replaceText (doc : qstring) (a b : Cursor) (s : qstring) : qstring :=
  firstn (offset doc a) doc ++ s ++ skipn (offset doc b) doc.

(** QString::lastIndexOf(pat, -1, Qt::CaseInsensitive) *)
Fixpoint isPrefixCI (cc : CharClass) (p s : qstring) : bool :=
  match p, s with
  | [], _ => true
  | a :: p', b :: s' => N.eqb (foldCase cc a) (foldCase cc b) && isPrefixCI cc p' s'
  | _ :: _, [] => false
  end.
Fixpoint lastIndexCI (cc : CharClass) (pat s : qstring) : option nat :=
  match s with
  | [] => None
  | _ :: r => match lastIndexCI cc pat r with
              | Some i => Some (S i)
              | None => if isPrefixCI cc pat s then Some 0 else None
              end
  end.

(** The declaration to override. *)
Record Target := {
  t_member : Member;            (* kind, access, static, final, abstract, owner *)
  t_identifier : qstring;       (* Declaration::identifier *)
  t_pretty : option qstring;    (* prettyName, of a ClassMethodDeclaration *)
  t_special : bool;             (* isConstructor() || isDestructor() *)
  t_interface : bool;           (* the owner is an interface *)
  t_void : bool;                (* the return type is void *)
  t_params : list Param;        (* the declarations of the argument context *)
  t_defaults : list qstring }.

(** What KTextEditor::Range::start() gives: the range's own cursor (KDE 4), or a copy of it (KDE
    Frameworks; the header is not part of this repository). *)
Inductive StartIs := TheCursor | ACopy.
(** implementationitem.cpp 101-107: where the replaced text starts: at the word, or at the
    first modifier before it; line 105 assigns to start(), so with a copy nothing changes.
    [left] of a negative number is the whole text. *)
Definition replaceStart (cc : CharClass) (api : StartIs) (doc : qstring) (start : Cursor) (modifiers : list Word) : Cursor :=
  match api, rev modifiers with
  | ACopy, _ | _, [] => start
  | TheCursor, k :: _ =>
      let methodText := textBefore doc start in
      let methodText := match lastIndexCI cc (wordText k) methodText with
                        | Some i => firstn i methodText
                        | None => methodText
                        end in
      {| k_line := countNl methodText; k_col := tailLen methodText 0 |}
  end.

(** implementationitem.cpp 109-127: the indentation, and what is put in front. *)
Definition lead (cc : CharClass) (currentLine : qstring) : qstring * qstring :=
  let indentation := getIndentation cc currentLine in
  let repl := match currentLine with
              | [] => []
              | _ => if eqs currentLine indentation then [] else cNL :: indentation
              end in
  match indentation with
  | [] => (str "  ", repl ++ str "  ")
  | _ => (indentation, repl)
  end.

(** implementationitem.cpp 154-165, 172-184, 203-207: the modifiers written; those found come
    last one first. *)
Definition wordsWritten (t : Target) (h : Helper) (modifiers : list Word) : list Word :=
  let m := t_member t in
  rev modifiers ++
  (if m_isMember m then
     (if negb (has WPublic modifiers) && negb (has WProtected modifiers)
      then [match m_access m with Protected => WProtected | _ => WPublic end] else []) ++
     (if negb (has WStatic modifiers) && m_static m then [WStatic] else [])
   else []) ++
  match h with
  | OverrideVar => []
  | _ => if has WFunction modifiers then [] else [WFunction]
  end.
Definition joinWords (l : list Word) : qstring := flat_map (fun k => wordText k ++ [cSP]) l.

(** implementationitem.cpp 183, 185-188, 196-198 *)
Definition functionName (t : Target) : qstring :=
  match t_pretty t with
  | Some n => if m_isMember (t_member t) then n else t_identifier t
  | None => t_identifier t
  end.

(** implementationitem.cpp 217-231: the arguments of the call of the parent's method. *)
Fixpoint callArgs (ps : list Param) (first : bool) : qstring :=
  match ps with
  | [] => []
  | p :: r => (if first then [] else str ", ") ++ cDOLLAR :: p_name p ++ callArgs r false
  end.

(** implementationitem.cpp 90-255: ImplementationItem::execute on the word from [start] to [end_].
    QString::arg replaces all of %1, %2, %3 at once.  [None]: a default value is read past the end
    of the list. *)
Definition insertion (cc : CharClass) (currentLine : qstring) (t : Target) (h : Helper) (modifiers : list Word)
  : option qstring :=
  let '(ind, repl) := lead cc currentLine in
  let repl := repl ++ joinWords (wordsWritten t h modifiers) in
  let name := functionName t in
  match h with
  | OverrideVar => Some (repl ++ str "$" ++ name ++ str " = ")
  | _ =>
      match createArgumentList (t_params t) (t_defaults t) with
      | None => None
      | Some (args, _) =>
          let arguments := str "(" ++ callArgs (t_params t) true ++ str ")" in
          let special := m_isMember (t_member t) && match t_pretty t with Some _ => t_special t | None => false end in
          let open := cNL :: ind ++ str "{" ++ cNL :: ind ++ str "    " in
          let body :=
            if (m_isMember (t_member t) && t_interface t) || match h with Implement => true | _ => false end then []
            else if negb special && negb (t_void t)
            then str "$ret = parent::" ++ name ++ arguments ++ str ";" ++ cNL :: ind ++ str "    return $ret;"
            else str "parent::" ++ name ++ arguments ++ str ";" in
          let close := cNL :: ind ++ str "}" ++ cNL :: ind in
          Some (repl ++ name ++ args ++ open ++ body ++ close)
      end
  end.
Definition implement (cc : CharClass) (api : StartIs) (doc : qstring) (start end_ : Cursor) (t : Target) (h : Helper) : option qstring :=
  let modifiers := getMethodTokens cc (textBefore doc start) in
  let from := replaceStart cc api doc start modifiers in
  match insertion cc (lineAt doc (k_line from)) t h modifiers with
  | None => None
  | Some s => Some (replaceText doc from end_ s)
  end.
