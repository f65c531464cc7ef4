(** What C39-C41 say. *)
From Verif Require Export HelpModel.
Open Scope nat_scope.

(** ** C39 *)
(** White space never folds to an ASCII letter (true of Unicode). *)
Definition spacesAreNoLetters (cc : CharClass) : Prop :=
  forall c, isSpace cc c = true -> asciiLowerLetter (foldCase cc c) = false.
Definition blank (cc : CharClass) (s : qstring) : Prop := forall c, In c s -> isSpace cc c = true.
(** [s] is a spelling of the word [k], in any case. *)
Definition spells (cc : CharClass) (s : qstring) (k : Word) : Prop :=
  map (foldCase cc) s = map (foldCase cc) (wordText k).
(** [text] ends in the words [ks], last one first, with any white space after each;
    [rest] precedes them. *)
Inductive endsIn (cc : CharClass) : qstring -> list Word -> qstring -> Prop :=
| endsNil : forall text, endsIn cc text [] text
| endsCons : forall before s sp k ks rest, spells cc s k -> blank cc sp -> endsIn cc before ks rest ->
    endsIn cc (before ++ s ++ sp) (k :: ks) rest.
Definition isModifier (k : Word) : Prop :=
  k = WPrivate \/ k = WPublic \/ k = WProtected \/ k = WStatic \/ k = WAbstract \/ k = WFinal.
(** [ks]: at the end of [text] the word function if it is there, before it as many different
    modifiers as possible. *)
Definition modifiersBefore (cc : CharClass) (text : qstring) (ks : list Word) : Prop :=
  exists ms rest, endsIn cc text ks rest /\
    (ks = WFunction :: ms \/ (ks = ms /\ ~ exists r, endsIn cc text [WFunction] r)) /\
    (forall k, In k ms -> isModifier k) /\ NoDup ms /\
    (forall k, isModifier k -> ~ In k ms -> ~ exists r, endsIn cc rest [k] r).

(** ** C40 *)
Inductive Marker := MIndent | MCursor | MSelect | MEndSelect.
(** A template as its author writes it: characters, line ends and markers. *)
Inductive Piece := PChar (c : N) | PNewline | PMark (m : Marker).
Definition markerName (m : Marker) : qstring :=
  match m with MIndent => str "INDENT" | MCursor => str "CURSOR" | MSelect => str "SELECT"
             | MEndSelect => str "ENDSELECT" end.
Definition writePiece (p : Piece) : qstring :=
  match p with
  | PChar c => [c]
  | PNewline => [cNL]
  | PMark m => cPERCENT :: markerName m ++ [cPERCENT]
  end.
Definition writeTemplate (t : list Piece) : qstring := flat_map writePiece t.
(** What it means: new lines get the indentation of the line, %INDENT% one more level. *)
Definition showPiece (indentation level : qstring) (p : Piece) : qstring :=
  match p with
  | PChar c => [c]
  | PNewline => cNL :: indentation
  | PMark MIndent => level
  | PMark _ => []
  end.
Definition showTemplate (indentation level : qstring) (t : list Piece) : qstring :=
  flat_map (showPiece indentation level) t.
(** Typing [s] moves the cursor like this. *)
Fixpoint typed (k : Cursor) (s : qstring) : Cursor :=
  match s with
  | [] => k
  | c :: r => typed (if N.eqb c cNL then {| k_line := S (k_line k); k_col := 0 |}
                     else {| k_line := k_line k; k_col := S (k_col k) |}) r
  end.
(** Only characters other than % and line ends, line ends and %INDENT%. *)
Definition plain (t : list Piece) : Prop :=
  forall p, In p t -> p = PNewline \/ p = PMark MIndent \/ exists c, p = PChar c /\ c <> cPERCENT /\ c <> cNL.
(** No text between two markers is itself the name of a marker. *)
Definition unambiguous (t : list Piece) : Prop :=
  forall pre m1 s m2 post m, t = pre ++ PMark m1 :: map PChar s ++ PMark m2 :: post -> s <> markerName m.
Definition noNewline (t : list Piece) : Prop := ~ In PNewline t.
(** Neither the indentation nor the indentation level contains % or a line end. *)
Definition noPercent (s : qstring) : Prop := forall c, In c s -> c <> cPERCENT /\ c <> cNL.

(** ** C41 *)
Definition typedName (p : Param) : qstring :=
  match p_type p with Some t => t ++ [cSP] ++ cDOLLAR :: p_name p | None => cDOLLAR :: p_name p end.
Definition defaultText (d : option qstring) : qstring :=
  match d with None => [] | Some [] => [] | Some d => str " = " ++ d end.
(** The parameters with their default values: of n parameters and k defaults the last k have
    one. *)
Definition withDefaults (ps : list Param) (ds : list qstring) : list (Param * option qstring) :=
  combine ps (repeat None (List.length ps - List.length ds) ++ map Some ds).
(** The text in pieces, each with its highlighting. *)
Fixpoint pieces (lead : qstring) (l : list (Param * option qstring)) : list (qstring * Format) :=
  match l with
  | [] => [(lead ++ str ")", Normal)]
  | (p, d) :: r =>
      (lead, Normal) :: (typedName p, Matched) ::
      match r with
      | [] => [(defaultText d ++ str ")", Normal)]
      | _ => pieces (defaultText d ++ str ", ") r
      end
  end.
Definition argPieces (ps : list Param) (ds : list qstring) : list (qstring * Format) :=
  pieces (str "(") (withDefaults ps ds).
(** Segments that tile the text: each starts where the one before ends. *)
Fixpoint segments (start : nat) (l : list (qstring * Format)) : list Segment :=
  match l with
  | [] => []
  | (s, f) :: r => (start, List.length s, f) :: segments (start + List.length s) r
  end.

(** C40: what a template may look like: no cursor, one %CURSOR%, or one selection of text. *)
Definition wellFormed (t : list Piece) : Prop :=
  t <> [] /\ unambiguous t /\
  (plain t \/ (exists a b, t = a ++ PMark MCursor :: b /\ plain a /\ plain b) \/
   (exists a s b, t = a ++ PMark MSelect :: map PChar s ++ PMark MEndSelect :: b /\
      plain a /\ plain b /\ s <> [] /\ noPercent s)).
