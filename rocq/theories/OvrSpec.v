(** What C71 says about the text that choosing a member to override puts into the document. *)
From Verif Require Export HelpSpec OvrModel.
Open Scope nat_scope.

(** The modifiers [mods] (last one first) are typed behind [kept]. *)
Definition typedBehind (cc : CharClass) (pre : qstring) (mods : list Word) (kept : qstring) : Prop :=
  modifiersBefore cc pre mods /\ endsIn cc pre mods kept.

(** A line: its indentation, and the rest, which does not start with a blank. *)
Definition indented (cc : CharClass) (line ind rest : qstring) : Prop :=
  line = ind ++ rest /\ blank cc ind /\ (forall c r, rest = c :: r -> isSpace cc c = false).
(** The line of the text [before ++ after] that has the end of [before] in it. *)
Definition lineIn (before after line : qstring) : Prop :=
  exists a1 a2 b1 b2, before = a1 ++ a2 /\ after = b1 ++ b2 /\ line = a2 ++ b1 /\
    (a1 = [] \/ exists x, a1 = x ++ [cNL]) /\ (b2 = [] \/ exists x, b2 = cNL :: x) /\ ~ In cNL line.

(** ** The modifiers written *)
(** The typed ones stay in their order; missing ones come behind them. *)
Record header (mods : list Word) (t : Target) (h : Helper) (ws : list Word) : Prop := {
  hd_kept : exists more, ws = rev mods ++ more /\
    forall k, In k more -> ~ In k mods /\ (k = WPublic \/ k = WProtected \/ k = WStatic \/ k = WFunction);
  hd_once : NoDup mods -> NoDup ws;
  hd_public : In WPublic ws <-> In WPublic mods \/ (m_access (t_member t) <> Protected /\ ~ In WProtected mods);
  hd_protected : In WProtected ws <-> In WProtected mods \/ (m_access (t_member t) = Protected /\ ~ In WPublic mods);
  hd_static : In WStatic ws <-> In WStatic mods \/ m_static (t_member t) = true;
  hd_function : In WFunction ws <-> In WFunction mods \/ h <> OverrideVar }.

(** [ws] declares a member that may stand for [m] in a subclass. *)
Record mayOverride (ws : list Word) (m : Member) : Prop := {
  mo_private : ~ In WPrivate ws;
  mo_access : In WPublic ws \/ (In WProtected ws /\ m_access m = Protected);
  mo_oneAccess : ~ (In WPublic ws /\ In WProtected ws);
  mo_static : In WStatic ws <-> m_static m = true;
  mo_inherited : m_access m <> Private;
  mo_final : m_isFunction m = true -> m_final m = false }.

(** ** The text *)
Fixpoint joinWith (sep : qstring) (l : list qstring) : qstring :=
  match l with [] => [] | [s] => s | s :: r => s ++ sep ++ joinWith sep r end.
Definition signature (ps : list Param) (ds : list qstring) : qstring :=
  str "(" ++ joinWith (str ", ") (map (fun pd => typedName (fst pd) ++ defaultText (snd pd)) (withDefaults ps ds)) ++ str ")".
(** The call of the overridden method with the parameters it is given itself. *)
Definition parentCall (name : qstring) (ps : list Param) : qstring :=
  str "parent::" ++ name ++ str "(" ++ joinWith (str ", ") (map (fun p => cDOLLAR :: p_name p) ps) ++ str ");".
(** What the body does: nothing to call; a call; a call whose value is returned. *)
Inductive Body := BEmpty | BCall | BReturn.
Definition bodyOf (t : Target) (h : Helper) : Body :=
  match h with
  | Implement => BEmpty
  | _ => if t_interface t then BEmpty else if t_special t || t_void t then BCall else BReturn
  end.
Definition bodyLines (t : Target) (name : qstring) (b : Body) : list qstring :=
  match b with
  | BEmpty => [[]]
  | BCall => [parentCall name (t_params t)]
  | BReturn => [str "$ret = " ++ parentCall name (t_params t); str "return $ret;"]
  end.
Definition onLines (ind : qstring) (ls : list qstring) : qstring := flat_map (fun l => cNL :: ind ++ l) ls.
(** A new line is begun unless the line is blank; without indentation, two blanks. *)
Definition begun (ind rest : qstring) : qstring :=
  match rest with [] => [] | _ => cNL :: ind end ++ match ind with [] => str "  " | _ => [] end.
Definition indentBy (ind : qstring) : qstring := match ind with [] => str "  " | _ => ind end.

Definition written (ind rest : qstring) (ws : list Word) (t : Target) (name : qstring) (h : Helper) : qstring :=
  begun ind rest ++ flat_map (fun k => wordText k ++ [cSP]) ws ++
  match h with
  | OverrideVar => str "$" ++ name ++ str " = "
  | _ => name ++ signature (t_params t) (t_defaults t) ++
      onLines (indentBy ind) ([str "{"] ++ map (fun l => str "    " ++ l) (bodyLines t name (bodyOf t h)) ++ [str "}"; []])
  end.
(** What of the document is left in front. *)
Definition front (api : StartIs) (pre kept : qstring) : qstring := match api with TheCursor => kept | ACopy => pre end.
