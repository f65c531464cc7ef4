(** Statements, functions, classes and namespaces as the PHP manual writes them, and how a tree of
    the parser is read as one of these.  Tokens carry no text, so names are known by their length. *)
From Coq Require Import List Bool.
From Verif Require Import Chars LexModel ParseModel PexSpec.
Import ListNotations.

(** What ends a simple statement: a semicolon, or the end of the PHP part. *)
Inductive term := Semi | Close.
(** [A\B\C], [\A\B] *)
Record name := { absolute : bool; more : nat }.
(** [int], [?A\B|array] *)
Inductive hintKind := HName (n : name) | HArray | HCallable | HVoid.
Definition hint := (bool * hintKind)%type.
(** Initial values of properties and static variables. *)
Inductive sc :=
| ScNum | ScConst (n : name) | ScClassConst (n : name) | ScPlus (x : sc) | ScMinus (x : sc)
| ScArray (short : bool) (l : list (sc * option sc)).
Section Statements.
Context {Fs : Functions}.
Record param := { p_type : list hint; p_ref : bool; p_variadic : bool; p_default : option ex }.
Inductive import := ImAny | ImFunction | ImConst.
Inductive useItem :=
| UName (n : name) (alias : bool)
| UGroup (n : name) (ms : list (import * nat * bool)).
Inductive modifier := MoPublic | MoProtected | MoPrivate | MoStatic | MoAbstract | MoFinal.
Inductive classHead :=
| HClass (m : option modifier) (ext : option name) (impl : list name)
| HInterface (ext : list name)
| HTrait.
Inductive rename :=
| RVisibility (m : modifier) | RName | RBoth (m : modifier) | RInsteadof (l : list name).
Inductive member :=
| MVar (vs : list (option sc))
| MProp (mods : list modifier) (t : list hint) (vs : list (option sc))
| MMethod (mods : list modifier) (ref : bool) (ps : list param) (ret : list hint)
| MConst (mods : list modifier) (es : list ex)
| MUse (ns : list name) (rs : option (list (name * rename))).

Inductive st :=
| SExpr (q : term) (e : ex)
| SEmpty | SOpen | SClose | SHtml
| SShow (q : term) (e : ex)
| SBlock (l : list st)
| SIf (c : ex) (a : st) (elifs : list (ex * st)) (b : option st)
| SIfC (q : term) (c : ex) (a : list st) (elifs : list (ex * list st)) (b : option (list st))
| SWhile (c : ex) (a : st)
| SWhileC (q : term) (c : ex) (l : list st)
| SDo (q : term) (a : st) (c : ex)
| SFor (i c s : list ex) (a : st)
| SForC (q : term) (i c s : list ex) (l : list st)
| SForeach (v : ex) (x : bool * ex) (y : option (bool * ex)) (a : st)
| SForeachC (q : term) (v : ex) (x : bool * ex) (y : option (bool * ex)) (l : list st)
| SSwitch (c : ex) (cases : list (option ex * list st))
| SSwitchC (q : term) (c : ex) (cases : list (option ex * list st))
| SDeclare (ds : list sc) (a : st)
| SDeclareC (q : term) (ds : list sc) (l : list st)
| STry (l : list st) (cs : list (list name * list st)) (f : option (list st))
| SEcho (q : term) (es : list ex)
| SReturn (q : term) (o : option ex)
| SBreak (q : term) (o : option ex)
| SContinue (q : term) (o : option ex)
| SThrow (q : term) (e : ex)
| SUnset (q : term) (vs : list ex)
| SGlobal (q : term) (n : nat)
| SStatic (q : term) (vs : list (option sc))
| SConst (es : list ex)
| SGoto | SLabel
| SUse (k : import) (us : list useItem)
| SHalt
| SFunction (ref : bool) (ps : list param) (ret : list hint) (l : list st)
| SClass (h : classHead) (ms : list (member * option (list st))).

(** What stands at the top of a file: also [namespace A\B;] and [namespace A { .. }]. *)
Inductive fi := FSt (s : st) | FNs (n : nat) | FNsBlock (n : option nat) (l : list st).

(** A function without a name: [function &(..) use (&$a, $b) : type { .. }]; [f_uses] has the [&] of
    each variable behind [use]. *)
Record fn := { f_ref : bool; f_params : list param; f_uses : list bool; f_ret : list hint; f_body : list st }.

(** ** The text *)
Definition termTok (q : term) : Tok := match q with Semi => T_SEMICOLON | Close => T_CLOSE_TAG end.
Fixpoint joined (sep : Tok) (l : list (list Tok)) : list Tok :=
  match l with [] => [] | [w] => w | w :: r => w ++ sep :: joined sep r end.
Fixpoint parts (n : nat) : list Tok :=
  match n with O => [T_STRING] | S m => T_STRING :: T_BACKSLASH :: parts m end.
Definition nameText (n : name) : list Tok := (if absolute n then [T_BACKSLASH] else []) ++ parts (more n).
Definition hintText (h : hint) : list Tok :=
  (if fst h then [T_QUESTION] else []) ++
  match snd h with HName n => nameText n | HArray => [T_ARRAY] | HCallable => [T_CALLABLE] | HVoid => [T_VOID] end.
Definition typeText (t : list hint) : list Tok := joined T_BIT_OR (map hintText t).
Definition optText (k : Tok) (o : option (list Tok)) : list Tok := match o with Some w => k :: w | None => [] end.
Definition flag (b : bool) (k : Tok) : list Tok := if b then [k] else [].
Fixpoint scText (x : sc) : list Tok :=
  match x with
  | ScNum => [T_LNUMBER]
  | ScConst n => nameText n
  | ScClassConst n => nameText n ++ [T_PAAMAYIM_NEKUDOTAYIM; T_STRING]
  | ScPlus y => T_PLUS :: scText y
  | ScMinus y => T_MINUS :: scText y
  | ScArray short l =>
      let inner := joined T_COMMA (map (fun p => scText (fst p) ++ match snd p with Some v => T_DOUBLE_ARROW :: scText v | None => [] end) l) in
      if short then T_LBRACKET :: inner ++ [T_RBRACKET] else T_ARRAY :: T_LPAREN :: inner ++ [T_RPAREN]
  end.
Definition paramText (p : param) : list Tok :=
  typeText (p_type p) ++ flag (p_ref p) T_BIT_AND ++ flag (p_variadic p) T_ELLIPSIS ++ T_VARIABLE :: optText T_ASSIGN (option_map text (p_default p)).
Definition paramsText (ps : list param) : list Tok := joined T_COMMA (map paramText ps).
Definition retText (t : list hint) : list Tok := match t with [] => [] | _ => T_COLON :: typeText t end.
Definition importText (k : import) : list Tok := match k with ImAny => [] | ImFunction => [T_FUNCTION] | ImConst => [T_CONST] end.
Definition aliasText (b : bool) : list Tok := if b then [T_AS; T_STRING] else [].
Definition useText (u : useItem) : list Tok :=
  match u with
  | UName n a => nameText n ++ aliasText a
  | UGroup n ms => nameText n ++ T_BACKSLASH :: T_LBRACE ::
      joined T_COMMA (map (fun m => importText (fst (fst m)) ++ parts (snd (fst m)) ++ aliasText (snd m)) ms) ++ [T_RBRACE]
  end.
Definition modTok (m : modifier) : Tok :=
  match m with
  | MoPublic => T_PUBLIC | MoProtected => T_PROTECTED | MoPrivate => T_PRIVATE | MoStatic => T_STATIC
  | MoAbstract => T_ABSTRACT | MoFinal => T_FINAL
  end.
Definition varText (v : option sc) : list Tok := T_VARIABLE :: optText T_ASSIGN (option_map scText v).
Definition namesText (l : list name) : list Tok := joined T_COMMA (map nameText l).
Definition headText (h : classHead) : list Tok :=
  match h with
  | HClass m e i => match m with Some x => [modTok x] | None => [] end ++ T_CLASS :: T_STRING ::
      optText T_EXTENDS (option_map nameText e) ++ match i with [] => [] | _ => T_IMPLEMENTS :: namesText i end
  | HInterface e => T_INTERFACE :: T_STRING :: match e with [] => [] | _ => T_EXTENDS :: namesText e end
  | HTrait => [T_TRAIT; T_STRING]
  end.
Definition renameText (p : name * rename) : list Tok :=
  nameText (fst p) ++ T_PAAMAYIM_NEKUDOTAYIM :: T_STRING ::
  match snd p with
  | RVisibility m => [T_AS; modTok m]
  | RName => [T_AS; T_STRING]
  | RBoth m => [T_AS; modTok m; T_STRING]
  | RInsteadof l => T_INSTEADOF :: namesText l
  end.
(** A member of a class up to the body. *)
Definition memText (m : member) : list Tok :=
  match m with
  | MVar vs => T_VAR :: joined T_COMMA (map varText vs) ++ [T_SEMICOLON]
  | MProp mods t vs => map modTok mods ++ typeText t ++ joined T_COMMA (map varText vs) ++ [T_SEMICOLON]
  | MMethod mods r ps ret =>
      map modTok mods ++ T_FUNCTION :: flag r T_BIT_AND ++ T_STRING :: T_LPAREN :: paramsText ps ++ T_RPAREN :: retText ret
  | MConst mods es =>
      map modTok mods ++ T_CONST :: joined T_COMMA (map (fun e => T_STRING :: T_ASSIGN :: text e) es) ++ [T_SEMICOLON]
  | MUse ns None => T_USE :: namesText ns ++ [T_SEMICOLON]
  | MUse ns (Some rs) => T_USE :: namesText ns ++ T_LBRACE :: flat_map (fun r => renameText r ++ [T_SEMICOLON]) rs ++ [T_RBRACE]
  end.
Definition isMethod (m : member) : bool := match m with MMethod _ _ _ _ => true | _ => false end.

Definition exprsText (es : list ex) : list Tok := joined T_COMMA (map text es).
Definition parens (w : list Tok) : list Tok := T_LPAREN :: w ++ [T_RPAREN].
Definition forText (i c s : list ex) : list Tok :=
  T_FOR :: parens (exprsText i ++ T_SEMICOLON :: exprsText c ++ T_SEMICOLON :: exprsText s).
Definition targetText (x : bool * ex) : list Tok := flag (fst x) T_BIT_AND ++ text (snd x).
Definition foreachText (v : ex) (x : bool * ex) (y : option (bool * ex)) : list Tok :=
  T_FOREACH :: parens (text v ++ T_AS :: targetText x ++ optText T_DOUBLE_ARROW (option_map targetText y)).
Definition declareText (ds : list sc) : list Tok :=
  T_DECLARE :: parens (joined T_COMMA (map (fun d => T_STRING :: T_ASSIGN :: scText d) ds)).
Definition optEx (o : option ex) : list Tok := match o with Some e => text e | None => [] end.
Definition caseText (c : option ex) : list Tok := match c with Some e => T_CASE :: text e | None => [T_DEFAULT] end.

Fixpoint stText (s : st) : list Tok :=
  let list (l : list st) := flat_map stText l in
  let block (l : Datatypes.list st) := T_LBRACE :: flat_map stText l ++ [T_RBRACE] in
  let cases (cs : Datatypes.list (option ex * Datatypes.list st)) :=
    flat_map (fun c => caseText (fst c) ++ T_COLON :: flat_map stText (snd c)) cs in
  match s with
  | SExpr q e => text e ++ [termTok q]
  | SEmpty => [T_SEMICOLON]
  | SOpen => [T_OPEN_TAG]
  | SClose => [T_CLOSE_TAG]
  | SHtml => [T_INLINE_HTML]
  | SShow q e => T_OPEN_TAG_WITH_ECHO :: text e ++ [termTok q]
  | SBlock l => block l
  | SIf c a es b =>
      T_IF :: parens (text c) ++ stText a ++
      flat_map (fun p => T_ELSEIF :: parens (text (fst p)) ++ stText (snd p)) es ++
      match b with Some x => T_ELSE :: stText x | None => [] end
  | SIfC q c a es b =>
      T_IF :: parens (text c) ++ T_COLON :: list a ++
      flat_map (fun p => T_ELSEIF :: parens (text (fst p)) ++ T_COLON :: list (snd p)) es ++
      match b with Some x => T_ELSE :: T_COLON :: list x | None => [] end ++ [T_ENDIF; termTok q]
  | SWhile c a => T_WHILE :: parens (text c) ++ stText a
  | SWhileC q c l => T_WHILE :: parens (text c) ++ T_COLON :: list l ++ [T_ENDWHILE; termTok q]
  | SDo q a c => T_DO :: stText a ++ T_WHILE :: parens (text c) ++ [termTok q]
  | SFor i c s a => forText i c s ++ stText a
  | SForC q i c s l => forText i c s ++ T_COLON :: list l ++ [T_ENDFOR; termTok q]
  | SForeach v x y a => foreachText v x y ++ stText a
  | SForeachC q v x y l => foreachText v x y ++ T_COLON :: list l ++ [T_ENDFOREACH; termTok q]
  | SSwitch c cs => T_SWITCH :: parens (text c) ++ T_LBRACE :: cases cs ++ [T_RBRACE]
  | SSwitchC q c cs => T_SWITCH :: parens (text c) ++ T_COLON :: cases cs ++ [T_ENDSWITCH; termTok q]
  | SDeclare ds a => declareText ds ++ stText a
  | SDeclareC q ds l => declareText ds ++ T_COLON :: list l ++ [T_ENDDECLARE; termTok q]
  | STry l cs f =>
      T_TRY :: block l ++
      flat_map (fun c => T_CATCH :: parens (joined T_BIT_OR (map nameText (fst c)) ++ [T_VARIABLE]) ++ block (snd c)) cs ++
      match f with Some x => T_FINALLY :: block x | None => [] end
  | SEcho q es => T_ECHO :: exprsText es ++ [termTok q]
  | SReturn q o => T_RETURN :: optEx o ++ [termTok q]
  | SBreak q o => T_BREAK :: optEx o ++ [termTok q]
  | SContinue q o => T_CONTINUE :: optEx o ++ [termTok q]
  | SThrow q e => T_THROW :: text e ++ [termTok q]
  | SUnset q vs => T_UNSET :: parens (exprsText vs) ++ [termTok q]
  | SGlobal q n => T_GLOBAL :: joined T_COMMA (repeat [T_VARIABLE] (S n)) ++ [termTok q]
  | SStatic q vs => T_STATIC :: joined T_COMMA (map varText vs) ++ [termTok q]
  | SConst es => T_CONST :: joined T_COMMA (map (fun e => T_STRING :: T_ASSIGN :: text e) es) ++ [T_SEMICOLON]
  | SGoto => [T_GOTO; T_STRING; T_SEMICOLON]
  | SLabel => [T_STRING; T_COLON]
  | SUse k us => T_USE :: importText k ++ joined T_COMMA (map useText us) ++ [T_SEMICOLON]
  | SHalt => [T_HALT_COMPILER; T_LPAREN; T_RPAREN; T_SEMICOLON]
  | SFunction r ps t l => T_FUNCTION :: flag r T_BIT_AND ++ T_STRING :: parens (paramsText ps) ++ retText t ++ block l
  | SClass h ms =>
      headText h ++ T_LBRACE ::
      flat_map (fun m => memText (fst m) ++ match snd m with Some l => block l | None => if isMethod (fst m) then [T_SEMICOLON] else [] end) ms
      ++ [T_RBRACE]
  end.
Definition usesText (l : list bool) : list Tok :=
  match l with [] => [] | _ => T_USE :: parens (joined T_COMMA (map (fun b => flag b T_BIT_AND ++ [T_VARIABLE]) l)) end.
Definition fnText (f : fn) : list Tok :=
  T_FUNCTION :: flag (f_ref f) T_BIT_AND ++ parens (paramsText (f_params f)) ++ usesText (f_uses f) ++ retText (f_ret f)
  ++ T_LBRACE :: flat_map stText (f_body f) ++ [T_RBRACE].
Definition fiText (f : fi) : list Tok :=
  match f with
  | FSt s => stText s
  | FNs n => T_NAMESPACE :: parts n ++ [T_SEMICOLON]
  | FNsBlock o l => T_NAMESPACE :: match o with Some n => parts n | None => [] end ++ T_LBRACE :: flat_map stText l ++ [T_RBRACE]
  end.
Definition sourceOf (fs : list fi) : list Tok := flat_map fiText fs.

(** ** What PHP allows *)
(** An [else] behind the statement would not be taken for its own. *)
Fixpoint closed (s : st) : bool :=
  match s with
  | SIf _ _ _ (Some x) => closed x
  | SIf _ _ _ None => false
  | SWhile _ a | SFor _ _ _ a | SForeach _ _ _ a | SDeclare _ a => closed a
  | _ => true
  end.
Definition closedList (l : list st) : bool := match rev l with [] => true | s :: _ => closed s end.
(** All of these but the last. *)
Definition allButLast {A} (f : A -> bool) (l : list A) : bool := forallb f (removelast l).
Definition some {A} (l : list A) : bool := match l with [] => false | _ => true end.
Definition hintOk (v : bool) (h : hint) : bool := match snd h with HVoid => v | _ => true end.
Definition propHintOk (h : hint) : bool := match snd h with HVoid | HCallable => false | _ => true end.
Definition paramOk (p : param) : bool :=
  forallb (hintOk false) (p_type p) && match p_default p with Some e => plain e | None => true end.
Definition targetOk (x : bool * ex) : bool := path (snd x) && plain (snd x).
Definition useOk (k : import) (u : useItem) : bool :=
  match u with
  | UName _ _ => true
  | UGroup _ ms => some ms && forallb (fun m => match k, fst (fst m) with ImAny, _ | _, ImAny => true | _, _ => false end) ms
  end.
Definition headOk (h : classHead) : bool :=
  match h with HClass (Some m) _ _ => match m with MoAbstract | MoFinal => true | _ => false end | _ => true end.
Definition memOk (m : member) : bool :=
  match m with
  | MVar vs => some vs
  | MProp mods t vs => some mods && forallb propHintOk t && some vs
  | MMethod mods _ ps ret => forallb paramOk ps && forallb (hintOk true) ret
  | MConst mods es => some es && forallb plain es
  | MUse ns None => some ns
  | MUse ns (Some rs) => some ns && some rs && forallb (fun r => match snd r with RInsteadof l => some l | _ => true end) rs
  end.
(** A declaration cannot be the body of a loop or of a condition. *)
Definition simple (s : st) : bool := match s with SFunction _ _ _ _ | SClass _ _ | SHalt => false | _ => true end.
Definition optOk (o : option ex) : bool := match o with Some e => plain e | None => true end.
Fixpoint stOk (s : st) : bool :=
  let all := forallb stOk in
  match s with
  | SExpr _ e | SShow _ e | SThrow _ e => plain e
  | SEmpty | SOpen | SClose | SHtml | SGoto | SLabel | SHalt | SGlobal _ _ => true
  | SBlock l => all l
  | SIf c a es b =>
      plain c && stOk a && simple a && forallb (fun p => plain (fst p) && stOk (snd p) && simple (snd p)) es
      && match b with Some x => stOk x && simple x && forallb (fun p => closed (snd p)) es | None => true end
      && allButLast (fun p => closed (snd p)) es
      && (closed a || match es, b with [], None => true | _, _ => false end)
  | SIfC _ c a es b =>
      plain c && all a && forallb (fun p => plain (fst p) && all (snd p)) es
      && match b with Some x => all x && forallb (fun p => closedList (snd p)) es | None => true end
      && allButLast (fun p => closedList (snd p)) es
      && (closedList a || match es, b with [], None => true | _, _ => false end)
  | SWhile c a => plain c && stOk a && simple a
  | SDo _ a c => plain c && stOk a && simple a
  | SWhileC _ c l => plain c && all l
  | SFor i c s a => forallb plain i && forallb plain c && forallb plain s && stOk a && simple a
  | SForC _ i c s l => forallb plain i && forallb plain c && forallb plain s && all l
  | SForeach v x y a => path v && plain v && targetOk x && match y with Some z => targetOk z | None => true end && stOk a && simple a
  | SForeachC _ v x y l => path v && plain v && targetOk x && match y with Some z => targetOk z | None => true end && all l
  | SSwitch c cs | SSwitchC _ c cs => plain c && forallb (fun p => optOk (fst p) && all (snd p)) cs
  | SDeclare ds a => some ds && stOk a && simple a
  | SDeclareC _ ds l => some ds && all l
  | STry l cs f =>
      all l && forallb (fun c => some (fst c) && all (snd c)) cs && match f with Some x => all x | None => true end
  | SEcho _ es => some es && forallb plain es
  | SReturn _ o | SBreak _ o | SContinue _ o => optOk o
  | SUnset _ vs => some vs && forallb (fun v => path v && plain v) vs
  | SStatic _ vs => some vs
  | SConst es => some es && forallb plain es
  | SUse k us => some us && forallb (useOk k) us
  | SFunction _ ps t l => forallb paramOk ps && forallb (hintOk true) t && all l
  | SClass h ms =>
      headOk h && forallb (fun m => memOk (fst m) && match snd m with Some l => isMethod (fst m) && all l | None => true end) ms
  end.
Definition fnOk (f : fn) : bool :=
  forallb paramOk (f_params f) && forallb (hintOk true) (f_ret f) && forallb stOk (f_body f).
Definition fiOk (f : fi) : bool :=
  match f with FSt s => stOk s | FNs _ => true | FNsBlock _ l => forallb stOk l end.

(** ** Reading a tree *)
Inductive sv :=
| WTok (k : Tok) | WEx (e : ex) | WName (n : name) | WPart | WQ (q : term) | WHint (h : hint) | WType (t : list hint)
| WSc (x : sc) | WPair (p : sc * option sc) | WParam (p : param) | WParams (l : list param) | WTarget (x : bool * ex)
| WExs (l : list ex) | WVarDecl (v : option sc) | WVars (l : list (option sc))
| WSt (s : st) | WSts (l : list st) | WColon (q : term) (l : list st)
| WElif (p : ex * st) | WElifs (l : list (ex * st)) | WElse (o : option st)
| WElifC (p : ex * list st) | WElifsC (l : list (ex * list st)) | WElseC (o : option (list st))
| WCase (c : option ex * list st) | WCases (l : list (option ex * list st)) | WCatch (c : list name * list st)
| WCasesC (q : term) (l : list (option ex * list st))
| WUseM (m : import * nat * bool) | WUseMs (l : list (import * nat * bool)) | WUse (u : useItem) | WUses (k : import) (l : list useItem)
| WMods (l : list modifier) | WNames (l : list name) | WBody (o : option (list st)) | WRename (r : name * rename)
| WRenames (l : list (name * rename)) | WMem (m : member * option (list st)) | WMems (l : list (member * option (list st)))
| WFi (f : fi) | WUseVar (b : bool) | WUseVars (l : list bool) | WFn (f : fn) | WBad.

(** The parts of one kind among parts and separators. *)
Fixpoint pick {A} (f : sv -> option A) (vs : list sv) : option (list A) :=
  match vs with
  | [] => Some []
  | WTok _ :: r => pick f r
  | v :: r => match f v, pick f r with Some a, Some l => Some (a :: l) | _, _ => None end
  end.
Definition getEx v := match v with WEx e => Some e | _ => None end.
Definition getName v := match v with WName n => Some n | _ => None end.
Definition getHint v := match v with WHint n => Some n | _ => None end.
Definition getPair v := match v with WPair n => Some n | _ => None end.
Definition getParam v := match v with WParam n => Some n | _ => None end.
Definition getVar v := match v with WVarDecl n => Some n | _ => None end.
Definition getSt v := match v with WSt n => Some n | _ => None end.
Definition getElif v := match v with WElif n => Some n | _ => None end.
Definition getElifC v := match v with WElifC n => Some n | _ => None end.
Definition getCase v := match v with WCase n => Some n | _ => None end.
Definition getCatch v := match v with WCatch n => Some n | _ => None end.
Definition getUseM v := match v with WUseM n => Some n | _ => None end.
Definition getUse v := match v with WUse n => Some n | _ => None end.
Definition getRename v := match v with WRename n => Some n | _ => None end.
Definition getMem v := match v with WMem n => Some n | _ => None end.
Definition getUseVar v := match v with WUseVar b => Some b | _ => None end.
Definition getPart v := match v with WPart => Some tt | _ => None end.
Definition getSc v := match v with WSc n => Some n | _ => None end.
Definition gives {A} (o : option A) (f : A -> sv) : sv := match o with Some a => f a | None => WBad end.
Definition partsOf (vs : list sv) (f : nat -> sv) : sv :=
  gives (pick getPart vs) (fun l => match l with [] => WBad | _ :: r => f (List.length r) end).
Definition modOf (k : Tok) : option modifier :=
  match k with
  | T_PUBLIC => Some MoPublic | T_PROTECTED => Some MoProtected | T_PRIVATE => Some MoPrivate
  | T_STATIC => Some MoStatic | T_ABSTRACT => Some MoAbstract | T_FINAL => Some MoFinal | _ => None
  end.
Fixpoint modsOf (vs : list sv) : option (list modifier) :=
  match vs with
  | [] => Some []
  | WTok k :: r => match modOf k, modsOf r with Some m, Some l => Some (m :: l) | _, _ => None end
  | _ => None
  end.
(** Everything up to the first part that is no token, and that part with the rest. *)
Fixpoint skipToks (vs : list sv) : list Tok * list sv :=
  match vs with
  | WTok k :: r => let (ks, r') := skipToks r in (k :: ks, r')
  | _ => ([], vs)
  end.
Definition has (k : Tok) (ks : list Tok) : bool := existsb (teq k) ks.
Definition kindOf (k : Tok) : option hintKind :=
  match k with T_ARRAY => Some HArray | T_CALLABLE => Some HCallable | T_VOID => Some HVoid | _ => None end.

Definition readParam (t : list hint) (vs : list sv) : sv :=
  match skipToks vs with
  | (ks, [WPart]) => WParam {| p_type := t; p_ref := has T_BIT_AND ks; p_variadic := has T_ELLIPSIS ks; p_default := None |}
  | (ks, [WPart; WTok T_ASSIGN; WEx e]) =>
      WParam {| p_type := t; p_ref := has T_BIT_AND ks; p_variadic := has T_ELLIPSIS ks; p_default := Some e |}
  | _ => WBad
  end.
Definition readHint (b : bool) (vs : list sv) : sv :=
  match vs with
  | [WName n] => WHint (b, HName n)
  | [WTok k] => gives (kindOf k) (fun x => WHint (b, x))
  | [WHint (_, x)] => WHint (b, x)
  | _ => WBad
  end.
Definition importOf (k : Tok) : option import := match k with T_FUNCTION => Some ImFunction | T_CONST => Some ImConst | _ => None end.
(** The statements by their first word. *)
Definition readWord (k : Tok) (r : list sv) : sv :=
  match k, r with
  | T_LBRACE, [WSts l; _] => WSt (SBlock l)
  | T_IF, [_; WEx c; _; WSt a; WElifs es; WElse b] => WSt (SIf c a es b)
  | T_IF, [_; WEx c; _; _; WSts a; WElifsC es; WElseC b; _; WQ q] => WSt (SIfC q c a es b)
  | T_WHILE, [_; WEx c; _; WSt a] => WSt (SWhile c a)
  | T_WHILE, [_; WEx c; _; WColon q l] => WSt (SWhileC q c l)
  | T_FOR, [_; WExs i; _; WExs c; _; WExs s; _; WSt a] => WSt (SFor i c s a)
  | T_FOR, [_; WExs i; _; WExs c; _; WExs s; _; WColon q l] => WSt (SForC q i c s l)
  | T_SWITCH, [_; WEx c; _; WCases l] => WSt (SSwitch c l)
  | T_SWITCH, [_; WEx c; _; WCasesC q l] => WSt (SSwitchC q c l)
  | T_FOREACH, [_; WEx v; _; WTarget x; _; WSt a] => WSt (SForeach v x None a)
  | T_FOREACH, [_; WEx v; _; WTarget x; _; WTarget y; _; WSt a] => WSt (SForeach v x (Some y) a)
  | T_FOREACH, [_; WEx v; _; WTarget x; _; WColon q l] => WSt (SForeachC q v x None l)
  | T_FOREACH, [_; WEx v; _; WTarget x; _; WTarget y; _; WColon q l] => WSt (SForeachC q v x (Some y) l)
  | T_TRY, _ :: WSts l :: _ :: r' =>
      match rev r' with
      | WTok T_RBRACE :: WSts f :: WTok T_LBRACE :: WTok T_FINALLY :: r'' =>
          gives (pick getCatch (rev r'')) (fun cs => WSt (STry l cs (Some f)))
      | _ => gives (pick getCatch r') (fun cs => WSt (STry l cs None))
      end
  | T_DO, [WSt a; _; _; WEx c; _; WQ q] => WSt (SDo q a c)
  | T_BREAK, [WQ q] => WSt (SBreak q None)
  | T_BREAK, [WEx e; WQ q] => WSt (SBreak q (Some e))
  | T_CONTINUE, [WQ q] => WSt (SContinue q None)
  | T_CONTINUE, [WEx e; WQ q] => WSt (SContinue q (Some e))
  | T_RETURN, [WQ q] => WSt (SReturn q None)
  | T_RETURN, [WEx e; WQ q] => WSt (SReturn q (Some e))
  | T_THROW, [WEx e; WQ q] => WSt (SThrow q e)
  | T_OPEN_TAG_WITH_ECHO, [WEx e; WQ q] => WSt (SShow q e)
  | T_SEMICOLON, [] => WSt SEmpty
  | T_CLOSE_TAG, [] => WSt SClose
  | T_OPEN_TAG, [] => WSt SOpen
  | T_INLINE_HTML, [] => WSt SHtml
  | T_GOTO, [_; _] => WSt SGoto
  | T_STRING, [_] => WSt SLabel
  | T_USE, [WUses k' l] => WSt (SUse k' l)
  | T_CONST, _ => gives (pick getEx r) (fun es => WSt (SConst es))
  | (T_ECHO | T_UNSET | T_GLOBAL | T_STATIC | T_DECLARE), _ =>
      match k, rev r with
      | T_ECHO, WQ q :: r' => gives (pick getEx (rev r')) (fun es => WSt (SEcho q es))
      | T_UNSET, WQ q :: r' => gives (pick getEx (rev r')) (fun es => WSt (SUnset q es))
      | T_GLOBAL, WQ q :: r' => gives (pick getPart (rev r')) (fun l => match l with [] => WBad | _ :: l' => WSt (SGlobal q (List.length l')) end)
      | T_STATIC, WQ q :: r' => gives (pick getVar (rev r')) (fun l => WSt (SStatic q l))
      | T_DECLARE, WSt a :: r' => gives (pick getSc (rev r')) (fun ds => WSt (SDeclare ds a))
      | T_DECLARE, WColon q l :: r' => gives (pick getSc (rev r')) (fun ds => WSt (SDeclareC q ds l))
      | _, _ => WBad
      end
  | _, _ => WBad
  end.
Definition readHead (vs : list sv) : option classHead :=
  match vs with
  | [WMods m; WTok T_CLASS; WPart] => Some (HClass (hd_error m) None [])
  | [WMods m; WTok T_CLASS; WPart; _; WName e] => Some (HClass (hd_error m) (Some e) [])
  | [WMods m; WTok T_CLASS; WPart; _; WNames i] => Some (HClass (hd_error m) None i)
  | [WMods m; WTok T_CLASS; WPart; _; WName e; _; WNames i] => Some (HClass (hd_error m) (Some e) i)
  | [WTok T_INTERFACE; WPart] => Some (HInterface [])
  | [WTok T_INTERFACE; WPart; _; WNames e] => Some (HInterface e)
  | [WTok T_TRAIT; WPart] => Some HTrait
  | _ => None
  end.
Definition readMethod (m : list modifier) (r : list sv) : sv :=
  match r with
  | WTok T_BIT_AND :: WPart :: _ :: WParams ps :: _ :: [WBody b] => WMem (MMethod m true ps [], b)
  | WTok T_BIT_AND :: WPart :: _ :: WParams ps :: _ :: [_; WType t; WBody b] => WMem (MMethod m true ps t, b)
  | WPart :: _ :: WParams ps :: _ :: [WBody b] => WMem (MMethod m false ps [], b)
  | WPart :: _ :: WParams ps :: _ :: [_; WType t; WBody b] => WMem (MMethod m false ps t, b)
  | _ => WBad
  end.
Definition readMember (vs : list sv) : sv :=
  match vs with
  | [WTok T_VAR; WVars l; _] => WMem (MVar l, None)
  | [WMods m; WVars l; _] => WMem (MProp m [] l, None)
  | [WMods m; WType t; WVars l; _] => WMem (MProp m t l, None)
  | WMods m :: WTok T_CONST :: r => gives (pick getEx r) (fun es => WMem (MConst m es, None))
  | WMods m :: WTok T_FUNCTION :: r => readMethod m r
  | WTok T_USE :: r =>
      match rev r with
      | WRenames rs :: r' => gives (pick getName (rev r')) (fun ns => WMem (MUse ns (Some rs), None))
      | _ => gives (pick getName r) (fun ns => WMem (MUse ns None, None))
      end
  | _ => WBad
  end.

(** Behind the parameters of a function without a name. *)
Definition readFn (r : bool) (ps : list param) (vs : list sv) : sv :=
  match vs with
  | [_; WSts l; _] => WFn {| f_ref := r; f_params := ps; f_uses := []; f_ret := []; f_body := l |}
  | [_; WType t; _; WSts l; _] => WFn {| f_ref := r; f_params := ps; f_uses := []; f_ret := t; f_body := l |}
  | [_; _; WUseVars us; _; _; WSts l; _] => WFn {| f_ref := r; f_params := ps; f_uses := us; f_ret := []; f_body := l |}
  | [_; _; WUseVars us; _; _; WType t; _; WSts l; _] => WFn {| f_ref := r; f_params := ps; f_uses := us; f_ret := t; f_body := l |}
  | _ => WBad
  end.
Definition nodeOf (n : NT) (vs : list sv) : sv :=
  match n with
  | n_identifier | n_variableIdentifier => match vs with [WTok _] => WPart | _ => WBad end
  | n_semiReservedIdentifier | n_classConstant => match vs with [WPart] => WPart | _ => WBad end
  | n_reservedNonModifierIdentifier => match vs with [WPart] => WPart | _ => WBad end
  | n_namespacedIdentifier =>
      match vs with
      | WTok T_BACKSLASH :: r => partsOf r (fun k => WName {| absolute := true; more := k |})
      | _ => partsOf vs (fun k => WName {| absolute := false; more := k |})
      end
  | n_namespacedIdentifierBeforeGroupedNamespace =>
      match vs with
      | WTok T_BACKSLASH :: r => partsOf r (fun k => WName {| absolute := true; more := k |})
      | _ => partsOf vs (fun k => WName {| absolute := false; more := k |})
      end
  | n_semicolonOrCloseTag =>
      match vs with [WTok T_SEMICOLON] => WQ Semi | [WTok T_CLOSE_TAG] => WQ Close | _ => WBad end
  | n_genericTypeHint => readHint false vs
  | n_parameterTypeHint | n_returnTypeHint | n_propertyTypeHint =>
      match vs with WTok T_QUESTION :: r => readHint true r | _ => readHint false vs end
  | n_unionParameterType | n_unionReturnType | n_unionPropertyType => gives (pick getHint vs) WType
  | n_parameterType | n_returnType | n_propertyType => match vs with [WType t] => WType t | _ => WBad end
  | n_commonScalar => match vs with [WTok T_LNUMBER] => WSc ScNum | _ => WBad end
  | n_constantOrClassConst =>
      match vs with [WName n] => WSc (ScConst n) | [WName n; _; WPart] => WSc (ScClassConst n) | _ => WBad end
  | n_staticScalar =>
      match vs with
      | [WSc x] => WSc x
      | [WTok T_PLUS; WSc x] => WSc (ScPlus x)
      | [WTok T_MINUS; WSc x] => WSc (ScMinus x)
      | WTok T_LBRACKET :: r => gives (pick getPair r) (fun l => WSc (ScArray true l))
      | WTok T_ARRAY :: r => gives (pick getPair r) (fun l => WSc (ScArray false l))
      | _ => WBad
      end
  | n_staticArrayPairValue =>
      match vs with [WSc x] => WPair (x, None) | [WSc x; _; WSc y] => WPair (x, Some y) | _ => WBad end
  | n_declareItem => match vs with [_; _; WSc x] => WSc x | _ => WBad end
  | n_parameter => match vs with WType t :: r => readParam t r | _ => readParam [] vs end
  | n_parameterList => gives (pick getParam vs) WParams
  | n_forExpr => gives (pick getEx vs) WExs
  | n_foreachVariable => match vs with [WEx e] => WTarget (false, e) | [_; WEx e] => WTarget (true, e) | _ => WBad end
  | n_classVariable | n_staticVar =>
      match vs with [WPart] => WVarDecl None | [WPart; _; WSc x] => WVarDecl (Some x) | _ => WBad end
  | n_globalVar => match vs with [WPart] => WPart | _ => WBad end
  | n_classVariableDeclaration => gives (pick getVar vs) WVars
  | n_constantDeclaration | n_classConstantDeclaration => match vs with [WPart; _; WEx e] => WEx e | _ => WBad end
  | n_innerStatementList => gives (pick getSt vs) WSts
  | n_whileStatement | n_forStatement | n_foreachStatement | n_declareStatement =>
      match vs with [WSt s] => WSt s | [_; WSts l; _; WQ q] => WColon q l | _ => WBad end
  | n_elseifListItem => match vs with [_; _; WEx c; _; WSt s] => WElif (c, s) | _ => WBad end
  | n_elseifList => gives (pick getElif vs) WElifs
  | n_elseSingle => match vs with [] => WElse None | [_; WSt s] => WElse (Some s) | _ => WBad end
  | n_newelseifListItem => match vs with [_; _; WEx c; _; _; WSts l] => WElifC (c, l) | _ => WBad end
  | n_newElseifList => gives (pick getElifC vs) WElifsC
  | n_newElseSingle => match vs with [] => WElseC None | [_; _; WSts l] => WElseC (Some l) | _ => WBad end
  | n_case_item =>
      match vs with
      | [WTok T_CASE; WEx e; _; WSts l] => WCase (Some e, l)
      | [WTok T_DEFAULT; _; WSts l] => WCase (None, l)
      | _ => WBad
      end
  | n_caseList => gives (pick getCase vs) WCases
  | n_switchCaseList =>
      match vs with [WTok T_LBRACE; WCases l; _] => WCases l | [WTok T_COLON; WCases l; _; WQ q] => WCasesC q l | _ => WBad end
  | n_catchItem =>
      match rev vs with
      | _ :: WSts l :: _ :: _ :: WPart :: r => gives (pick getName (rev r)) (fun ns => WCatch (ns, l))
      | _ => WBad
      end
  | n_innerUseNamespace =>
      match rev vs with
      | WPart :: WTok T_AS :: r => partsOf (rev r) (fun k => WUseM (ImAny, k, true))
      | _ => partsOf vs (fun k => WUseM (ImAny, k, false))
      end
  | n_compoundNamespaceStatement =>
      match vs with
      | [WUseM m] => WUseM m
      | [WTok k; WUseM (_, j, b)] => gives (importOf k) (fun i => WUseM (i, j, b))
      | _ => WBad
      end
  | n_compoundNamespace => gives (pick getUseM vs) WUseMs
  | n_useNamespaceOrUseGroupedNamespace =>
      match vs with
      | [WName n] => WUse (UName n false)
      | [WName n; _; WPart] => WUse (UName n true)
      | [WName n; WUseMs l] => WUse (UGroup n l)
      | _ => WBad
      end
  | n_useStatement =>
      match vs with
      | WTok k :: r => gives (importOf k) (fun i => gives (pick getUse r) (WUses i))
      | _ => gives (pick getUse vs) (WUses ImAny)
      end
  | n_optionalModifiers | n_optionalClassModifier => gives (modsOf vs) WMods
  | n_traitVisibilityModifiers => gives (modsOf vs) WMods
  | n_classExtends => match vs with [WName n] => WName n | _ => WBad end
  | n_classImplements => gives (pick getName vs) WNames
  | n_methodBody => match vs with [WTok _] => WBody None | [_; WSts l; _] => WBody (Some l) | _ => WBad end
  | n_traitAliasIdentifier => match vs with [WName n; _; WPart] => WName n | _ => WBad end
  | n_traitAliasStatement =>
      match vs with
      | [WName n; WTok T_AS; WMods [m]] => WRename (n, RVisibility m)
      | [WName n; WTok T_AS; WPart] => WRename (n, RName)
      | [WName n; WTok T_AS; WMods [m]; WPart] => WRename (n, RBoth m)
      | WName n :: WTok T_INSTEADOF :: r => gives (pick getName r) (fun l => WRename (n, RInsteadof l))
      | _ => WBad
      end
  | n_traitAliasDeclaration => gives (pick getRename vs) WRenames
  | n_classStatement => readMember vs
  | n_classBody => gives (pick getMem vs) WMems
  | n_classDeclarationStatement | n_interfaceDeclarationStatement | n_traitDeclarationStatement =>
      match rev vs with
      | _ :: WMems l :: _ :: r => gives (readHead (rev r)) (fun h => WSt (SClass h l))
      | _ => WBad
      end
  | n_functionDeclarationStatement =>
      match vs with
      | [_; WTok _; WPart; _; WParams ps; _; _; WSts l; _] => WSt (SFunction true ps [] l)
      | [_; WTok _; WPart; _; WParams ps; _; _; WType t; _; WSts l; _] => WSt (SFunction true ps t l)
      | [_; WPart; _; WParams ps; _; _; WSts l; _] => WSt (SFunction false ps [] l)
      | [_; WPart; _; WParams ps; _; _; WType t; _; WSts l; _] => WSt (SFunction false ps t l)
      | _ => WBad
      end
  | n_lexicalVar => match vs with [WPart] => WUseVar false | [_; WPart] => WUseVar true | _ => WBad end
  | n_lexicalVarList => gives (pick getUseVar vs) WUseVars
  | n_closure =>
      match vs with
      | _ :: WTok T_BIT_AND :: _ :: WParams ps :: _ :: r => readFn true ps r
      | _ :: _ :: WParams ps :: _ :: r => readFn false ps r
      | _ => WBad
      end
  | n_statement =>
      match vs with
      | [WEx e; WQ q] => WSt (SExpr q e)
      | WTok k :: r => readWord k r
      | _ => WBad
      end
  | n_topStatement => match vs with [WSt s] => WSt s | [WTok T_HALT_COMPILER; _; _; _] => WSt SHalt | _ => WBad end
  | n_namespaceDeclarationStatement =>
      match rev vs with
      | WTok T_SEMICOLON :: r => partsOf (rev r) (fun k => WFi (FNs k))
      | WTok T_RBRACE :: WSts l :: _ :: [WTok _] => WFi (FNsBlock None l)
      | WTok T_RBRACE :: WSts l :: _ :: r => partsOf (rev r) (fun k => WFi (FNsBlock (Some k) l))
      | _ => WBad
      end
  | n_outerTopStatement => match vs with [WSt s] => WFi (FSt s) | [WFi f] => WFi f | _ => WBad end
  | _ => WBad
  end.
Fixpoint readS (t : tree) : sv :=
  match t with
  | Leaf k _ => WTok k
  | Node n _ ch _ =>
      match n with
      | n_expr | n_variable => match read t with VEx e => WEx e | _ => WBad end
      | _ => nodeOf n (map readS ch)
      end
  end.
(** What the node of a function without a name was read as. *)
Definition fnRead (t : tree) : option fn := match readS t with WFn f => Some f | _ => None end.
(** What a file was read as. *)
Definition sourceRead (t : tree) : option (list fi) :=
  match t with
  | Node n_start _ ch _ => pick (fun v => match v with WFi f => Some f | _ => None end) (map readS ch)
  | _ => None
  end.
End Statements.

(** Functions without a name inside each other, to any depth: at depth 0 there are none, at depth
    [S n] the expressions in one are over those of depth [n]. *)
Definition closures0 : Functions :=
  {| fun_ := Empty_set; funText := fun f => match f with end; funOk := fun f => match f with end; funRead := fun _ => None |}.
Fixpoint closures (n : nat) : Functions :=
  match n with
  | O => closures0
  | S m => {| fun_ := @fn (closures m); funText := @fnText (closures m); funOk := @fnOk (closures m); funRead := @fnRead (closures m) |}
  end.
