(** Expressions of PHP: how operators are written and how a parse tree is read.

    The levels are those of the table in the PHP manual (quoted in php.g 334-356, there without
    instanceof and [**]): a bigger level binds tighter.  instanceof binds tighter than [!], [**]
    tighter than every unary operator. *)
From Coq Require Import List Bool Arith.
From Verif Require Import Chars LexModel ParseModel.
Import ListNotations.
Open Scope nat_scope.

Inductive binop :=
| OOr | OXor | OAnd
| OCoalesce
| OBoolOr | OBoolAnd | OBitOr | OBitXor | OBitAnd
| OEq | ONotEq | OIdentical | ONotIdentical | OSpaceship
| OLess | OGreater | OLessEq | OGreaterEq
| OShl | OShr
| OPlus | OMinus | OConcat
| OMul | ODiv | OMod
| OExp.
Inductive unop := UMinus | UPlus | UNot | UTilde | UInt | UDouble | UString | UArray | UObject | UBool | UUnset | UAt.
Inductive asgop := AEq | APlus | AMinus | AMul | AExp | ADiv | AConcat | AMod | AAnd | AOr | AXor | AShl | AShr.

(** Literals written by tokens of their own; a nowdoc is three tokens. *)
Inductive lit := LFloat | LString | LLine | LDir | LFile | LClass | LTrait | LMethod | LFunc | LNamespace | LNowdoc.
(** An element of an array: [a], [k => a], [&v], [k => &v]. *)
Inductive entry (A : Type) := NVal (a : A) | NPair (k a : A) | NRef (v : A) | NPairRef (k v : A).
Arguments NVal {A}. Arguments NPair {A}. Arguments NRef {A}. Arguments NPairRef {A}.
(** A part of a string: text, [$v], [$v->name], [$v[..]] with a name, number or variable, and [{$..}]. *)
Inductive offset := FName | FNum | FVar.
Inductive bit (A : Type) := BText | BPlain | BProp | BOffset (o : offset) | BCurly (a : A).
Arguments BText {A}. Arguments BPlain {A}. Arguments BProp {A}. Arguments BOffset {A}. Arguments BCurly {A}.
Inductive quote := QDouble | QHeredoc | QShell.
(** The class behind new: a name, static, or a variable. *)
Inductive cls := CName | CStatic | CVar.
Inductive incl := Include | IncludeOnce | Require | RequireOnce.

(** Functions without a name, [function (..) use (..) { .. }], are made of statements, which are made of
    expressions: what an expression needs to know about them.  [FnSpec] gives them, nested to any depth. *)
Class Functions := {
  fun_ : Set;
  funText : fun_ -> list Tok;
  funOk : fun_ -> bool;
  funRead : tree -> option fun_
}.

Section Expressions.
Context {Fs : Functions}.

Inductive ex :=
| EVar                         (* $name *)
| ENum                         (* 42 *)
| EBin (o : binop) (a b : ex)
| EUn (o : unop) (a : ex)
| EAsg (o : asgop) (v a : ex)  (* v = a *)
| ECond (a b c : ex)           (* a ? b : c *)
| EElvis (a c : ex)            (* a ?: c *)
| EPrint (a : ex)
| EInstanceof (a : ex)         (* a instanceof Name *)
| EInclude (k : incl) (a : ex)
| EConst                       (* NAME *)
| EClassConst                  (* Name::NAME *)
| ECall (args : list ex)       (* name(args) *)
| EStatic                      (* Name::$name *)
| ESCall (args : list ex)      (* Name::name(args) *)
| EIndex (a i : ex)            (* a[i] *)
| EProp (a : ex)               (* a->name *)
| EInvoke (a : ex) (args : list ex) (* a(args), also a->name(args) *)
| ELit (k : lit)
| EString (q : quote) (l : list (bit ex))      (* "..", heredoc, `..` with variables in it *)
| EArray (short comma : bool) (l : list (entry ex)) (* [..] or array(..), with or without a comma at the end *)
| ENew (c : cls) (args : option (list ex))     (* new Name, new Name(args) *)
| EIsset (l : list ex)
| EEmpty (a : ex)
| EEval (a : ex)
| EExit (a : option (option ex))               (* exit, exit(), exit(a) *)
| EClone (a : ex)
| EIncDec (pre inc : bool) (v : ex)            (* ++v, --v, v++, v-- *)
| EList (l : list (option ex)) (a : ex)        (* list(v, , w) = a *)
| EYield (a : option (option ex * ex))         (* yield, yield a, yield k => a *)
| EYieldFrom (a : ex)
| EClosure (f : fun_).                         (* function (..) { .. } *)

Inductive assoc := LeftAssoc | RightAssoc | NonAssoc.
Definition opTok (o : binop) : Tok :=
  match o with
  | OOr => T_LOGICAL_OR | OXor => T_LOGICAL_XOR | OAnd => T_LOGICAL_AND
  | OCoalesce => T_NULL_COALESCE
  | OBoolOr => T_BOOLEAN_OR | OBoolAnd => T_BOOLEAN_AND | OBitOr => T_BIT_OR | OBitXor => T_BIT_XOR
  | OBitAnd => T_BIT_AND
  | OEq => T_IS_EQUAL | ONotEq => T_IS_NOT_EQUAL | OIdentical => T_IS_IDENTICAL
  | ONotIdentical => T_IS_NOT_IDENTICAL | OSpaceship => T_SPACESHIP
  | OLess => T_IS_SMALLER | OGreater => T_IS_GREATER | OLessEq => T_IS_SMALLER_OR_EQUAL
  | OGreaterEq => T_IS_GREATER_OR_EQUAL
  | OShl => T_SL | OShr => T_SR
  | OPlus => T_PLUS | OMinus => T_MINUS | OConcat => T_CONCAT
  | OMul => T_MUL | ODiv => T_DIV | OMod => T_MOD
  | OExp => T_EXP
  end.
Definition opLevel (o : binop) : nat :=
  match o with
  | OOr => 1 | OXor => 2 | OAnd => 3
  | OCoalesce => 7
  | OBoolOr => 8 | OBoolAnd => 9 | OBitOr => 10 | OBitXor => 11 | OBitAnd => 12
  | OEq | ONotEq | OIdentical | ONotIdentical | OSpaceship => 13
  | OLess | OGreater | OLessEq | OGreaterEq => 14
  | OShl | OShr => 15
  | OPlus | OMinus | OConcat => 16
  | OMul | ODiv | OMod => 17
  | OExp => 20
  end.
Definition opAssoc (o : binop) : assoc :=
  match o with
  | OCoalesce | OExp => RightAssoc
  | OEq | ONotEq | OIdentical | ONotIdentical | OSpaceship | OLess | OGreater | OLessEq | OGreaterEq => NonAssoc
  | _ => LeftAssoc
  end.
Definition unTok (o : unop) : Tok :=
  match o with
  | UMinus => T_MINUS | UPlus => T_PLUS | UNot => T_BANG | UTilde => T_TILDE | UInt => T_INT_CAST
  | UDouble => T_DOUBLE_CAST | UString => T_STRING_CAST | UArray => T_ARRAY_CAST
  | UObject => T_OBJECT_CAST | UBool => T_BOOL_CAST | UUnset => T_UNSET_CAST | UAt => T_AT
  end.
Definition asgTok (o : asgop) : Tok :=
  match o with
  | AEq => T_ASSIGN | APlus => T_PLUS_ASSIGN | AMinus => T_MINUS_ASSIGN | AMul => T_MUL_ASSIGN
  | AExp => T_EXP_ASSIGN | ADiv => T_DIV_ASSIGN | AConcat => T_CONCAT_ASSIGN | AMod => T_MOD_ASSIGN
  | AAnd => T_AND_ASSIGN | AOr => T_OR_ASSIGN | AXor => T_XOR_ASSIGN | AShl => T_SL_ASSIGN
  | AShr => T_SR_ASSIGN
  end.

Definition litText (k : lit) : list Tok :=
  match k with
  | LFloat => [T_DNUMBER] | LString => [T_CONSTANT_ENCAPSED_STRING] | LLine => [T_LINE] | LDir => [T_DIR]
  | LFile => [T_FILE] | LClass => [T_CLASS_C] | LTrait => [T_TRAIT_C] | LMethod => [T_METHOD_C]
  | LFunc => [T_FUNC_C] | LNamespace => [T_NAMESPACE_C] | LNowdoc => [T_START_NOWDOC; T_STRING; T_END_NOWDOC]
  end.
Definition openTok (q : quote) : Tok := match q with QDouble => T_DOUBLE_QUOTE | QHeredoc => T_START_HEREDOC | QShell => T_BACKTICK end.
Definition closeTok (q : quote) : Tok := match q with QDouble => T_DOUBLE_QUOTE | QHeredoc => T_END_HEREDOC | QShell => T_BACKTICK end.
Definition clsTok (c : cls) : Tok := match c with CName => T_STRING | CStatic => T_STATIC | CVar => T_VARIABLE end.
Definition inclTok (k : incl) : Tok :=
  match k with Include => T_INCLUDE | IncludeOnce => T_INCLUDE_ONCE | Require => T_REQUIRE | RequireOnce => T_REQUIRE_ONCE end.
Definition stepTok (inc : bool) : Tok := if inc then T_INC else T_DEC.
Definition offText (o : offset) : Tok := match o with FName => T_STRING | FNum => T_NUM_STRING | FVar => T_VARIABLE end.

(** 22: what needs no parentheses anywhere; 21: new, clone and functions, which need them in front of [->], [[..]] and [(args)] only. *)
Definition level (e : ex) : nat :=
  match e with
  | EBin o _ _ => opLevel o
  | EUn _ _ | EIncDec _ _ _ => 18
  | EAsg _ _ _ | EList _ _ => 5
  | ECond _ _ _ | EElvis _ _ => 6
  | EPrint _ | EYield _ | EYieldFrom _ => 4
  | EInstanceof _ => 19
  | EInclude _ _ => 0
  | ENew _ _ | EClone _ | EClosure _ => 21
  | _ => 22
  end.

(** [wrap l e w]: [w], the text of [e], where an expression of level [l] is wanted. *)
Definition wrap (l : nat) (e : ex) (w : list Tok) : list Tok :=
  if level e <? l then T_LPAREN :: w ++ [T_RPAREN] else w.
Definition leftLevel (o : binop) : nat :=
  match opAssoc o with LeftAssoc => opLevel o | _ => S (opLevel o) end.
Definition rightLevel (o : binop) : nat :=
  match opAssoc o with RightAssoc => opLevel o | _ => S (opLevel o) end.

Fixpoint commas (l : list (list Tok)) : list Tok :=
  match l with [] => [] | [w] => w | w :: r => w ++ T_COMMA :: commas r end.

Definition entryText {A : Type} (f g : A -> list Tok) (n : entry A) : list Tok :=
  match n with
  | NVal a => f a
  | NPair k a => g k ++ T_DOUBLE_ARROW :: f a
  | NRef v => T_BIT_AND :: f v
  | NPairRef k v => g k ++ T_DOUBLE_ARROW :: T_BIT_AND :: f v
  end.
Definition bitText {A : Type} (f : A -> list Tok) (b : bit A) : list Tok :=
  match b with
  | BText => [T_ENCAPSED_AND_WHITESPACE]
  | BPlain => [T_VARIABLE]
  | BProp => [T_VARIABLE; T_OBJECT_OPERATOR; T_STRING]
  | BOffset o => [T_VARIABLE; T_LBRACKET; offText o; T_RBRACKET]
  | BCurly a => T_CURLY_OPEN :: f a ++ [T_RBRACE]
  end.
Definition arrayText (short comma : bool) (l : list (list Tok)) : list Tok :=
  let inner := commas l ++ (if comma then [T_COMMA] else []) in
  if short then T_LBRACKET :: inner ++ [T_RBRACKET] else T_ARRAY :: T_LPAREN :: inner ++ [T_RPAREN].

(** The text of an expression, with the parentheses that levels and associativity ask for and no
    others.  A ternary inside a ternary and a yield, print, and, or, xor as key of an array are always put in
    parentheses. *)
Fixpoint text (e : ex) : list Tok :=
  match e with
  | EVar => [T_VARIABLE]
  | ENum => [T_LNUMBER]
  | EBin o a b => wrap (leftLevel o) a (text a) ++ opTok o :: wrap (rightLevel o) b (text b)
  | EUn o a => unTok o :: wrap 18 a (text a)
  | EAsg o v a => wrap 6 v (text v) ++ asgTok o :: wrap 5 a (text a)
  | ECond a b c => wrap 7 a (text a) ++ T_QUESTION :: wrap 0 b (text b) ++ T_COLON :: wrap 7 c (text c)
  | EElvis a c => wrap 7 a (text a) ++ T_QUESTION :: T_COLON :: wrap 7 c (text c)
  | EPrint a => T_PRINT :: wrap 5 a (text a)
  | EInstanceof a => wrap 20 a (text a) ++ [T_INSTANCEOF; T_STRING]
  | EInclude k a => inclTok k :: wrap 0 a (text a)
  | EConst => [T_STRING]
  | EClassConst => [T_STRING; T_PAAMAYIM_NEKUDOTAYIM; T_STRING]
  | ECall args => T_STRING :: T_LPAREN :: commas (map text args) ++ [T_RPAREN]
  | EStatic => [T_STRING; T_PAAMAYIM_NEKUDOTAYIM; T_VARIABLE]
  | ESCall args => T_STRING :: T_PAAMAYIM_NEKUDOTAYIM :: T_STRING :: T_LPAREN :: commas (map text args) ++ [T_RPAREN]
  | EIndex a i => wrap 22 a (text a) ++ T_LBRACKET :: text i ++ [T_RBRACKET]
  | EProp a => wrap 22 a (text a) ++ [T_OBJECT_OPERATOR; T_STRING]
  | EInvoke a args => wrap 22 a (text a) ++ T_LPAREN :: commas (map text args) ++ [T_RPAREN]
  | ELit k => litText k
  | EString q l => openTok q :: flat_map (bitText text) l ++ [closeTok q]
  | EArray short comma l => arrayText short comma (map (entryText text (fun k => wrap 5 k (text k))) l)
  | ENew c args => T_NEW :: clsTok c :: match args with None => [] | Some l => T_LPAREN :: commas (map text l) ++ [T_RPAREN] end
  | EIsset l => T_ISSET :: T_LPAREN :: commas (map text l) ++ [T_RPAREN]
  | EEmpty a => T_EMPTY :: T_LPAREN :: text a ++ [T_RPAREN]
  | EEval a => T_EVAL :: T_LPAREN :: text a ++ [T_RPAREN]
  | EExit None => [T_EXIT]
  | EExit (Some None) => [T_EXIT; T_LPAREN; T_RPAREN]
  | EExit (Some (Some a)) => T_EXIT :: T_LPAREN :: text a ++ [T_RPAREN]
  | EClone a => T_CLONE :: wrap 21 a (text a)
  | EIncDec true inc v => stepTok inc :: wrap 18 v (text v)
  | EIncDec false inc v => wrap 18 v (text v) ++ [stepTok inc]
  | EList l a => T_LIST :: T_LPAREN :: commas (map (fun o => match o with None => [] | Some v => text v end) l) ++
                 T_RPAREN :: T_ASSIGN :: wrap 5 a (text a)
  | EYield None => [T_YIELD]
  | EYield (Some (None, a)) => T_YIELD :: wrap 5 a (text a)
  | EYield (Some (Some k, a)) => T_YIELD :: wrap 5 k (text k) ++ T_DOUBLE_ARROW :: wrap 5 a (text a)
  | EYieldFrom a => T_YIELD_FROM :: wrap 5 a (text a)
  | EClosure f => funText f
  end.

(** Variables, calls and what can be reached from them; the elements of an array literal; what is reached from
    a new object.  [callable]: what [(args)] may follow, the grammar has no call of the result of a call. *)
Fixpoint path (e : ex) : bool :=
  match e with
  | EVar | ECall _ | EStatic | ESCall _ => true
  | EIndex a _ | EProp a | EInvoke a _ => path a
  | _ => false
  end.
Fixpoint element (e : ex) : bool :=
  match e with EArray _ _ _ => true | EIndex a _ => element a | _ => false end.
Fixpoint ofNew (e : ex) : bool :=
  match e with EProp (ENew _ _) => true | EIndex a _ | EProp a | EInvoke a _ => ofNew a | _ => false end.
Fixpoint callable (e : ex) : bool :=
  match e with EVar | EStatic | EProp _ => true | EIndex a _ => callable a | _ => false end.

(** The level at which the plugin's grammar reads an expression, where it is not the level of PHP: [**] is
    read like [*], instanceof like [<], include and exit like a unary operator. *)
Definition readLevel (e : ex) : nat :=
  match e with
  | EBin OExp _ _ => 17
  | EInstanceof _ => 14
  | EInclude _ _ | EExit _ | EEval _ | EList _ _ => 18
  | EIncDec _ _ _ => 19
  | EArray _ _ _ => 20
  | EIndex _ _ => if element e then 20 else 21
  | _ => Nat.min 21 (level e)
  end.
(** [a], written where level [l] is wanted, stands where the grammar reads level [m]. *)
Definition fits (l m : nat) (a : ex) : bool := (level a <? l) || (m <=? readLevel a).

Definition plainEntry {A : Type} (f g : A -> bool) (n : entry A) : bool :=
  match n with NVal a => f a | NPair k a => f k && f a | NRef v => g v | NPairRef k v => f k && g v end.
Definition plainBit {A : Type} (g : A -> bool) (b : bit A) : bool := match b with BCurly a => g a | _ => true end.

(** A function that is called where it stands, [(function (..) { .. })(args)]; not with [&] behind function. *)
Definition calledHere (e : ex) : bool :=
  match e with EClosure f => match funText f with _ :: T_LPAREN :: _ => true | _ => false end | _ => false end.

(** Operands are where the grammar reads them at the level they have in PHP; indices, [->] and calls follow variables, calls, new
    objects and (indices only) array literals; variables are assigned, counted, unset and referred to. *)
Fixpoint plain (e : ex) : bool :=
  match e with
  | EVar | ENum | EConst | EClassConst | EStatic | ELit _ | EExit None | EExit (Some None) | EYield None => true
  | EBin OExp a b => plain a && plain b && fits 21 18 a && fits 20 18 b
  | EBin o a b => plain a && plain b && fits (leftLevel o) (leftLevel o) a && fits (rightLevel o) (rightLevel o) b
  | EUn _ a => plain a && fits 18 18 a
  | EPrint a => plain a && fits 5 5 a
  | EAsg _ v a => path v && plain v && plain a && fits 5 5 a
  | ECond a b c => plain a && plain b && plain c && fits 7 7 a && fits 7 6 c
  | EElvis a c => plain a && plain c && fits 7 7 a && fits 7 6 c
  | EInstanceof a => plain a && fits 20 15 a
  | EInclude _ a => plain a && fits 0 18 a
  | ECall args | ESCall args => forallb plain args
  | EIndex a i => (path a || ofNew a || element a) && plain a && plain i
  | EProp a => (path a || ofNew a || match a with ENew _ _ => true | _ => false end) && plain a
  | EInvoke a args => ((path a || ofNew a) && callable a || calledHere a) && plain a && forallb plain args
  | EString _ l => forallb (plainBit (fun v => path v && plain v)) l
  | EArray _ comma l => forallb (plainEntry plain (fun v => path v && plain v)) l && (negb comma || match l with [] => false | _ => true end)
  | ENew _ None => true
  | ENew _ (Some l) => forallb plain l
  | EIsset l => match l with [] => false | _ => true end && forallb (fun v => path v && plain v) l
  | EEmpty a | EEval a | EExit (Some (Some a)) => plain a
  | EClone a => plain a && fits 21 21 a
  | EIncDec _ _ v => path v && plain v
  | EList l a => match l with [] => false | _ => true end &&
                 forallb (fun o => match o with None => true | Some v => path v && plain v end) l && plain a && fits 5 18 a
  | EYield (Some (None, a)) | EYieldFrom a => plain a
  | EYield (Some (Some k, a)) => plain k && plain a
  | EClosure f => funOk f
  end.

(** Reading a tree of the parser as an expression: the rules with several operands of the same
    level list them from left to right, and the operators group as their associativity says. *)
Inductive step := MIndex (i : ex) | MProp | MInvoke (args : list ex).
Inductive val := VTok (k : Tok) | VEx (e : ex) | VRest (k : Tok) (e : ex) | VNone | VBad
               | VMods (m : list step) | VArgs (l : list ex)
               | VEntry (n : entry ex) | VBit (b : bit ex) | VBits (l : list (bit ex)) | VOff (o : offset) | VCls (c : cls)
               | VSlots (l : list (option ex)).
Definition apply1 (e : ex) (m : step) : ex :=
  match m with MIndex i => EIndex e i | MProp => EProp e | MInvoke args => EInvoke e args end.
Definition apply (e : ex) (m : list step) : ex := fold_left apply1 m e.

Definition allBin : list binop :=
  [OOr; OXor; OAnd; OCoalesce; OBoolOr; OBoolAnd; OBitOr; OBitXor; OBitAnd; OEq; ONotEq; OIdentical;
   ONotIdentical; OSpaceship; OLess; OGreater; OLessEq; OGreaterEq; OShl; OShr; OPlus; OMinus;
   OConcat; OMul; ODiv; OMod; OExp].
Definition allUn : list unop :=
  [UMinus; UPlus; UNot; UTilde; UInt; UDouble; UString; UArray; UObject; UBool; UUnset; UAt].
Definition allAsg : list asgop :=
  [AEq; APlus; AMinus; AMul; AExp; ADiv; AConcat; AMod; AAnd; AOr; AXor; AShl; AShr].
Definition binOf (k : Tok) : option binop := find (fun o => teq (opTok o) k) allBin.
Definition unOf (k : Tok) : option unop := find (fun o => teq (unTok o) k) allUn.
Definition asgOf (k : Tok) : option asgop := find (fun o => teq (asgTok o) k) allAsg.

Definition mkBin (k : Tok) (a b : ex) : val :=
  match binOf k with Some o => VEx (EBin o a b) | None => VBad end.
Fixpoint chainL (e : ex) (vs : list val) : val :=
  match vs with
  | [] => VEx e
  | VTok k :: VEx a :: r => match mkBin k e a with VEx e' => chainL e' r | _ => VBad end
  | VRest k a :: r => match mkBin k e a with VEx e' => chainL e' r | _ => VBad end
  | _ => VBad
  end.
Fixpoint chainR (e : ex) (vs : list val) : val :=
  match vs with
  | [] => VEx e
  | VTok k :: VEx a :: r => match chainR a r with VEx b => mkBin k e b | _ => VBad end
  | _ => VBad
  end.

(** Parts that all say what happens to the expression in front of them. *)
Fixpoint mods (vs : list val) : option (list step) :=
  match vs with
  | [] => Some []
  | VMods m :: r => match mods r with Some m' => Some (m ++ m') | None => None end
  | _ => None
  end.
Definition modified (e : ex) (vs : list val) : val :=
  match mods vs with Some m => VEx (apply e m) | None => VBad end.
Fixpoint argsOf (vs : list val) : option (list ex) :=
  match vs with
  | [] => Some []
  | [VEx e] => Some [e]
  | VEx e :: VTok T_COMMA :: r => match argsOf r with Some l => Some (e :: l) | None => None end
  | _ => None
  end.
(** The parts in front of the closing token. *)
Fixpoint upTo (k : Tok) (vs : list val) : option (list val) :=
  match vs with
  | [] => None
  | [VTok k'] => if teq k' k then Some [] else None
  | v :: r => match upTo k r with Some l => Some (v :: l) | None => None end
  end.
Fixpoint entriesOf (vs : list val) : option (bool * list (entry ex)) :=
  match vs with
  | [] => Some (false, [])
  | [VEntry n] => Some (false, [n])
  | [VEntry n; VTok T_COMMA] => Some (true, [n])
  | VEntry n :: VTok T_COMMA :: r => match entriesOf r with Some (c, l) => Some (c, n :: l) | None => None end
  | _ => None
  end.
Definition arrayOf (short : bool) (k : Tok) (vs : list val) : val :=
  match upTo k vs with
  | Some l => match entriesOf l with Some (c, es) => VEx (EArray short c es) | None => VBad end
  | None => VBad
  end.
Fixpoint bitsOf (vs : list val) : option (list (bit ex)) :=
  match vs with
  | [] => Some []
  | VBit b :: r => match bitsOf r with Some l => Some (b :: l) | None => None end
  | _ => None
  end.
Definition slotOf (v : val) : option (option ex) := match v with VNone => Some None | VEx e => Some (Some e) | _ => None end.
Fixpoint slotsOf (vs : list val) : option (list (option ex)) :=
  match vs with
  | [] => None
  | [v] => match slotOf v with Some o => Some [o] | None => None end
  | v :: VTok T_COMMA :: r =>
      match slotOf v, slotsOf r with Some o, Some l => Some (o :: l) | _, _ => None end
  | _ => None
  end.
Definition allLit : list lit := [LFloat; LString; LLine; LDir; LFile; LClass; LTrait; LMethod; LFunc; LNamespace].
Definition litOf (k : Tok) : option lit := find (fun l => teq (hd T_EOF (litText l)) k) allLit.

(** [$name..] behind [Name::] *)
Fixpoint asStatic (e : ex) : ex :=
  match e with EVar => EStatic | EIndex a i => EIndex (asStatic a) i | _ => e end.

Definition readNode (n : NT) (vs : list val) : val :=
  match n, vs with
  | n_nullCoalesceExpression, VEx e :: r => chainR e r
  | (n_logicalOrExpression | n_logicalXorExpression | n_logicalAndExpression | n_booleanOrExpression
     | n_booleanAndExpression | n_bitOrExpression | n_bitXorExpression | n_bitAndExpression
     | n_equalityExpression | n_shiftExpression | n_additiveExpression
     | n_multiplicativeExpression), VEx e :: r => chainL e r
  | n_relationalExpression, [VEx e; VTok T_INSTANCEOF; VCls CName] => VEx (EInstanceof e)
  | n_relationalExpression, VEx e :: r => chainL e r
  | n_className, [VNone] => VCls CName
  | n_className, [VTok T_STATIC] => VCls CStatic
  | n_classNameReference, [VCls c] => VCls c
  | n_classNameReference, [VEx EVar] => VCls CVar
  | (n_equalityExpressionRest | n_relationalExpressionRest | n_shiftExpressionRest
     | n_additiveExpressionRest | n_multiplicativeExpressionRest), [VTok k; VEx e] => VRest k e
  | n_unaryExpression, [VTok T_INCLUDE; VEx e] => VEx (EInclude Include e)
  | n_unaryExpression, [VTok T_INCLUDE_ONCE; VEx e] => VEx (EInclude IncludeOnce e)
  | n_unaryExpression, [VTok T_REQUIRE; VEx e] => VEx (EInclude Require e)
  | n_unaryExpression, [VTok T_REQUIRE_ONCE; VEx e] => VEx (EInclude RequireOnce e)
  | n_unaryExpression, [VTok T_EXIT] => VEx (EExit None)
  | n_unaryExpression, [VTok T_EXIT; VTok T_LPAREN; VTok T_RPAREN] => VEx (EExit (Some None))
  | n_unaryExpression, [VTok T_EXIT; VTok T_LPAREN; VEx e; VTok T_RPAREN] => VEx (EExit (Some (Some e)))
  | n_unaryExpression, [VTok T_EVAL; VTok T_LPAREN; VEx e; VTok T_RPAREN] => VEx (EEval e)
  | n_unaryExpression, [VTok T_LIST; VTok T_LPAREN; VSlots l; VTok T_RPAREN; VTok T_ASSIGN; VEx e] => VEx (EList l e)
  | n_assignmentList, _ => match slotsOf vs with Some l => VSlots l | None => VBad end
  | n_assignmentListElement, [] => VNone
  | n_postprefixOperator, [VTok k] => VTok k
  | n_unaryExpressionNotPlusminus, [VTok T_INC; VEx v] => VEx (EIncDec true true v)
  | n_unaryExpressionNotPlusminus, [VTok T_DEC; VEx v] => VEx (EIncDec true false v)
  | n_unaryExpressionNotPlusminus, [VEx v; VTok T_INC] => VEx (EIncDec false true v)
  | n_unaryExpressionNotPlusminus, [VEx v; VTok T_DEC] => VEx (EIncDec false false v)
  | n_varExpression, [VTok T_YIELD] => VEx (EYield None)
  | n_varExpression, [VTok T_YIELD; VEx a] => VEx (EYield (Some (None, a)))
  | n_varExpression, [VTok T_YIELD; VEx k; VTok T_DOUBLE_ARROW; VEx a] => VEx (EYield (Some (Some k, a)))
  | n_varExpression, [VTok T_YIELD_FROM; VEx a] => VEx (EYieldFrom a)
  | n_varExpression, VEx e :: r => modified e r
  | n_unaryExpression, [VTok k; VEx e] => match unOf k with Some o => VEx (EUn o e) | None => VBad end
  | n_iifeSyntax, [VTok T_LPAREN; VEx e; VTok T_RPAREN] => VEx e
  | n_iifeSyntax, [VTok T_LPAREN; VEx e; VTok T_RPAREN; VTok T_LPAREN; VArgs l; VTok T_RPAREN] => VEx (EInvoke e l)
  | n_printExpression, [VTok T_PRINT; VEx e] => VEx (EPrint e)
  | n_assignmentExpressionCheckIfVariable, [] => VNone
  | n_assignmentExpressionEqual, [VTok T_ASSIGN; VNone; VEx e] => VRest T_ASSIGN e
  | n_assignmentExpression, [VEx v; VRest T_ASSIGN e] => VEx (EAsg AEq v e)
  | n_assignmentExpression, [VEx v; VTok k; VNone; VEx e] =>
      match asgOf k with Some o => VEx (EAsg o v e) | None => VBad end
  | n_conditionalExpression, [VEx a; VTok T_QUESTION; VEx b; VTok T_COLON; VEx c] => VEx (ECond a b c)
  | n_conditionalExpression, [VEx a; VTok T_QUESTION; VTok T_COLON; VEx c] => VEx (EElvis a c)
  | n_varExpressionNormal, VTok T_LPAREN :: VEx e :: VTok T_RPAREN :: r => modified e r
  | n_varExpressionNormal, VTok T_ISSET :: VTok T_LPAREN :: r =>
      match upTo T_RPAREN r with
      | Some l => match argsOf l with Some vs => VEx (EIsset vs) | None => VBad end
      | None => VBad
      end
  | n_varExpressionNormal, [VTok T_EMPTY; VTok T_LPAREN; VEx e; VTok T_RPAREN] => VEx (EEmpty e)
  | n_varExpressionNormal, [VTok T_CLONE; VEx e] => VEx (EClone e)
  | n_varExpressionNormal, [VTok T_BACKTICK; VBits l; VTok T_BACKTICK] => VEx (EString QShell l)
  | n_instantiationAccess, [VTok T_OBJECT_OPERATOR; VMods m] => VMods m
  | n_varExpressionNewObject, [VTok T_NEW; VCls c; VNone] => VEx (ENew c None)
  | n_varExpressionNewObject, [VTok T_NEW; VCls c; VArgs l] => VEx (ENew c (Some l))
  | n_ctorArguments, [] => VNone
  | n_ctorArguments, [VTok T_LPAREN; VArgs l; VTok T_RPAREN] => VArgs l
  | n_varExpressionArray, VTok T_ARRAY :: VTok T_LPAREN :: r => arrayOf false T_RPAREN r
  | n_varExpressionArray, VTok T_LBRACKET :: r => arrayOf true T_RBRACKET r
  | n_arrayPairValue, [VEx a] => VEntry (NVal a)
  | n_arrayPairValue, [VEx k; VTok T_DOUBLE_ARROW; VEx a] => VEntry (NPair k a)
  | n_arrayPairValue, [VTok T_BIT_AND; VEx v] => VEntry (NRef v)
  | n_arrayPairValue, [VEx k; VTok T_DOUBLE_ARROW; VTok T_BIT_AND; VEx v] => VEntry (NPairRef k v)
  | n_encapsList, _ => match bitsOf vs with Some l => VBits l | None => VBad end
  | n_encaps, [VBit b] => VBit b
  | n_encaps, [VTok T_ENCAPSED_AND_WHITESPACE] => VBit BText
  | n_encapsVar, [VEx EVar] => VBit BPlain
  | n_encapsVar, [VEx EVar; VTok T_OBJECT_OPERATOR; VNone] => VBit BProp
  | n_encapsVar, [VEx EVar; VTok T_LBRACKET; VOff o; VTok T_RBRACKET] => VBit (BOffset o)
  | n_encapsVar, [VTok T_CURLY_OPEN; VEx a; VTok T_RBRACE] => VBit (BCurly a)
  | n_encapsVarOffset, [VTok T_STRING] => VOff FName
  | n_encapsVarOffset, [VTok T_NUM_STRING] => VOff FNum
  | n_encapsVarOffset, [VEx EVar] => VOff FVar
  | n_scalar, [VTok T_DOUBLE_QUOTE; VBits l; VTok T_DOUBLE_QUOTE] => VEx (EString QDouble l)
  | n_scalar, [VTok T_START_HEREDOC; VBits l; VTok T_END_HEREDOC] => VEx (EString QHeredoc l)
  | n_commonScalar, [VTok T_START_NOWDOC; VTok T_STRING; VTok T_END_NOWDOC] => VEx (ELit LNowdoc)
  | n_variableIdentifier, [VTok T_VARIABLE] => VEx EVar
  | n_commonScalar, [VTok T_LNUMBER] => VEx ENum
  | n_commonScalar, [VTok k] => match litOf k with Some l => VEx (ELit l) | None => VBad end
  | n_identifier, [VTok T_STRING] => VNone
  | (n_namespacedIdentifier | n_semiReservedIdentifier | n_classConstant | n_variableName), [VNone] => VNone
  | n_constantOrClassConst, [VNone] => VEx EConst
  | n_constantOrClassConst, [VNone; VTok T_PAAMAYIM_NEKUDOTAYIM; VNone] => VEx EClassConst
  | n_arrayIndexSpecifier, [VTok T_LBRACKET; VEx i; VTok T_RBRACKET] => VMods [MIndex i]
  | (n_dimListItem | n_objectProperty | n_variableProperty), [VMods m] => VMods m
  | n_functionCallParameterList, _ => match argsOf vs with Some l => VArgs l | None => VBad end
  | n_functionCall, [VNone; VTok T_LPAREN; VArgs l; VTok T_RPAREN] => VEx (ECall l)
  | n_functionCall, [VNone; VTok T_PAAMAYIM_NEKUDOTAYIM; VNone; VTok T_LPAREN; VArgs l; VTok T_RPAREN] => VEx (ESCall l)
  | n_functionCall, [VNone; VTok T_PAAMAYIM_NEKUDOTAYIM; VEx e; VTok T_LPAREN; VArgs l; VTok T_RPAREN] =>
      VEx (EInvoke (asStatic e) l)
  | n_functionCall, [VEx e; VTok T_LPAREN; VArgs l; VTok T_RPAREN] => VEx (EInvoke e l)
  | n_staticProperty, VTok T_PAAMAYIM_NEKUDOTAYIM :: VEx EVar :: r => modified EStatic r
  | n_staticMember, [VNone; VEx e] => VEx e
  | (n_variableWithoutObjects | n_baseVariable | n_baseVariableWithFunctionCalls | n_variable), VEx e :: r => modified e r
  | n_objectDimList, VNone :: r => match mods r with Some m => VMods (MProp :: m) | None => VBad end
  | n_variableProperty, VMods m :: VTok T_LPAREN :: VArgs l :: VTok T_RPAREN :: r =>
      match mods r with Some m' => VMods (m ++ MInvoke l :: m') | None => VBad end
  | n_objectOperator, [VTok T_OBJECT_OPERATOR] => VTok T_OBJECT_OPERATOR
  | n_variableObjectProperty, [VTok T_OBJECT_OPERATOR; VMods m] => VMods m
  | _, [VEx e] => VEx e
  | _, _ => VBad
  end.
Fixpoint read (t : tree) : val :=
  match t with
  | Leaf k _ => VTok k
  | Node n_closure _ _ _ => match funRead t with Some f => VEx (EClosure f) | None => VBad end
  | Node n _ ch _ => readNode n (map read ch)
  end.

(** The file [<?php e1; ... en;] and the expressions of a file like that. *)
Definition fileOf (es : list ex) : list Tok := T_OPEN_TAG :: flat_map (fun e => text e ++ [T_SEMICOLON]) es.
Definition statementOf (t : tree) : option ex :=
  match t with
  | Node n_outerTopStatement _ [Node n_topStatement _ [Node n_statement _
      [x; Node n_semicolonOrCloseTag _ [Leaf T_SEMICOLON _] _] _] _] _ =>
      match read x with VEx e => Some e | _ => None end
  | _ => None
  end.
Definition expressionsOf (t : tree) : option (list (option ex)) :=
  match t with
  | Node n_start _ (Node n_outerTopStatement _ [Node n_topStatement _ [Node n_statement _ [Leaf T_OPEN_TAG _] _] _] _ :: ts) _ =>
      Some (map statementOf ts)
  | _ => None
  end.
End Expressions.
