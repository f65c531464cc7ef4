(** Member accesses: $a->b(..)->c, C::m(), C::$p, C::K.  The uses ExpressionVisitor (duchain/expressionvisitor.cpp) makes
    of the names behind the arrows.

    Variables and class names are looked up elsewhere (OccModel.v, LookModel.v); here [varTy] and [staticOf] say what is
    found. *)
From Coq Require Import List Bool Arith NArith.
From Verif Require Import PhpTypes Chars LookModel ExprModel.
Import ListNotations.

Inductive mkind := Method | Property | Constant.
(** A member of a class: kind, name as spelled (properties without the $), private?, abstractType() of a property or
    constant, FunctionType::returnType() of a method (none if it has another type), identity. *)
Record member := { mk : mkind; mname : qstring; mpriv : bool; mty : option ty; mret : option ty; mid : nat }.
(** The context of a class: its declaration, the members in the order of their declaration, the imported contexts (the
    base class and interfaces in the order written, contextbuilder.cpp 429-459).  Imports have no cycles (C19). *)
Inductive ctx := Ctx (cid : N) (own : list member) (imps : list ctx).

Section Chains.
Variable cc : CharClass.

(** The identifier a member is declared with: methods in lower case (contextbuilder.cpp 190-222, declarationbuilder.cpp
    318-327), properties and constants as spelled (543-560, 646-689). *)
Definition ident (m : member) : qstring := match mk m with Method => lower cc (mname m) | _ => mname m end.
Definition isMethod (m : member) : bool := match mk m with Method => true | _ => false end.

(** DUContext::findDeclarations of a class context (platform): its own declarations; if it has none with the identifier,
    those of the imported contexts, from the last to the first; once something is found, only the own
    declarations of further imports are added (DUContext::findDeclarationsInternal, foundEnough). *)
Fixpoint search (i : qstring) (c : ctx) (acc : list (N * member)) {struct c} : list (N * member) :=
  match c with
  | Ctx n own imps =>
      match acc ++ map (pair n) (filter (fun m => eqs (ident m) i) own) with
      | [] => fold_right (fun c a => search i c a) [] imps
      | l => l
      end
  end.
Definition findDeclarations (i : qstring) (c : ctx) : list (N * member) := search i c [].

(** [ctxOf]: the class context of a type's declaration, if there are both (598-608).  [varTy]: the type of the variable at
    a position; [staticOf]: the class context the class name in front of :: leads to (findClassContext 377-409). *)
Record world := { ctxOf : N -> option ctx; varTy : nat -> option ty; staticOf : nat -> option ctx }.

(** Expressions, in the order they are visited; a position identifies a token.
    - [Node l t]: an expression that gives its own type [t] after its parts [l], such as a literal, an operator,
      new C(..), f(..)
    - [Member e p n stat args]: e->n, e->n(args), with [stat] e::n
    - [VarMember e p n stat args]: e->$n, with [stat] e::$n
    - [Elem e l]: e[i][j].., [None] for []; [e] itself is no [Elem]
    - [StaticCall p q n args]: C::n(args), C at p, n at q; [StaticProp p q n]: C::$n; [ClassConst p q n]: C::n
    Left out: e->n[i](args), e->{..}, dynamic class and function names, encapsed strings. *)
Inductive ex :=
| Node (l : list ex) (t : option ty)
| Var (p : nat)
| Member (e : ex) (p : nat) (n : qstring) (stat : bool) (args : option (list ex))
| VarMember (e : ex) (p : nat) (n : qstring) (stat : bool) (args : option (list ex))
| Elem (e : ex) (l : list (option ex))
| StaticCall (p q : nat) (n : qstring) (args : list ex)
| StaticProp (p q : nat) (n : qstring)
| ClassConst (p q : nat) (n : qstring).
(** Is the outermost access a call? *)
Definition isCall (e : ex) : bool :=
  match e with Member _ _ _ _ (Some _) | VarMember _ _ _ _ (Some _) | StaticCall _ _ _ _ => true | _ => false end.

(** m_result.type() and the uses so far: position and declaration, or none for an unresolved name. *)
Record use := { up : nat; ud : option (N * nat) }.
Record state := { ty_ : option ty; uses : list use }.
Definition setTy (t : option ty) (s : state) : state := {| ty_ := t; uses := uses s |}.
Definition emit (u : use) (s : state) : state := {| ty_ := ty_ s; uses := uses s ++ [u] |}.
Definition declOf (d : N * member) : N * nat := (fst d, mid (snd d)).

Variable w : world.

(** visitVariableProperty 569-671.  Inside of a chain m_isAssignmentExpressionEqual is off (visitVariable 165-180). *)
Definition access (p : nat) (n : qstring) (call : bool) (s : state) : state :=
  match targetClass (ty_ s) with
  | None => s                                                            (* 598: no StructureType *)
  | Some c =>
      match ctxOf w c with
      | None => setTy None s                                             (* 664-669 *)
      | Some x =>
          let found := findDeclarations (if call then lower cc n else n) x in
          let decs := filter (fun d =>
            if call then isMethod (snd d)
            else negb (isMethod (snd d)) && (if mpriv (snd d) then N.eqb (fst d) c else true)) found in                                           (* 621-642 *)
          match rev decs with
          | d :: _ => emit {| up := p; ud := Some (declOf d) |} (setTy (if call then mret (snd d) else mty (snd d)) s)
          | [] => emit {| up := p; ud := None |} (setTy None s)
          end
      end
  end.
(** The last declaration found, whatever it is (visitFunctionCall 325-334, useDeclaration 984-994,
    visitConstantOrClassConst 419-425). *)
Definition lastFound (i : qstring) (x : ctx) : option (N * member) :=
  match rev (findDeclarations i x) with d :: _ => Some d | [] => None end.
(** The type setDeclarations leaves (expressionevaluationresult.cpp 50-66): a method has a function type, no class. *)
Definition declTy (d : N * member) : option ty := if isMethod (snd d) then None else mty (snd d).

(** Arguments keep the result (visitFunctionCallParameterList 285-294). *)
Fixpoint eval (e : ex) (s : state) {struct e} : state :=
  let all := fix all (l : list ex) (s : state) : state := match l with [] => s | k :: r => all r (eval k s) end in
  let arguments (a : option (list ex)) (s : state) : state := match a with Some l => setTy (ty_ s) (all l s) | None => s end in
  match e with
  | Node l t => setTy t (all l s)
  | Var p => setTy (varTy w p) s                                         (* 157-163 *)
  | Member b p n _ args => arguments args (access p n (match args with Some _ => true | None => false end) (eval b s))
  (** objectDimList is null: only the parts are visited, the variable among them *)
  | VarMember b p n _ args => arguments args (setTy (varTy w p) (eval b s))
  | Elem b l =>
      if isCall b then
        (* php.g: arrayIndex=arrayIndexSpecifier* keeps the last one only; visitArrayIndexSpecifier 149-155 *)
        setTy (Some (Integral KMixed))
          ((fix lastIdx (l : list (option ex)) (s : state) : state :=
              match l with [] => s | [i] => match i with Some k => eval k s | None => s end | _ :: r => lastIdx r s end) l (eval b s))
      else
        (fix idx (l : list (option ex)) (s : state) : state :=
           match l with [] => s | i :: r => idx r (match i with Some k => eval k s | None => s end) end) l (eval b s)
  (** visitFunctionCall 303-343: parameters first *)
  | StaticCall p q n args =>
      let s1 := arguments (Some args) s in
      match staticOf w p with
      | Some x => match lastFound (lower cc n) x with
                  | Some d => emit {| up := q; ud := Some (declOf d) |} (setTy (if isMethod (snd d) then mret (snd d) else None) s1)
                  | None => setTy None s1
                  end
      | None => emit {| up := q; ud := None |} (setTy None s1)
      end
  (** visitStaticMember 674-687; without a class the use is made for the class name *)
  | StaticProp p q n =>
      match staticOf w p with
      | Some x => match lastFound n x with
                  | Some d => emit {| up := q; ud := Some (declOf d) |} (setTy (declTy d) s)
                  | None => emit {| up := q; ud := None |} (setTy None s)
                  end
      | None => setTy None s
      end
  (** visitConstantOrClassConst 411-432; ::class is left out *)
  | ClassConst p q n =>
      match staticOf w p with
      | Some x => match lastFound n x with
                  | Some d => emit {| up := q; ud := Some (declOf d) |} (setTy (declTy d) s)
                  | None => emit {| up := q; ud := None |} (setTy None s)
                  end
      | None => setTy None s
      end
  end.
End Chains.
