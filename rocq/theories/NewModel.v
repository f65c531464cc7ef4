(** The class named behind [new] (and [instanceof]) by a variable or property: new $a->b->c, new C::$p->b, new $a->b[$i].
    ExpressionVisitor::visitClassNameReference, duchain/expressionvisitor.cpp 707-822, and what it connects.

    The classes are those of ChainModel.v.  An expression in brackets or braces is given by what visiting it does. *)
From Coq Require Import List Bool Arith NArith.
From Verif Require Import PhpTypes Chars LookModel ExprModel ChainModel.
Import ListNotations.

(** m_result.allDeclarations(): empty, or the abstractType() of the last one. *)
Definition found := option (option ty).
(** What visiting an expression does: the uses it makes; and the declarations it leaves in m_result, [None] when it only
    gives a type and leaves those that were there (setType, duchain/expressionevaluationresult.cpp 93-98).  An index [[e]] gives
    the type mixed behind [e] (visitArrayIndexSpecifier 149-155) and so leaves the declarations of [e]. *)
Record inner := { i_uses : list use; i_found : option found }.

(** The parts behind the variable.  A position identifies a token.
    - [Name p n l]: ->n[..]     - [Static p n l]: ::$n[..]
    - [ByVar v l]: ->$v[..]; [v]: what looking the variable up does
    - [ByIndirect e l]: ->$$v[..]     - [ByExpr e l]: ->${e}[..]     - [Brace e l]: ->{e}[..]
    - [StaticIndirect e l]: ::$$v[..]     - [StaticExpr p e l]: ::${e}[..] *)
Inductive part :=
| Name (p : nat) (n : qstring) (l : list inner)
| Static (p : nat) (n : qstring) (l : list inner)
| ByVar (v : inner) (l : list inner)
| ByIndirect (e : inner) (l : list inner)
| ByExpr (e : inner) (l : list inner)
| Brace (e : inner) (l : list inner)
| StaticIndirect (e : inner) (l : list inner)
| StaticExpr (p : nat) (e : inner) (l : list inner).

Section New.
Variable cc : CharClass.
Variable w : world.

Record st := { s_found : found; s_uses : list use }.
Definition visit (e : inner) (s : st) : st :=
  {| s_found := match i_found e with Some f => f | None => s_found s end; s_uses := s_uses s ++ i_uses e |}.
Definition visits (l : list inner) (s : st) : st := fold_left (fun s e => visit e s) l s.
(** useDeclaration, 984-1006: the last declaration found in the class, whatever it is. *)
Definition useDeclaration (p : nat) (n : qstring) (x : ctx) (s : st) : st :=
  match lastFound cc n x with
  | Some d => {| s_found := Some (declTy d); s_uses := s_uses s ++ [{| up := p; ud := Some (declOf d) |}] |}
  | None => {| s_found := None; s_uses := s_uses s ++ [{| up := p; ud := None |}] |}
  end.
(** 771-791: allDeclarations().last()->type<StructureType>() and the context of its declaration. *)
Definition classOf (t : option ty) : option ctx :=
  match t with Some (Struct c) => ctxOf w c | _ => None end.

(** One round of the loop, 741-803.  The answer is [None] where .last() is called on an empty list (763). *)
Definition step (k : part) (s : st) : option st :=
  match k with
  | ByVar v _ => Some (visit v s)                                                        (* 743-746 *)
  | ByExpr e _ => Some (visit e s)                                                       (* 747-750 *)
  | _ =>
      match s_found s with
      | None => Some s                                                                   (* 751 *)
      | Some _ =>
          let s := match k with
                   | StaticExpr p e _ =>                                                 (* 753-758 *)
                       let s := visit e s in {| s_found := s_found s; s_uses := s_uses s ++ [{| up := p; ud := None |}] |}
                   | _ => s
                   end in
          match s_found s with
          | None => None
          | Some t =>
              Some (match k, classOf t with
                    | Name p n l, Some x => visits l (useDeclaration p n x s)            (* 796-799, 805 *)
                    | Static p n l, Some x => visits l (useDeclaration p n x s)          (* 791-795, 805 *)
                    | Name _ _ l, None | Static _ _ l, None => visits l s                (* 765-789 *)
                    | Brace _ l, _ => visits l s                                         (* 800-805 *)
                    | StaticIndirect _ l, _ | StaticExpr _ _ l, _ => visits l s          (* 819-824 *)
                    | ByIndirect _ _, _ => s        (* no objectDimList: visitClassNameReferenceDimListItems 811-825 does nothing *)
                    | _, _ => s
                    end)
          end
      end
  end.
Fixpoint steps (l : list part) (s : st) : option st :=
  match l with
  | [] => Some s
  | k :: r => match step k s with Some s' => steps r s' | None => None end
  end.

(** What stands in front: a variable [$v], or C::$n with what findClassContext answers; and its indices. *)
Inductive start := FromVar (v : inner) (l : list inner) | FromStatic (x : option ctx) (p : nat) (n : qstring) (l : list inner).
Definition begin (b : start) (s : st) : st :=
  match b with
  | FromVar v l => visits l (visit v s)                                                  (* 731-733 *)
  | FromStatic (Some x) p n l => visits l (useDeclaration p n x s)                       (* 709-729 *)
  | FromStatic None _ _ l => visits l s
  end.
(** visitClassNameReference.  [s]: m_result before. *)
Definition classNameReference (b : start) (l : list part) (s : st) : option st :=
  let s := begin b s in
  match s_found s with None => Some s | Some _ => steps l s end.                         (* 735-736 *)
End New.
