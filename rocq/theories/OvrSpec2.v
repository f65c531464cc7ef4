(** C71, continued: the text is read as the method it is meant to be. *)
From Coq Require Import List Bool.
From Verif Require Import OvrModel OvrSpec.
From Verif Require Import Chars LexModel TokModel ParseModel SrcSpec PexSpec StSpec.
Import ListNotations.
Open Scope nat_scope.

(** Code of a file that is no string and no HTML. *)
Definition inCode : list place := [InCode; InHtml].
(** [s] is read as [toks] if what [stop] says follows. *)
Definition readAs (cc : CharClass) (s : qstring) (toks : list (Tok * qstring)) (stop : qstring -> Prop) : Prop :=
  forall ts r, stop r -> spells cc inCode ts r -> spells cc inCode (toks ++ ts) (s ++ r).
(** [s] is the front of a file, up to [inCode], whatever follows. *)
Definition fileFront (cc : CharClass) (s : qstring) (toks : list (Tok * qstring)) : Prop :=
  forall ts r, spells cc inCode ts r -> spells cc [InHtml] (toks ++ ts) (s ++ r).
(** A name that is no keyword. *)
Definition plainName (cc : CharClass) (name : qstring) : Prop :=
  wholeWord cc name [] /\ (forall k t, In (k, t) phpKeywords -> ~ sameWord cc name k) /\
  ~ sameWord cc name (str "static") /\ ~ sameWord cc name (str "yield").
Definition before (c : N) (r : qstring) : Prop := exists x, r = c :: x.

Section Method.
Context {Fs : Functions}.
(** The parameter [p] with the default value [d] is the parameter [x] of the program. *)
Record paramIs (cc : CharClass) (p : HelpModel.Param) (d : option qstring) (x : param) : Prop := {
  pi_name : ident cc (p_name p);
  pi_plain : p_ref x = false /\ p_variadic x = false /\ paramOk x = true;
  pi_type : match HelpModel.p_type p with
            | None => StSpec.p_type x = []
            | Some s => exists toks, map fst toks = typeText (StSpec.p_type x) /\ readAs cc s toks (before cSP) /\
                          ~ In cRPAREN s /\ s <> [] /\ (forall c r, s = c :: r -> isSpace cc c = false)
            end;
  pi_default : match d with
               | None | Some [] => p_default x = None
               | Some s => exists toks e, p_default x = Some e /\ map fst toks = text e /\
                     (forall c r, s = c :: r -> isSpace cc c = false) /\
                     readAs cc s toks (fun r => before cCOMMA r \/ before cRPAREN r)
               end }.

Definition modifierOf (k : Word) : list modifier :=
  match k with
  | WPublic => [MoPublic] | WProtected => [MoProtected] | WPrivate => [MoPrivate] | WStatic => [MoStatic]
  | WAbstract => [MoAbstract] | WFinal => [MoFinal] | _ => []
  end.
Definition bodyIs (n : nat) (b : Body) : list st :=
  let call := ESCall (repeat EVar n) in
  match b with
  | BEmpty => []
  | BCall => [SExpr Semi call]
  | BReturn => [SExpr Semi (EAsg AEq EVar call); SReturn Semi (Some EVar)]
  end.
Definition methodIs (ws : list Word) (xs : list param) (b : Body) : member * option (list st) :=
  (MMethod (flat_map modifierOf ws) false xs [], Some (bodyIs (List.length xs) b)).
(** The members of a class up to the next one. *)
Definition membersText (ms : list (member * option (list st))) : list Tok :=
  flat_map (fun m => memText (fst m) ++ match snd m with
                                        | Some l => T_LBRACE :: flat_map stText l ++ [T_RBRACE]
                                        | None => if isMethod (fst m) then [T_SEMICOLON] else []
                                        end) ms.
End Method.
