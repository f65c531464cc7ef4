(** What C62 and C63 speak about, beyond PexSpec. *)
From Coq Require Import List Bool.
From Verif Require Import Chars LexModel ParseModel PexSpec.
Import ListNotations.

Section Expressions.
Context {Fs : Functions}.

(** Built from numbers, literals, arrays and operators only: nothing in it could be assigned to. *)
Fixpoint constant (e : ex) : bool :=
  match e with
  | ENum | EExit None | EExit (Some None) | EYield None => true
  | ELit k => match k with LNowdoc => false | _ => true end
  | EBin _ a b => constant a && constant b
  | EUn _ a | EPrint a | EInclude _ a | EEmpty a | EEval a | EExit (Some (Some a)) | EClone a
  | EYield (Some (None, a)) | EYieldFrom a => constant a
  | ECond a b c => constant a && constant b && constant c
  | EElvis a c | EYield (Some (Some a, c)) => constant a && constant c
  | EString _ l => forallb (fun b => match b with BText => true | _ => false end) l
  | EArray _ _ l => forallb (fun n => match n with NVal a => constant a | NPair k a => constant k && constant a | _ => false end) l
  | _ => false
  end.
(** [<?php e1; ... en; e op ..]: [e], in parentheses if need be, on the left of an assignment. *)
Definition before (es : list ex) (e : ex) : list Tok := fileOf es ++ wrap 6 e (text e).
Definition assigned (es : list ex) (e : ex) (o : asgop) (tail : list Tok) : list Tok :=
  before es e ++ asgTok o :: tail.
End Expressions.
(** How many times yylex() was called. *)
Definition effortOf (r : res) : nat := match r with Ok _ s => reads s | Fail s => reads s end.
