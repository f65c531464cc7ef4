(** C61: operators group as the PHP manual says. *)
From Coq Require Import List Bool NArith ZArith Lia Arith.
From Verif Require Import Chars LexModel ParseModel PexSpec StSpec FnProofs.
Import ListNotations.
Open Scope nat_scope.

(** The parser's answer on one file, computed. *)
Ltac shown := let p := fresh in set (p := parseFile _ _ _); vm_compute in p; eexists; first [split; [subst p; reflexivity|vm_compute; reflexivity]|subst p; reflexivity].

(** Every expression, written with no more parentheses than the table of precedences asks for, is read
    back as that expression, with no problem reported; also many of them one after the other. *)
Theorem C61_round_trip_partial : forall d g (es : list (@ex (closures d))), (forall e, In e es -> plain e = true) ->
  exists t, expressionsOf t = Some (map Some es)
    /\ exists f0, forall f, f0 <= f -> parseFile g f (fileOf es) = Some (Accepted t []).
Proof. exact file_readN. Qed.
Print Assumptions C61_round_trip_partial.

#[local] Instance functions0 : Functions := closures 0.
(** Not so with the power operator: [-$a ** 2] is read as [(-$a) ** 2], *)
Theorem C61_power_refuted : exists e e', e <> e' /\ forall g, exists f t,
  parseFile g f (fileOf [e]) = Some (Accepted t []) /\ expressionsOf t = Some [Some e'].
Proof.
  exists (EUn UMinus (EBin OExp EVar ENum)), (EBin OExp (EUn UMinus EVar) ENum). split; [discriminate|].
  intros g. exists 200. shown.
Qed.
Print Assumptions C61_power_refuted.
(** and [$a ** $b ** 2] as [($a ** $b) ** 2]; *)
Theorem C61_tower_refuted : exists e e', e <> e' /\ forall g, exists f t,
  parseFile g f (fileOf [e]) = Some (Accepted t []) /\ expressionsOf t = Some [Some e'].
Proof.
  exists (EBin OExp EVar (EBin OExp EVar ENum)), (EBin OExp (EBin OExp EVar EVar) ENum). split; [discriminate|].
  intros g. exists 200. shown.
Qed.
Print Assumptions C61_tower_refuted.
(** [!$a instanceof B] is read as [(!$a) instanceof B]; *)
Theorem C61_instanceof_refuted : exists e e', e <> e' /\ forall g, exists f t,
  parseFile g f (fileOf [e]) = Some (Accepted t []) /\ expressionsOf t = Some [Some e'].
Proof.
  exists (EUn UNot (EInstanceof EVar)), (EInstanceof (EUn UNot EVar)). split; [discriminate|].
  intros g. exists 200. shown.
Qed.
Print Assumptions C61_instanceof_refuted.
(** [include $a . $b] is read as [(include $a) . $b]; *)
Theorem C61_include_refuted : exists e e', e <> e' /\ forall g, exists f t,
  parseFile g f (fileOf [e]) = Some (Accepted t []) /\ expressionsOf t = Some [Some e'].
Proof.
  exists (EInclude Include (EBin OConcat EVar EVar)), (EBin OConcat (EInclude Include EVar) EVar). split; [discriminate|].
  intros g. exists 200. shown.
Qed.
Print Assumptions C61_include_refuted.

(** [2 * $a ** 2] is read as [(2 * $a) ** 2]; *)
Theorem C61_product_refuted : exists e e', e <> e' /\ forall g, exists f t,
  parseFile g f (fileOf [e]) = Some (Accepted t []) /\ expressionsOf t = Some [Some e'].
Proof.
  exists (EBin OMul ENum (EBin OExp EVar ENum)), (EBin OExp (EBin OMul ENum EVar) ENum). split; [discriminate|].
  intros g. exists 200. shown.
Qed.
Print Assumptions C61_product_refuted.
(** [list($a) = $b + 1] is read as [(list($a) = $b) + 1]. *)
Theorem C61_list_refuted : exists e e', e <> e' /\ forall g, exists f t,
  parseFile g f (fileOf [e]) = Some (Accepted t []) /\ expressionsOf t = Some [Some e'].
Proof.
  exists (EList [Some EVar] (EBin OPlus EVar ENum)), (EBin OPlus (EList [Some EVar] EVar) ENum). split; [discriminate|].
  intros g. exists 200. shown.
Qed.
Print Assumptions C61_list_refuted.
(** [(new A)->p = 1] is rejected. *)
Theorem C61_target_refuted : exists e, forall g, exists f ps, parseFile g f (fileOf [e]) = Some (Rejected ps).
Proof. exists (EAsg AEq (EProp (ENew CName None)) ENum). intros g. exists 300. shown. Qed.
Print Assumptions C61_target_refuted.

(** The call of what a call answers, [f(1)(2)], is rejected. *)
Theorem C61_call_refuted : exists e, forall g, exists f ps, parseFile g f (fileOf [e]) = Some (Rejected ps).
Proof.
  exists (EInvoke (ECall [ENum]) [ENum]). intros g. exists 200. shown.
Qed.
Print Assumptions C61_call_refuted.

(** [$a = $b + 1 * ($c - 2 . 3) < 4 && !$d ? print 5 or 6 : $e ?? $f ?? 7;] *)
Definition ex61 : ex :=
  EAsg AEq EVar (ECond (EBin OBoolAnd (EBin OLess (EBin OPlus EVar (EBin OMul ENum (EBin OConcat (EBin OMinus EVar ENum) ENum))) ENum)
                                 (EUn UNot EVar))
                  (EBin OOr (EPrint ENum) ENum)
                  (EBin OCoalesce EVar (EBin OCoalesce EVar ENum))).
Example C61_case : plain ex61 = true /\
  fileOf [ex61] =
  [T_OPEN_TAG; T_VARIABLE; T_ASSIGN; T_VARIABLE; T_PLUS; T_LNUMBER; T_MUL; T_LPAREN; T_VARIABLE; T_MINUS; T_LNUMBER; T_CONCAT;
   T_LNUMBER; T_RPAREN; T_IS_SMALLER; T_LNUMBER; T_BOOLEAN_AND; T_BANG; T_VARIABLE; T_QUESTION; T_PRINT; T_LNUMBER; T_LOGICAL_OR;
   T_LNUMBER; T_COLON; T_VARIABLE; T_NULL_COALESCE; T_VARIABLE; T_NULL_COALESCE; T_LNUMBER; T_SEMICOLON].
Proof. split; vm_compute; reflexivity. Qed.

(** [$a->m($b, f()[1])[2]->p = A::$q(A::X) . B::g()->h;] *)
Definition ex61b : ex :=
  EAsg AEq (EProp (EIndex (EInvoke (EProp EVar) [EVar; EIndex (ECall []) ENum]) ENum))
           (EBin OConcat (EInvoke EStatic [EClassConst]) (EProp (ESCall []))).
Example C61_paths : plain ex61b = true /\ fileOf [ex61b] =
  [T_OPEN_TAG; T_VARIABLE; T_OBJECT_OPERATOR; T_STRING; T_LPAREN; T_VARIABLE; T_COMMA; T_STRING; T_LPAREN; T_RPAREN; T_LBRACKET;
   T_LNUMBER; T_RBRACKET; T_RPAREN; T_LBRACKET; T_LNUMBER; T_RBRACKET; T_OBJECT_OPERATOR; T_STRING; T_ASSIGN; T_STRING;
   T_PAAMAYIM_NEKUDOTAYIM; T_VARIABLE; T_LPAREN; T_STRING; T_PAAMAYIM_NEKUDOTAYIM; T_STRING; T_RPAREN; T_CONCAT; T_STRING;
   T_PAAMAYIM_NEKUDOTAYIM; T_STRING; T_LPAREN; T_RPAREN; T_OBJECT_OPERATOR; T_STRING; T_SEMICOLON].
Proof. split; vm_compute; reflexivity. Qed.

(** [$a = [1, 'x' => "$b {$c[1]}", 2.5 => &$d,][2] ?? new A(__LINE__, ++$e) instanceof B;] *)
Definition ex61c : ex :=
  EAsg AEq EVar (EBin OCoalesce
    (EIndex (EArray true true [NVal ENum; NPair (ELit LString) (EString QDouble [BPlain; BText; BCurly (EIndex EVar ENum)]); NPairRef (ELit LFloat) EVar]) ENum)
    (EInstanceof (ENew CName (Some [ELit LLine; EIncDec true true EVar])))).
Example C61_atoms : plain ex61c = true /\ fileOf [ex61c] =
  [T_OPEN_TAG; T_VARIABLE; T_ASSIGN; T_LBRACKET; T_LNUMBER; T_COMMA; T_CONSTANT_ENCAPSED_STRING; T_DOUBLE_ARROW; T_DOUBLE_QUOTE; T_VARIABLE;
   T_ENCAPSED_AND_WHITESPACE; T_CURLY_OPEN; T_VARIABLE; T_LBRACKET; T_LNUMBER; T_RBRACKET; T_RBRACE; T_DOUBLE_QUOTE; T_COMMA; T_DNUMBER;
   T_DOUBLE_ARROW; T_BIT_AND; T_VARIABLE; T_COMMA; T_RBRACKET; T_LBRACKET; T_LNUMBER; T_RBRACKET; T_NULL_COALESCE; T_NEW; T_STRING; T_LPAREN;
   T_LINE; T_COMMA; T_INC; T_VARIABLE; T_RPAREN; T_INSTANCEOF; T_STRING; T_SEMICOLON].
Proof. split; vm_compute; reflexivity. Qed.
(** [yield 1 => clone (new A)->f(isset($a, $b[1])) and exit(empty($c));  list($a, , $b[0]) = eval('..');  $i++ . require 'x' ** 2;] *)
Definition ex61d : list ex :=
  [EBin OAnd (EYield (Some (Some ENum, EClone (EInvoke (EProp (ENew CName None)) [EIsset [EVar; EIndex EVar ENum]])))) (EExit (Some (Some (EEmpty EVar))));
   EList [Some EVar; None; Some (EIndex EVar ENum)] (EEval (ELit LString));
   EBin OConcat (EIncDec false true EVar) (EBin OExp (EInclude Require (ELit LString)) ENum)].
Example C61_more : forallb plain ex61d = true /\ fileOf ex61d =
  [T_OPEN_TAG; T_YIELD; T_LNUMBER; T_DOUBLE_ARROW; T_CLONE; T_LPAREN; T_NEW; T_STRING; T_RPAREN; T_OBJECT_OPERATOR; T_STRING; T_LPAREN; T_ISSET;
   T_LPAREN; T_VARIABLE; T_COMMA; T_VARIABLE; T_LBRACKET; T_LNUMBER; T_RBRACKET; T_RPAREN; T_RPAREN; T_LOGICAL_AND; T_EXIT; T_LPAREN; T_EMPTY;
   T_LPAREN; T_VARIABLE; T_RPAREN; T_RPAREN; T_SEMICOLON;
   T_LIST; T_LPAREN; T_VARIABLE; T_COMMA; T_COMMA; T_VARIABLE; T_LBRACKET; T_LNUMBER; T_RBRACKET; T_RPAREN; T_ASSIGN; T_EVAL; T_LPAREN;
   T_CONSTANT_ENCAPSED_STRING; T_RPAREN; T_SEMICOLON;
   T_VARIABLE; T_INC; T_CONCAT; T_LPAREN; T_REQUIRE; T_CONSTANT_ENCAPSED_STRING; T_RPAREN; T_EXP; T_LNUMBER; T_SEMICOLON].
Proof. split; vm_compute; reflexivity. Qed.

(** Functions without a name.  [function ($x) use (&$a, $b) : int { return function & () { }; }] *)
Definition innermost : @fn (closures 0) := @Build_fn (closures 0) true [] [] [] [].
Definition returning : @fn (closures 1) :=
  @Build_fn (closures 1) false [{| p_type := []; p_ref := false; p_variadic := false; p_default := None |}] [true; false]
    [(false, HName {| absolute := false; more := 0 |})] [SReturn Semi (Some (@EClosure (closures 1) innermost))].
Definition nothing : @fn (closures 1) := @Build_fn (closures 1) false [] [] [] [].
Definition byReference : @fn (closures 1) := @Build_fn (closures 1) true [] [] [] [].
Definition called : @ex (closures 2) := @EInvoke (closures 2) (@EClosure (closures 2) returning) [@EBin (closures 2) OPlus EVar ENum].
(** [(function ($x) use (&$a, $b) : int { return function & () { }; })($a + 1);] *)
Example C61_functions : plain called = true /\ plain (@EAsg (closures 2) AEq EVar (@EClosure (closures 2) returning)) = true /\ fileOf [called] =
  [T_OPEN_TAG; T_LPAREN; T_FUNCTION; T_LPAREN; T_VARIABLE; T_RPAREN; T_USE; T_LPAREN; T_BIT_AND; T_VARIABLE; T_COMMA; T_VARIABLE; T_RPAREN;
   T_COLON; T_STRING; T_LBRACE; T_RETURN; T_FUNCTION; T_BIT_AND; T_LPAREN; T_RPAREN; T_LBRACE; T_RBRACE; T_SEMICOLON; T_RBRACE; T_RPAREN;
   T_LPAREN; T_VARIABLE; T_PLUS; T_LNUMBER; T_RPAREN; T_SEMICOLON].
Proof. repeat split; vm_compute; reflexivity. Qed.
#[local] Instance functions2 : Functions := closures 2.
(** But a function that gives back a reference cannot be called where it is written, nothing can follow such a call, and no method
    of the function can be called: [(function & () { })()], [(function () { })()->p] and [(function () { })->m()] are rejected. *)
Theorem C61_closure_refuted : forall (g : Gen) (e : @ex (closures 2)),
  In e [EInvoke (EClosure byReference) []; EProp (EInvoke (EClosure nothing) []); EInvoke (EProp (EClosure nothing)) []] ->
  exists f ps, parseFile g f (fileOf [e]) = Some (Rejected ps).
Proof. intros g e [<-|[<-|[<-|[]]]]; exists 300; shown. Qed.
Print Assumptions C61_closure_refuted.
(** [$a = static function () { };] is rejected. *)
Theorem C61_static_function_refuted : forall g, exists f ps,
  parseFile g f [T_OPEN_TAG; T_VARIABLE; T_ASSIGN; T_STATIC; T_FUNCTION; T_LPAREN; T_RPAREN; T_LBRACE; T_RBRACE; T_SEMICOLON] = Some (Rejected ps).
Proof. intros g. exists 300. shown. Qed.
Print Assumptions C61_static_function_refuted.
