(** C65: whole files are read as what they are. *)
From Coq Require Import List Bool.
From Verif Require Import Chars LexModel ParseModel PexSpec StSpec FnProofs.
Import ListNotations.
Open Scope nat_scope.

(** Every file made of the statements, functions, classes, interfaces, traits, imports and namespaces of
    [StSpec], with the expressions of C61 in them, is accepted with no problem and read back as that file.
    The expressions may have functions without a name in them, with statements in these, to any depth [d].
    Missing: the expressions C61 misses (spread arguments, nested lists, [$$a], ..). *)
Theorem C65_round_trip_partial : forall d g (fs : list (@fi (closures d))), forallb fiOk fs = true ->
  exists t, sourceRead t = Some fs /\ exists f0, forall f, f0 <= f -> parseFile g f (sourceOf fs) = Some (Accepted t []).
Proof. exact source_readN. Qed.
Print Assumptions C65_round_trip_partial.

(** So no text means two things. *)
Theorem C65_one_meaning_partial : forall d (fs fs' : list (@fi (closures d))), forallb fiOk fs = true -> forallb fiOk fs' = true -> sourceOf fs = sourceOf fs' -> fs = fs'.
Proof. exact source_one. Qed.
Print Assumptions C65_one_meaning_partial.

#[local] Instance functions0 : Functions := closures 0.
(** But the initial value of a static variable or of a property may not be an operation: the file
    [<?php static $a = 1 + 2;] is rejected.  (PHP allows it.) *)
Theorem C65_initial_value_refuted : exists e, plain e = true /\
  forall g f r, parseFile g f ([T_OPEN_TAG; T_STATIC; T_VARIABLE; T_ASSIGN] ++ text e ++ [T_SEMICOLON]) = Some r -> exists ps, r = Rejected ps.
Proof. exact initial_value. Qed.
Print Assumptions C65_initial_value_refuted.

(** Everything at once, with functions in functions. *)
#[local] Instance functions2 : Functions := closures 2.
Definition absName := {| absolute := true; more := 2 |}.
Definition relName := {| absolute := false; more := 0 |}.
Definition sum := EBin OPlus (EIndex (EArray true false [NPair (ELit LString) (EString QDouble [BText; BCurly (EProp EVar)])]) ENum) (EIncDec false true EVar).
Definition doSum := SExpr Semi sum.
Definition someParams :=
  [{| p_type := []; p_ref := false; p_variadic := false; p_default := None |};
   {| p_type := [(true, HName absName); (false, HArray); (false, HCallable)]; p_ref := true; p_variadic := true; p_default := Some ENum |}].
Definition value := ScArray true [(ScNum, None); (ScMinus ScNum, Some (ScArray false [])); (ScConst absName, Some (ScClassConst relName))].
Definition innerFn : @fn (closures 0) := @Build_fn (closures 0) true [] [true; false] [(false, HVoid)] [SReturn Semi None].
Definition outerFn : @fn (closures 1) := @Build_fn (closures 1) false
  [{| p_type := [(false, HArray)]; p_ref := true; p_variadic := false; p_default := None |}] [false] []
  [SIf EVar (@SExpr (closures 1) Semi (@EClosure (closures 1) innerFn)) [] None; SReturn Semi (Some (@EClosure (closures 1) innerFn))].
Definition everything : list fi := [FSt SOpen; FNs 2; FSt doSum; FSt (SExpr Semi (EAsg AEq EVar (EClosure outerFn))); FSt (SExpr Semi (EClosure outerFn)); FSt (SReturn Semi (Some (EInvoke (EClosure outerFn) [sum]))); FSt (SExpr Close EVar); FSt SHtml; FSt (SShow Close sum); FSt SOpen; FSt SEmpty; FSt SLabel;
 FSt (SBlock [doSum; SBlock []; SLabel]);
 FSt (SIf sum (SIf EVar doSum [] (Some SEmpty)) [(EVar, doSum); (sum, SBlock [])] (Some (SWhile sum (SIf EVar SEmpty [] None))));
 FSt (SIfC Close sum [doSum;SClose;SHtml;SOpen] [(sum,[]);(EVar,[doSum])] (Some [doSum]));
 FSt (SIfC Semi sum [SIf sum SEmpty [] None] [] None);
 FSt (SWhile sum doSum); FSt (SWhileC Semi sum [doSum]); FSt (SDo Semi (SIf sum SEmpty [] None) sum);
 FSt (SFor [sum;sum] [] [EVar] doSum); FSt (SForC Semi [] [sum] [] [doSum;doSum]);
 FSt (SForeach EVar (false,EVar) None doSum); FSt (SForeach (EProp EVar) (false,EIndex EVar sum) (Some (true,EVar)) doSum); FSt (SForeachC Semi EVar (true,EVar) (Some (false,EVar)) [doSum]);
 FSt (SForeachC Semi EVar (true,EVar) None []);
 FSt (SSwitch sum [(Some sum,[doSum;SBreak Semi None]); (None,[]); (Some EVar, [])]);FSt (SSwitchC Close sum [(Some sum,[doSum;SBreak Semi (Some ENum)]); (None,[]); (Some EVar, [])]);
 FSt SOpen; FSt (SDeclare [ScNum;value] SEmpty); FSt (SDeclareC Semi [ScPlus ScNum] [doSum]);
 FSt (STry [doSum] [([relName;absName],[doSum]);([absName],[])] (Some [doSum])); FSt (STry [] [([absName],[])] None);FSt (STry [] [] (Some []));
 FSt (SEcho Semi [sum;EVar]); FSt (SReturn Semi None); FSt (SReturn Semi (Some sum)); FSt (SContinue Semi None); FSt (SThrow Semi EVar);
 FSt (SUnset Semi [EVar;EIndex EVar sum]); FSt (SGlobal Semi 2); FSt (SStatic Semi [None;Some value]); FSt (SConst [sum;EVar]); FSt SGoto;
 FSt (SUse ImAny [UName absName true; UName relName false; UGroup absName [(ImAny,0,true);(ImFunction,2,false);(ImConst,1,true)]]);
 FSt (SUse ImFunction [UGroup absName [(ImAny,0,true)]]);
 FSt (SFunction true someParams [(true,HVoid);(false,HName relName)] [doSum;SFunction false [] [] []]);
 FSt (SClass (HClass (Some MoAbstract) (Some absName) [relName;absName]) [(MVar [None;Some value],None); (MProp [MoPublic;MoStatic] [(true,HName absName);(false,HArray)] [None;Some ScNum],None);
   (MProp [MoPrivate] [] [None],None); (MMethod [] true someParams [(false,HVoid)], Some [doSum]); (MMethod [MoAbstract;MoPublic] false [] [], None);
   (MConst [] [sum;EVar],None); (MConst [MoPrivate] [sum], None); (MUse [absName;relName] None,None); (MUse [relName] (Some [(relName,RName);(absName,RVisibility MoPrivate);(relName,RBoth MoPublic);(relName,RInsteadof [relName;absName])]),None)]);
 FSt (SClass (HClass None None []) []); FSt (SClass (HClass None (Some relName) []) []); FSt (SClass (HClass None None [relName]) []);FSt (SClass (HInterface [relName;absName]) [(MMethod [MoPublic] false someParams [],None)]);
 FSt (SClass (HInterface []) []);FSt (SClass (HTrait) [(MMethod [MoPublic] false someParams [],Some [])]);
 FNsBlock None [doSum]; FNsBlock (Some 1) [doSum; SFunction false [] [] []]; FSt SHalt].
Example C65_case : forallb fiOk everything = true /\ List.length (sourceOf everything) = 1837.
Proof. split; vm_compute; reflexivity. Qed.
(** The [else] belongs to the inner condition, so this is not one of the files above. *)
Example C65_dangling : stOk (SIf EVar (SIf EVar SEmpty [] None) [] (Some SEmpty)) = false.
Proof. reflexivity. Qed.
