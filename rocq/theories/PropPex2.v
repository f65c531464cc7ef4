(** C62: assignments to something else than a variable are reported.  C63: the effort of reading a file. *)
From Coq Require Import List Bool NArith ZArith Lia Arith.
From Verif Require Import Chars LexModel ParseModel ParseSpec PexSpec PexSpec2 StSpec PexProofs6 PexProofs7 PexProofs8 FnProofs.
Import ListNotations.
Open Scope nat_scope.

(** The parser's answer on one file, computed. *)
Ltac shown := let p := fresh in set (p := parseFile _ _ _); vm_compute in p; eexists; first [split; [subst p; reflexivity|vm_compute; reflexivity]|subst p; reflexivity].

(** Behind any number of statements, an assignment with any operator to an expression built from numbers, literals, arrays
    and operators, without variables, names and calls, makes the file be rejected, with an error at the token behind the operator,
    whatever follows. *)
Theorem C62_constant_partial : forall d g (es : list (@ex (closures d))) e o tail, (forall x, In x es -> plain x = true) -> constant e = true -> plain e = true ->
  exists f0, forall f, f0 <= f -> exists ps, parseFile g f (assigned es e o tail) = Some (Rejected ps)
    /\ In {| pr_sev := SevError; pr_index := S (List.length (before es e)) |} ps.
Proof. intros d g. exact (assignment_reported g). Qed.
Print Assumptions C62_constant_partial.

#[local] Instance functions0 : Functions := closures 0.
(** With a variable anywhere on the left nothing is reported: [$a + 1 = 3;] is an assignment to a sum. *)
Theorem C62_refuted : exists v, path v = false /\ forall g, exists f t,
  parseFile g f (fileOf [EAsg AEq v ENum]) = Some (Accepted t []) /\ expressionsOf t = Some [Some (EAsg AEq v ENum)].
Proof.
  exists (EBin OPlus EVar ENum). split; [reflexivity|]. intros g. exists 200. shown.
Qed.
Print Assumptions C62_refuted.

(** [$a =& 5;] and [$a =& $b + 1;] pass as well. *)
Theorem C62_reference_refuted : forall g e, In e [ENum; EBin OPlus EVar ENum] -> exists f t,
  parseFile g f (T_OPEN_TAG :: T_VARIABLE :: T_ASSIGN :: T_BIT_AND :: text e ++ [T_SEMICOLON]) = Some (Accepted t []).
Proof.
  intros g e [<-|[<-|[]]]; exists 200; shown.
Qed.
Print Assumptions C62_reference_refuted.

(** [<?php $a; 1 + (2 ? 3 : 4) .= ;]: the operator has index 12. *)
Example C62_case : constant (EBin OPlus ENum (ECond ENum ENum ENum)) = true /\ plain (EBin OPlus ENum (ECond ENum ENum ENum)) = true
  /\ assigned [EVar] (EBin OPlus ENum (ECond ENum ENum ENum)) AConcat [T_SEMICOLON]
     = [T_OPEN_TAG; T_VARIABLE; T_SEMICOLON; T_LNUMBER; T_PLUS; T_LPAREN; T_LNUMBER; T_QUESTION; T_LNUMBER; T_COLON;
        T_LNUMBER; T_RPAREN; T_CONCAT_ASSIGN; T_SEMICOLON]
  /\ List.length (before [EVar] (EBin OPlus ENum (ECond ENum ENum ENum))) = 12.
Proof. vm_compute. auto. Qed.
(** [[1, 'a' => 2.5][0] . "text"] *)
Example C62_array : let e := EBin OConcat (EArray true false [NVal ENum; NPair (ELit LString) (ELit LFloat)]) (EString QDouble [BText]) in
  constant e = true /\ plain e = true.
Proof. split; reflexivity. Qed.

(** The parser reads tokens again whenever it goes back.  There are correct files of 3n + 3 tokens
    on which it calls yylex() at least 2^n times. *)
Theorem C63_effort_refuted : forall n, exists ts, List.length ts = 3 * n + 3
  /\ (forall g, exists t f0, forall f, f0 <= f -> parseFile g f ts = Some (Accepted t []))
  /\ (forall g f r, run g f (rule n_start) (initial ts) = Some r -> 2 ^ n <= effortOf r).
Proof.
  intros n. exists (fileOf [nested n]). split; [|split].
  - unfold fileOf. cbn [flat_map]. rewrite app_nil_r. cbn [List.length]. rewrite app_length, nested_length. cbn [List.length]. lia.
  - intros g. destruct (file_readN 0 g [nested n]) as (t & _ & f0 & H); [|exists t, f0; exact H].
    intros e [<-|[]]. apply nested_plain.
  - intros g f r H. pose proof (effort g n f r H) as E. destruct r; exact E.
Qed.
Print Assumptions C63_effort_refuted.

(** [<?php $a[$a[$a]];] is read with 28 calls of yylex() instead of 9. *)
Example C63_case : fileOf [nested 2] = [T_OPEN_TAG; T_VARIABLE; T_LBRACKET; T_VARIABLE; T_LBRACKET; T_VARIABLE; T_RBRACKET; T_RBRACKET; T_SEMICOLON]
  /\ forall g, option_map (fun r => effortOf r) (run g 300 (rule n_start) (initial (fileOf [nested 2]))) = Some 28.
Proof. split; [reflexivity|]. intros g. vm_compute. reflexivity. Qed.
