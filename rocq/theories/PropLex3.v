(** C13: nothing behind __halt_compiler(); matters.  Vocabulary: LexSpec.v, LexCutSpec.v. *)
From Verif Require Import LexCutSpec LexCut8 LexFun5 LexRefute.
Open Scope nat_scope.

(** After the tokens __halt_compiler ( ) ; the lexer reports the end of the file. *)
Theorem C13_halt : forall cc content l0 toks l, ascii_ok cc -> initial l0 ->
  handsOut cc content l0 toks l -> endsWithHalt toks ->
  forall l' t nl, nextToken cc content l = Some (l', t, nl) -> t_kind t = T_EOF.
Proof. intros cc content l0 toks l OK. exact (halt_stops cc OK content l0 toks l). Qed.
Print Assumptions C13_halt.

(** Two documents that agree up to the semicolon of __halt_compiler(); yield the same tokens
    up to it, call by call ... *)
Theorem C13_independent : forall cc A x y l0 toks l, ascii_ok cc -> blanksNotNames cc -> initial l0 ->
  handsOut cc (A ++ x) l0 toks l -> endsWithHalt toks -> endsBehind A toks ->
  handsOut cc (A ++ y) l0 toks l.
Proof. intros cc A x y l0 toks l OK. exact (halt_tokens cc OK A x y l0 toks l). Qed.
Print Assumptions C13_independent.

(** ... and as whole documents: if both runs come to an end they have the same tokens ... *)
Theorem C13_document : forall cc A x y l0 f f' toks nls last toks' nls' last',
  ascii_ok cc -> blanksNotNames cc -> initial l0 ->
  lexAll cc f (A ++ x) l0 = Some (Done toks nls last) -> endsWithHalt toks -> endsBehind A toks ->
  lexAll cc f' (A ++ y) l0 = Some (Done toks' nls' last') -> toks' = toks.
Proof. intros cc A x y l0 f f' toks nls last toks' nls' last' OK. exact (halt_document cc OK A x y l0 f f' toks nls last toks' nls' last'). Qed.
Print Assumptions C13_document.
(** ... and the second run asks for at most one token more than the first one had. *)
Theorem C13_document_ends : forall cc A x y l0 f toks nls last,
  ascii_ok cc -> blanksNotNames cc -> initial l0 ->
  lexAll cc f (A ++ x) l0 = Some (Done toks nls last) -> endsWithHalt toks -> endsBehind A toks ->
  forall f', List.length toks < f' -> lexAll cc f' (A ++ y) l0 <> Some OutOfFuel.
Proof. intros cc A x y l0 f toks nls last OK. exact (halt_document_ends cc OK A x y l0 f toks nls last). Qed.
Print Assumptions C13_document_ends.

Example C13_doc_case : let A := str "<?php $a = ""x{$b}"" /* ; */; __halt_compiler /**/ ( );" in
  ascii_ok asciiCC /\ blanksNotNames asciiCC /\
  exists toks nls last, lexAll asciiCC 100 (A ++ str " "" ' {$1 <<<E") initHtml = Some (Done toks nls last) /\
    endsWithHalt toks /\ endsBehind A toks.
Proof.
  split; [exact asciiCC_ok|]. split.
  { intros c Hs. cbn in Hs. assert (H : (9 <= c <= 13 \/ c = 32)%N).
    { unfold asciiSpace in Hs. apply orb_true_iff in Hs as [Hs|Hs].
      - apply andb_true_iff in Hs as [H1 H2]. apply N.leb_le in H1, H2. lia.
      - apply N.eqb_eq in Hs. lia. }
    cbn. unfold asciiDigit, asciiLetter, asciiUpper, asciiLowerLetter.
    repeat match goal with |- context [(?x <=? ?y)%N] => destruct (N.leb_spec x y); try lia end; auto. }
  vm_compute. eexists _, _, _. split; [reflexivity|]. split.
  - eexists [_;_;_;_;_;_;_;_;_;_;_;_;_;_;_], _, [_;_;_], _, [_], _, [], _. split; [reflexivity|].
    do 4 (split; [reflexivity|]). repeat split; repeat constructor; cbn; tauto.
  - eexists [_;_;_;_;_;_;_;_;_;_;_;_;_;_;_;_;_;_;_;_;_;_], _. split; reflexivity.
Qed.
