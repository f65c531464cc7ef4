(** C17: the parser's token stream.  Vocabulary in TokSpec.v. *)
From Verif Require Import TokProofs.
Open Scope nat_scope.

(** The stream is the lexer's significant tokens with their doc comments. *)
Theorem C17_stream : forall cc content l fuel toks nls last,
  lexAll cc fuel content l = Some (Done toks nls last) ->
  exists ps, tokenize cc fuel content l 0 0 = Some (PDone ps) /\ streamOf content toks ps.
Proof.
  intros cc content l fuel toks nls last H.
  exact (tokenize_spec cc content fuel l toks nls last [] 0%Z 0%Z [] H (Forall_nil _) (or_introl (conj eq_refl eq_refl))
    (or_introl (conj eq_refl (Forall_nil _)))).
Qed.
Print Assumptions C17_stream.

(** One end marker, at the end; no blanks or comments. *)
Theorem C17_one_end : forall cc content l fuel toks nls last ps,
  lexAll cc fuel content l = Some (Done toks nls last) -> streamOf content toks ps ->
  exists init p, ps = init ++ [p] /\ p_kind p = T_EOF /\
    Forall (fun q => p_kind q <> T_EOF /\ p_kind q <> T_WHITESPACE /\ p_kind q <> T_COMMENT /\ p_kind q <> T_DOC_COMMENT) init.
Proof. intros cc content l fuel toks nls last ps H HS. exact (stream_one_end content toks ps HS (lexAll_noEOF cc content fuel l toks nls last H)). Qed.
Print Assumptions C17_one_end.

(** Tokenizing a file ends whenever the lexer does (C03, C04). *)
Theorem C17_finishes : forall cc content l, ascii_ok cc -> initial l ->
  ~ braceDollarDigit cc content -> ~ yieldAtEnd cc content ->
  exists ps, tokenize cc (2 * List.length content + 1) content l 0 0 = Some (PDone ps).
Proof.
  intros cc content l OK Hi H1 H2. destruct (finishes cc OK content l Hi H1 H2) as (toks & nls & last & H).
  destruct (C17_stream _ _ _ _ _ _ _ H) as (ps & E & _). eauto.
Qed.
Print Assumptions C17_finishes.

Definition doc17 : qstring := str "<?php /** a */ /** b */ // c" ++ [cNL] ++ str " function f /** x */;".
Example C17_case : exists toks nls last ps,
  lexAll asciiCC 50 doc17 initHtml = Some (Done toks nls last) /\
  tokenize asciiCC 50 doc17 initHtml 0 0 = Some (PDone ps) /\
  map p_kind ps = [T_OPEN_TAG; T_FUNCTION; T_STRING; T_SEMICOLON; T_EOF] /\
  map (docComment doc17) ps = [[]; str "/** b */"; []; str "/** x */"; []].
Proof.
  destruct (lexAll asciiCC 50 doc17 initHtml) as [[toks nls last|]|] eqn:E; try (vm_compute in E; discriminate).
  exists toks, nls, last. eexists. split; [reflexivity|]. split; [vm_compute; reflexivity|]. split; vm_compute; reflexivity.
Qed.
