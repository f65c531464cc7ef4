(** C01-C06: tokenizing.  Vocabulary in LexSpec.v; [cc] ranges over every character database
    that is right on ASCII; [lexAll] calls the lexer until it reports the end of the file. *)
From Verif Require Import LexRefute.
Open Scope nat_scope.

(** C01: the texts of the tokens, in order, give back the document, up to the two cut-offs. *)
Theorem C01_lossless : forall cc content l fuel toks nls last,
  ascii_ok cc -> initial l ->
  lexAll cc fuel content l = Some (Done toks nls last) ->
  contiguous 0 toks /\
  exists rest, content = List.concat (map (symbol content) toks) ++ rest /\
    (rest = [] \/ openBlockComment rest \/ endsWithHalt toks).
Proof. intros cc content l fuel toks nls last OK. exact (lossless cc OK content l fuel toks nls last). Qed.
Print Assumptions C01_lossless.

(** C02: offsets of every token of the run. *)
Theorem C02_bounds : forall cc content l fuel toks nls last,
  ascii_ok cc -> initial l ->
  lexAll cc fuel content l = Some (Done toks nls last) ->
  forall pre t post, toks = pre ++ t :: post ->
    (0 <= t_begin t /\ t_begin t <= t_end t + 1 /\ t_begin t < Z.of_nat (List.length content) /\
     t_end t <= Z.of_nat (List.length content))%Z /\
    (t_end t = Z.of_nat (List.length content) ->
     post = [] /\ (t_kind t = T_INLINE_HTML \/ t_kind t = T_COMMENT \/ t_kind t = T_DOC_COMMENT)).
Proof. intros cc content l fuel toks nls last OK. exact (in_bounds cc OK content l fuel toks nls last). Qed.
Print Assumptions C02_bounds.

(** C03: full statement: for every document some number of calls reaches the end.  It fails
    for the code as it is ([C03_terminates_refuted]); it holds, with a linear bound, for every
    document without an opening brace, dollar and digit in a row. *)
Theorem C03_terminates_partial : forall cc content l fuel,
  ascii_ok cc -> initial l -> ~ braceDollarDigit cc content ->
  2 * List.length content < fuel -> lexAll cc fuel content l <> Some OutOfFuel.
Proof. intros cc content l fuel OK. exact (terminates cc OK content l fuel). Qed.
Print Assumptions C03_terminates_partial.

Theorem C03_terminates_refuted : exists cc content,
  ascii_ok cc /\ forall fuel, lexAll cc fuel content initHtml = Some OutOfFuel.
Proof. exists asciiCC, hangDoc. split; [exact asciiCC_ok|exact hang]. Qed.
Print Assumptions C03_terminates_refuted.

(** C04: no undefined read ([None]) unless the document has yield in its last characters. *)
Theorem C04_reads_partial : forall cc content l fuel,
  ascii_ok cc -> initial l -> ~ yieldAtEnd cc content -> lexAll cc fuel content l <> None.
Proof. intros cc content l fuel OK. exact (no_ub cc OK content l fuel). Qed.
Print Assumptions C04_reads_partial.

Theorem C04_reads_refuted : exists cc content fuel,
  ascii_ok cc /\ lexAll cc fuel content initHtml = None.
Proof. exists asciiCC, (str "<?php yield"), 2. split; [exact asciiCC_ok|vm_compute; reflexivity]. Qed.
Print Assumptions C04_reads_refuted.

(** C03 and C04 together: the run ends normally. *)
Theorem C03_C04_finishes : forall cc content l,
  ascii_ok cc -> initial l -> ~ braceDollarDigit cc content -> ~ yieldAtEnd cc content ->
  exists toks nls last,
    lexAll cc (2 * List.length content + 1) content l = Some (Done toks nls last).
Proof. intros cc content l OK. exact (finishes cc OK content l). Qed.
Print Assumptions C03_C04_finishes.

(** C05: in every reachable state the mode stack is nonempty and its top is not the error
    mode; the only undefined step is the yield look-ahead of C04 (so never an underflow); a
    closing tag has the text "?>" and leaves HTML mode on top. *)
Theorem C05_modes : forall cc content l0 l,
  ascii_ok cc -> initial l0 -> reachable cc content l0 l ->
  (exists s t, lx_st l = s :: t /\ s <> ErrorState) /\
  (nextToken cc content l = None -> yieldAtEnd cc (skipn (lx_pos l) content)) /\
  (forall l' t nl, nextToken cc content l = Some (l', t, nl) -> t_kind t = T_CLOSE_TAG ->
     symbol content t = str "?>" /\ exists r, lx_st l' = HtmlState :: r).
Proof. intros cc content l0 l OK. exact (modes cc OK content l0 l). Qed.
Print Assumptions C05_modes.

(** C06: recorded line breaks never run backwards or repeat, for every document. *)
Theorem C06_lines_increasing : forall cc content l fuel toks nls last,
  ascii_ok cc -> initial l ->
  lexAll cc fuel content l = Some (Done toks nls last) -> StronglySorted lt nls.
Proof. intros cc content l fuel toks nls last OK. exact (lines_increasing cc OK content l fuel toks nls last). Qed.
Print Assumptions C06_lines_increasing.

(** C06: they are exactly the newlines, plus the end marker, when no cast, "yield from" or
    unterminated constant string contains a newline. *)
Theorem C06_lines_exact_partial : forall cc content l fuel toks nls last,
  ascii_ok cc -> initial l ->
  lexAll cc fuel content l = Some (Done toks nls last) ->
  (forall t, In t toks -> ~ blindToken content t) ->
  endsWithHalt toks \/
  exists rest, content = List.concat (map (symbol content) toks) ++ rest /\
    ((rest = [] /\ exists e, nls = nlOffsets content ++ [e] /\
        List.length content <= e <= S (List.length content)) \/
     (openBlockComment rest /\ nls = nlOffsets content)).
Proof. intros cc content l fuel toks nls last OK. exact (lines_exact cc OK content l fuel toks nls last). Qed.
Print Assumptions C06_lines_exact_partial.

(** A cast containing a newline: line 2 is never recorded. *)
Theorem C06_lines_refuted : exists cc content toks nls last fuel,
  ascii_ok cc /\ lexAll cc fuel content initHtml = Some (Done toks nls last) /\
  content = List.concat (map (symbol content) toks) /\
  In 10 (nlOffsets content) /\ ~ In 10 nls.
Proof.
  exists asciiCC, (str "<?php (int" ++ [cNL] ++ str ")$a;").
  do 3 eexists. exists 6. split; [exact asciiCC_ok|].
  split; [vm_compute; reflexivity|]. split; [vm_compute; reflexivity|].
  split; [vm_compute; auto|]. vm_compute. intuition discriminate.
Qed.
Print Assumptions C06_lines_refuted.

(** Non-vacuity: a document with HTML, interpolation, heredoc, comment and newlines meets all
    the hypotheses and runs to the end. *)
Definition exampleDoc : qstring :=
  str "<b>" ++ [cNL] ++ str "<?php $a = " ++ [cDQ] ++ str "x{$b[1]}$c->d ${e}" ++ [cDQ] ++ str ";"
  ++ [cNL] ++ str "/* c" ++ [cNL] ++ str "*/ f(<<<EOT" ++ [cNL] ++ str "t $v" ++ [cNL] ++ str "EOT"
  ++ [cNL] ++ str "); ?>" ++ [cNL] ++ str "tail".
Example ex_run : exists toks nls last,
  lexAll asciiCC 200 exampleDoc initHtml = Some (Done toks nls last) /\ List.length toks = 39 /\
  nls = nlOffsets exampleDoc ++ [List.length exampleDoc + 1] /\ initial initHtml /\
  (forall t, In t toks -> ~ blindToken exampleDoc t).
Proof.
  do 3 eexists. split; [vm_compute; reflexivity|]. split; [reflexivity|]. split; [vm_compute; reflexivity|].
  split; [left; reflexivity|].
  intros t Ht [[H|[H|[H _]]] HN]; cbn in Ht;
    repeat (destruct Ht as [<-|Ht]; [cbn in H; try discriminate; destruct H as [H|[H|[H|[H|[H|[H|[H|[]]]]]]]]; discriminate|]);
    destruct Ht.
Qed.
Example ex_noHang : ~ braceDollarDigit asciiCC exampleDoc /\ ~ yieldAtEnd asciiCC exampleDoc.
Proof.
  split; [apply bddb_ok; vm_compute; reflexivity|apply noY_ok; vm_compute].
  intros H. repeat (destruct H as [H|H]; [discriminate H|]). exact H.
Qed.
(** A reachable state inside nested strings. *)
Example ex_reach : exists l, reachable asciiCC (str "<?php " ++ [cDQ] ++ str "a{$b" ++ [cDQ]) initHtml l /\
  lx_st l = [StringVariableCurly; SString; DefaultState; HtmlState; ErrorState].
Proof.
  eexists. split.
  - apply (runN_reach 4). vm_compute. reflexivity.
  - reflexivity.
Qed.
