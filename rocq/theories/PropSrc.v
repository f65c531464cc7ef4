(** C68: source text is read as the program it is. *)
From Coq Require Import List Bool.
From Verif Require Import Chars LexModel TokModel ParseModel SrcSpec SrcProofs5 PexSpec StSpec SrcFile SrcCase.
Import ListNotations.
Open Scope nat_scope.

(** A text that spells the tokens [ts], by PHP's rules, is split into exactly these tokens, each with its text. *)
Theorem C68_tokens : forall cc doc ts, ascii_ok cc -> spaceNotLetter cc -> spells cc [InHtml] ts doc ->
  exists n, forall f, n <= f -> exists ps e, tokenize cc f doc initHtml 0 0 = Some (PDone (ps ++ [e])) /\
    p_kind e = T_EOF /\ map (fun p => (p_kind p, psymbol doc p)) ps = ts.
Proof. exact text_tokens. Qed.
Print Assumptions C68_tokens.

(** So a text spells one list of tokens only. *)
Theorem C68_one_reading : forall cc doc ts ts', ascii_ok cc -> spaceNotLetter cc ->
  spells cc [InHtml] ts doc -> spells cc [InHtml] ts' doc -> ts = ts'.
Proof. exact spelled_once. Qed.
Print Assumptions C68_one_reading.

(** And if these are the tokens of a program of C65, then the text is parsed as this program, with no problem.
    Functions without a name may be inside each other to any depth [d].
    Missing: what C65 misses, and text after [__halt_compiler();]. *)
Theorem C68_text_partial : forall d cc doc ts (fs : list (@fi (closures d))), ascii_ok cc -> spaceNotLetter cc -> spells cc [InHtml] ts doc ->
  map fst ts = sourceOf fs -> forallb fiOk fs = true -> forall g,
  exists t n, sourceRead t = Some fs /\ forall f, n <= f -> exists ps e,
    tokenize cc f doc initHtml 0 0 = Some (PDone (ps ++ [e])) /\ p_kind e = T_EOF /\
    map (fun p => (p_kind p, psymbol doc p)) ps = ts /\
    parseFile g f (map p_kind ps) = Some (Accepted t []).
Proof. exact text_read. Qed.
Print Assumptions C68_text_partial.

(** Every program whose tokens need no place but code and HTML has such a text. *)
Theorem C68_every_program_partial : forall d cc (fs : list (@fi (closures d))), ascii_ok cc -> spaceNotLetter cc -> forallb fiOk fs = true -> writable Html (sourceOf fs) = true ->
  exists doc ts, spells cc [InHtml] ts doc /\ map fst ts = sourceOf fs /\ forall g, exists t n, sourceRead t = Some fs /\ forall f, n <= f ->
    exists ps e, tokenize cc f doc initHtml 0 0 = Some (PDone (ps ++ [e])) /\ p_kind e = T_EOF /\
      map (fun p => (p_kind p, psymbol doc p)) ps = ts /\ parseFile g f (map p_kind ps) = Some (Accepted t []).
Proof. exact program_text. Qed.
Print Assumptions C68_every_program_partial.

(** Texts of PHP the lexer splits wrongly: an expression in "${..}", .. *)
Theorem C68_dollar_expression_refuted : exists ts, phpSpells asciiCC [InHtml] ts dollarText /\ misread asciiCC dollarText ts.
Proof. exact dollar_expression. Qed.
Print Assumptions C68_dollar_expression_refuted.
(** .. "{$$x}", .. *)
Theorem C68_curly_dollar_refuted : exists ts, phpSpells asciiCC [InHtml] ts curlyText /\ misread asciiCC curlyText ts.
Proof. exact curly_dollar. Qed.
Print Assumptions C68_curly_dollar_refuted.
(** .. a heredoc in the braces of a string, .. *)
Theorem C68_braces_heredoc_refuted : exists ts, phpSpells asciiCC [InHtml] ts heredocText /\ misread asciiCC heredocText ts.
Proof. exact braces_heredoc. Qed.
Print Assumptions C68_braces_heredoc_refuted.
(** .. a keyword as the name of a member, behind "->" and a blank, .. *)
Theorem C68_member_blank_refuted : exists ts, phpSpells asciiCC [InHtml] ts memberText /\ misread asciiCC memberText ts.
Proof. exact member_blank. Qed.
Print Assumptions C68_member_blank_refuted.
(** .. and [yield FROM]. *)
Theorem C68_yield_from_refuted : exists ts, phpSpells asciiCC [InHtml] ts yieldText /\ misread asciiCC yieldText ts.
Proof. exact yield_FROM. Qed.
Print Assumptions C68_yield_from_refuted.

(** [hi <?php "a $x[10]$x->list\$y{$x->for}" /**/; /**/?>] *)
Example C68_case : spells asciiCC [InHtml] docToks docText /\ map fst docToks = sourceOf docProgram /\ forallb fiOk docProgram = true.
Proof. exact (conj doc_spells doc_program). Qed.
(** With a function in a function: the depth is 2. *)
#[local] Instance functions2 : Functions := closures 2.
(** A class with a method, a loop in it, functions without names, and HTML. *)
Definition pageFn : @fn (closures 1) := @Build_fn (closures 1) false [] [true] [] [SReturn Semi (Some (@EClosure (closures 1) (@Build_fn (closures 0) false [] [] [] [])))].
Definition page : list fi := [FSt SHtml; FSt SOpen;
  FSt (SClass (HClass (Some MoFinal) None []) [(MMethod [MoPublic; MoStatic] true [] [], Some [SWhile (EBin OPlus EVar ENum) (SEcho Semi [EProp EVar])])]);
  FSt (SExpr Semi (EInvoke (EClosure pageFn) [ENum])); FSt SClose; FSt SHtml; FSt (SShow Close EVar)].
Example C68_page : forallb fiOk page = true /\ writable Html (sourceOf page) = true /\ List.length (sourceOf page) = 55.
Proof. split; [|split]; vm_compute; reflexivity. Qed.
