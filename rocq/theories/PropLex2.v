(** C07-C16: single tokens.  Vocabulary in LexSpec.v and LexSpec2.v.  [cc] ranges over every
    character database that is right on ASCII, [content] over all documents, [l] over all
    states of the lexer in any run over the document. *)
From Verif Require Import LexFun7 LexRefute.
Open Scope nat_scope.

(** A lexer started on an expression is in PHP mode in front of the whole document. *)
Lemma startPhp doc : inPhp asciiCC doc initDefault doc.
Proof.
  left. split; [exists initDefault; split; [right; reflexivity|constructor]|].
  split; [discriminate|]. split; [eexists; reflexivity|reflexivity].
Qed.
Lemma startHtml doc : at_ asciiCC doc HtmlState initHtml doc.
Proof.
  split; [exists initHtml; split; [left; reflexivity|constructor]|].
  split; [discriminate|]. split; [eexists; reflexivity|reflexivity].
Qed.
Ltac quotedSolve := repeat (apply q_pair || (apply q_char; [discriminate|discriminate|])); apply q_nil.

(** ** C07 *)
Theorem C07_single_quoted : forall cc content l body r, ascii_ok cc ->
  inPhp cc content l ([cSQ] ++ body ++ [cSQ] ++ r) -> quoted cSQ body ->
  exists l', yields cc content l T_CONSTANT_ENCAPSED_STRING ([cSQ] ++ body ++ [cSQ]) r l' /\ lx_st l' = lx_st l.
Proof. intros cc content l body r OK. exact (single_closed cc OK content l body r). Qed.
Print Assumptions C07_single_quoted.
Theorem C07_single_unclosed : forall cc content l r, ascii_ok cc ->
  inPhp cc content l ([cSQ] ++ r) -> (forall body r2, r = body ++ [cSQ] ++ r2 -> ~ quoted cSQ body) ->
  exists l', yields cc content l T_CONSTANT_ENCAPSED_STRING ([cSQ] ++ r) [] l' /\ lx_st l' = lx_st l.
Proof. intros cc content l r OK. exact (single_open cc OK content l r). Qed.
Print Assumptions C07_single_unclosed.
Example C07_case : let doc := str "'a\'b\\' . 'c'" in
  inPhp asciiCC doc initDefault ([cSQ] ++ str "a\'b\\" ++ [cSQ] ++ str " . 'c'") /\ quoted cSQ (str "a\'b\\").
Proof. split; [apply startPhp|]. cbn. quotedSolve. Qed.
Example C07_unclosed_case : let doc := str "'ab\'" in inPhp asciiCC doc initDefault ([cSQ] ++ str "ab\'") /\
  forall body r2, str "ab\'" = body ++ [cSQ] ++ r2 -> ~ quoted cSQ body.
Proof.
  split; [apply startPhp|]. intros body r2 E Q. destruct body as [|a [|b [|c [|d body]]]]; cbn in E; try discriminate.
  - injection E as <- <- <- _. inversion Q as [|? ? _ _ Q1|]; subst. inversion Q1 as [|? ? _ _ Q2|]; subst.
    inversion Q2; subst; congruence.
  - injection E as _ _ _ _ E. destruct body; discriminate.
Qed.

(** ** C08 *)
Theorem C08_constant : forall cc content l body r, ascii_ok cc ->
  inPhp cc content l ([cDQ] ++ body ++ [cDQ] ++ r) -> quoted cDQ body -> ~ varStart cc cDQ body ->
  exists l', yields cc content l T_CONSTANT_ENCAPSED_STRING ([cDQ] ++ body ++ [cDQ]) r l' /\ lx_st l' = lx_st l.
Proof. intros cc content l body r OK. exact (double_closed cc OK content l body r). Qed.
Print Assumptions C08_constant.
Theorem C08_unclosed : forall cc content l r, ascii_ok cc ->
  inPhp cc content l ([cDQ] ++ r) -> (forall body r2, r = body ++ [cDQ] ++ r2 -> ~ quoted cDQ body) ->
  ~ varStart cc cDQ r ->
  exists l', yields cc content l T_CONSTANT_ENCAPSED_STRING ([cDQ] ++ r) [] l' /\ lx_st l' = lx_st l.
Proof. intros cc content l r OK. exact (double_open cc OK content l r). Qed.
Print Assumptions C08_unclosed.
Theorem C08_interpolated : forall cc content l r, ascii_ok cc ->
  inPhp cc content l ([cDQ] ++ r) -> varStart cc cDQ r ->
  exists l', yields cc content l T_DOUBLE_QUOTE [cDQ] r l' /\ lx_st l' = SString :: lx_st l.
Proof. intros cc content l r OK. exact (double_var cc OK content l r). Qed.
Print Assumptions C08_interpolated.
Example C08_constant_case : let b := str "a $5 \$x" in let doc := [cDQ] ++ b ++ [cDQ] ++ str ";" in
  inPhp asciiCC doc initDefault ([cDQ] ++ b ++ [cDQ] ++ str ";") /\ quoted cDQ b /\ ~ varStart asciiCC cDQ b.
Proof.
  split; [apply startPhp|]. split; [cbn; quotedSolve|].
  intros (a & c & x & E & Q & H). destruct a as [|a1 [|a2 [|a3 [|a4 [|a5 [|a6 [|a7 a]]]]]]]; cbn in E; try discriminate.
  - injection E as _ _ <- _. destruct H as [H|[_ H]]; discriminate.
  - injection E as <- <- <- <- <- <- _. inversion Q as [|? ? _ _ Q1|]; subst.
    inversion Q1 as [|? ? _ _ Q2|]; subst. inversion Q2 as [|? ? _ _ Q3|]; subst.
    inversion Q3 as [|? ? _ _ Q4|]; subst. inversion Q4 as [|? ? _ _ Q5|]; subst. inversion Q5; subst; congruence.
  - injection E as _ _ _ _ _ _ _ E. destruct a as [|? [|]]; discriminate.
Qed.
Example C08_interpolated_case : let r := str "a $b" ++ [cDQ] in
  inPhp asciiCC ([cDQ] ++ r) initDefault ([cDQ] ++ r) /\ varStart asciiCC cDQ r.
Proof.
  split; [apply startPhp|]. exists (str "a "), 98%N, [cDQ]. split; [reflexivity|]. split; [cbn; quotedSolve|].
  right. split; [left; reflexivity|reflexivity].
Qed.

(** ** C09 *)
Theorem C09_block : forall cc content l r body tail, ascii_ok cc ->
  inPhp cc content l (str "/*" ++ r) -> firstOcc (str "*/") r body tail ->
  exists l' k, yields cc content l k (str "/*" ++ body ++ str "*/") tail l' /\ lx_st l' = lx_st l /\
    ((k = T_DOC_COMMENT /\ isDocBlock cc r) \/ (k = T_COMMENT /\ ~ isDocBlock cc r)).
Proof. intros cc content l r body tail OK. exact (block_closed cc OK content l r body tail). Qed.
Print Assumptions C09_block.
Theorem C09_block_unclosed : forall cc content l r, ascii_ok cc ->
  inPhp cc content l (str "/*" ++ r) -> ~ contains (str "*/") r ->
  exists l' t nl, nextToken cc content l = Some (l', t, nl) /\ t_kind t = T_EOF.
Proof.
  intros cc content l r OK Hp Hn.
  exact (block_unclosed cc OK content l r Hp (fun a b E => Hn (ex_intro _ a (ex_intro _ b E)))).
Qed.
Print Assumptions C09_block_unclosed.
Theorem C09_hash : forall cc content l r, ascii_ok cc -> inPhp cc content l (str "#" ++ r) ->
  exists text tail l', lineEnd (str "#" ++ r) text tail /\
    yields cc content l T_COMMENT text tail l' /\ lx_st l' = lx_st l.
Proof.
  intros cc content l r OK Hp. destruct (lineEnd_total (str "#" ++ r)) as [text [tail H]].
  destruct (line_hash cc OK content l r text tail Hp H) as [l' HY]. eauto 6.
Qed.
Print Assumptions C09_hash.
Theorem C09_slashes : forall cc content l r, ascii_ok cc -> inPhp cc content l (str "//" ++ r) ->
  (forall x, r <> cSLASH :: x) ->
  exists text tail l', lineEnd (str "//" ++ r) text tail /\
    yields cc content l T_COMMENT text tail l' /\ lx_st l' = lx_st l.
Proof.
  intros cc content l r OK Hp Hs. destruct (lineEnd_total (str "//" ++ r)) as [text [tail H]].
  destruct (line_slashes cc OK content l r text tail Hp Hs H) as [l' HY]. eauto 6.
Qed.
Print Assumptions C09_slashes.
Theorem C09_doc_slashes : forall cc content l r, ascii_ok cc -> inPhp cc content l (str "///" ++ r) ->
  exists text tail l', docEnd cc (str "///" ++ r) text tail /\
    yields cc content l T_DOC_COMMENT text tail l' /\ lx_st l' = lx_st l.
Proof.
  intros cc content l r OK Hp. destruct (docEnd_total cc OK _ (str "///" ++ r) (Nat.le_refl _)) as [text [tail H]].
  destruct (doc_slashes cc OK content l r text tail Hp H) as [l' HY]. eauto 6.
Qed.
Print Assumptions C09_doc_slashes.
Example C09_block_case : let r := str "* a *b */ c */" in
  inPhp asciiCC (str "/*" ++ r) initDefault (str "/*" ++ r) /\ firstOcc (str "*/") r (str "* a *b ") (str " c */") /\
  isDocBlock asciiCC r.
Proof.
  split; [apply startPhp|]. split.
  - split; [reflexivity|]. intros a b E. cbn. do 7 (destruct a; [discriminate E|cbn in E; injection E as _ E]). cbn. lia.
  - exists 32%N. eexists. split; reflexivity.
Qed.
Example C09_doc_case : let doc := str "/// a" ++ [cNL] ++ str " /// b" ++ [cNL] ++ str "x" in
  docEnd asciiCC doc (str "/// a" ++ [cNL] ++ str " /// b" ++ [cNL]) (str "x").
Proof.
  assert (OL : forall s, forallb (fun c => negb (c =? cNL)%N && negb (c =? cQUEST)%N) s = true -> oneLine s).
  { intros s H. rewrite forallb_forall in H. split.
    - intros Hi. specialize (H _ Hi). discriminate.
    - intros (a & b & ->). specialize (H 63%N). assert (In 63%N (a ++ str "?>" ++ b)) by (apply in_or_app; right; left; reflexivity).
      specialize (H H0). discriminate. }
  cbn. apply (de_more asciiCC (str "/// a") [32%N] (str " b" ++ [cNL] ++ str "x") (str "/ b" ++ [cNL]) (str "x")).
  - apply OL. reflexivity.
  - constructor; [split; [reflexivity|discriminate]|constructor].
  - apply (de_nl asciiCC (str "/ b") (str "x")).
    + apply OL. reflexivity.
    + intros (w & x & E & Hw). destruct w as [|c [|? w]]; discriminate.
Qed.

(** ** C10 *)
Theorem C10_operators : forall cc content l rest op k r, ascii_ok cc ->
  inPhp cc content l rest -> longestOp op k rest -> rest = op ++ r -> ~ notOperator cc rest ->
  exists l', yields cc content l k op r l' /\ (modeOp k = false -> lx_st l' = lx_st l).
Proof. intros cc content l rest op k r OK. exact (operator_token cc OK content l rest op k r). Qed.
Print Assumptions C10_operators.
Example C10_case : let doc := str "<<=3" in
  inPhp asciiCC doc initDefault doc /\ longestOp (str "<<=") T_SL_ASSIGN doc /\ ~ notOperator asciiCC doc.
Proof.
  split; [apply startPhp|]. split.
  - split; [cbn; tauto|]. split; [exists (str "3"); reflexivity|]. intros op2 k2 r2 Hin.
    assert (H : forall p, In p operators -> List.length (fst p) <= 3).
    { apply Forall_forall. repeat constructor. }
    intros _. exact (H _ Hin).
  - intros [(r & [H|[H|H]])|(d & r & H & _)]; discriminate.
Qed.

(** ** C11 *)
Theorem C11_keyword : forall cc content l name r k t, ascii_ok cc ->
  inPhp cc content l (name ++ r) -> wholeWord cc name r -> In (k, t) phpKeywords -> sameWord cc name k ->
  exists l', yields cc content l t name r l' /\ lx_st l' = lx_st l.
Proof. intros cc content l name r k t OK. exact (keyword_token cc OK content l name r k t). Qed.
Print Assumptions C11_keyword.
Theorem C11_identifier : forall cc content l name r, ascii_ok cc ->
  inPhp cc content l (name ++ r) -> wholeWord cc name r ->
  (forall k t, In (k, t) phpKeywords -> ~ sameWord cc name k) ->
  ~ sameWord cc name (str "static") -> ~ sameWord cc name (str "yield") ->
  exists l', yields cc content l T_STRING name r l' /\ lx_st l' = lx_st l.
Proof. intros cc content l name r OK. exact (ident_token cc OK content l name r). Qed.
Print Assumptions C11_identifier.
Theorem C11_static : forall cc content l name w r, ascii_ok cc ->
  inPhp cc content l (name ++ w ++ r) -> wholeWord cc name (w ++ r) -> sameWord cc name (str "static") ->
  allBlank cc w -> (forall c s, r = c :: s -> isSpace cc c = false) ->
  exists l' k, yields cc content l k name (w ++ r) l' /\ lx_st l' = lx_st l /\
    ((k = T_STRING /\ exists x, r = str "::" ++ x) \/ (k = T_STATIC /\ ~ exists x, r = str "::" ++ x)).
Proof. intros cc content l name w r OK. exact (static_token cc OK content l name w r). Qed.
Print Assumptions C11_static.
Theorem C11_yield_from : forall cc content l name w r, ascii_ok cc ->
  inPhp cc content l (name ++ w ++ str "from" ++ r) -> wholeWord cc name (w ++ str "from" ++ r) ->
  sameWord cc name (str "yield") -> allBlank cc w ->
  exists l', yields cc content l T_YIELD_FROM (name ++ w ++ str "from") r l' /\ lx_st l' = lx_st l.
Proof. intros cc content l name w r OK. exact (yield_from_token cc OK content l name w r). Qed.
Print Assumptions C11_yield_from.
(** With fewer than three characters behind it "yield" is an out-of-bounds read, see C04. *)
Theorem C11_yield_partial : forall cc content l name w r, ascii_ok cc ->
  inPhp cc content l (name ++ w ++ r) -> wholeWord cc name (w ++ r) ->
  sameWord cc name (str "yield") -> allBlank cc w -> (forall c s, r = c :: s -> isSpace cc c = false) ->
  3 <= List.length r -> (forall x, r <> str "from" ++ x) ->
  exists l', yields cc content l T_YIELD name (w ++ r) l' /\ lx_st l' = lx_st l.
Proof. intros cc content l name w r OK. exact (yield_token cc OK content l name w r). Qed.
Print Assumptions C11_yield_partial.
Lemma word_case name r : forallb (fun c => asciiLetter c || asciiDigit c || (c =? cUNDERSCORE)%N) name = true ->
  match name with c :: _ => asciiDigit c || asciiSpace c | [] => true end = false ->
  match r with c :: _ => asciiLetter c || asciiDigit c || (c =? cUNDERSCORE)%N || (127 <? c)%N | [] => false end = false ->
  wholeWord asciiCC name r.
Proof.
  intros H1 H2 H3.
  assert (HA : Forall (identChar asciiCC) name).
  { apply Forall_forall. intros c Hc. rewrite forallb_forall in H1. specialize (H1 _ Hc).
    rewrite !orb_true_iff, N.eqb_eq in H1. unfold identChar. cbn. rewrite orb_true_iff. tauto. }
  split; [|split].
  - destruct name as [|c s]; [discriminate|]. exists c, s. split; auto. apply orb_false_iff in H2. destruct H2 as [A B].
    split; [split; [exact (Forall_inv HA)|exact A]|exact B].
  - exact HA.
  - intros c s E Hc. rewrite E in H3. unfold identChar in Hc. cbn in Hc. rewrite orb_true_iff, N.leb_le in Hc.
    rewrite !orb_false_iff, N.eqb_neq, N.ltb_ge in H3. destruct H3 as [[[A B] C] D].
    destruct Hc as [[Hc|Hc]|[Hc|[Hc|Hc]]]; try congruence; lia.
Qed.
Example C11_case : let doc := str "FoReach_each = 1" in
  inPhp asciiCC doc initDefault (str "FoReach_each" ++ str " = 1") /\ wholeWord asciiCC (str "FoReach_each") (str " = 1") /\
  (forall k t, In (k, t) phpKeywords -> ~ sameWord asciiCC (str "FoReach_each") k).
Proof.
  split; [apply startPhp|]. split; [apply word_case; reflexivity|]. intros k t Hin.
  assert (H : forall p, In p phpKeywords -> eqs (map asciiToLower (str "FoReach_each")) (map asciiToLower (fst p)) = false).
  { apply Forall_forall. repeat constructor. }
  specialize (H _ Hin). unfold sameWord. cbn [fst foldCase asciiCC] in *. intros E. rewrite E in H.
  assert (eqs (map asciiToLower k) (map asciiToLower k) = true) by now apply eqs_eq. congruence.
Qed.
Example C11_keyword_case : let doc := str "ForEach (" in
  inPhp asciiCC doc initDefault (str "ForEach" ++ str " (") /\ wholeWord asciiCC (str "ForEach") (str " (") /\
  In (str "foreach", T_FOREACH) phpKeywords /\ sameWord asciiCC (str "ForEach") (str "foreach").
Proof. split; [apply startPhp|]. split; [apply word_case; reflexivity|]. split; [cbn; tauto|reflexivity]. Qed.
Example C11_static_case : let doc := str "static ::f" in
  inPhp asciiCC doc initDefault (str "static" ++ str " " ++ str "::f") /\ wholeWord asciiCC (str "static") (str " ::f") /\
  sameWord asciiCC (str "static") (str "static") /\ allBlank asciiCC (str " ").
Proof. split; [apply startPhp|]. split; [apply word_case; reflexivity|]. split; [reflexivity|repeat constructor]. Qed.

(** ** C12 *)
Theorem C12_nowdoc : forall cc content l w id body s, ascii_ok cc ->
  let start := str "<<<" ++ w ++ [cSQ] ++ id ++ [cSQ; cNL] in
  at_ cc content DefaultState l (start ++ body ++ s) ->
  hereBlanks w -> docIdent cc id -> ~ endsDoc id (body ++ s) -> nowdocBody id (body ++ s) body s ->
  exists l1 l2 l3, yields cc content l T_START_NOWDOC start (body ++ s) l1 /\
    yields cc content l1 T_STRING body s l2 /\
    yields cc content l2 T_END_NOWDOC id (skipn (List.length id) s) l3 /\ lx_st l3 = lx_st l.
Proof. intros cc content l w id body s OK. exact (nowdoc_all cc OK content l w id body s). Qed.
Print Assumptions C12_nowdoc.
Theorem C12_nowdoc_empty : forall cc content l w id s, ascii_ok cc ->
  let start := str "<<<" ++ w ++ [cSQ] ++ id ++ [cSQ; cNL] in
  at_ cc content DefaultState l (start ++ s) -> hereBlanks w -> docIdent cc id -> endsDoc id s ->
  exists l1 l2, yields cc content l T_START_NOWDOC start s l1 /\
    yields cc content l1 T_END_NOWDOC id (skipn (List.length id) s) l2 /\ lx_st l2 = lx_st l.
Proof. intros cc content l w id s OK. exact (nowdoc_empty cc OK content l w id s). Qed.
Print Assumptions C12_nowdoc_empty.
Theorem C12_nowdoc_unclosed : forall cc content l w id r, ascii_ok cc ->
  let start := str "<<<" ++ w ++ [cSQ] ++ id ++ [cSQ; cNL] in
  at_ cc content DefaultState l (start ++ r) -> hereBlanks w -> docIdent cc id -> r <> [] ->
  ~ endsDoc id r -> (forall b s, r = b ++ cNL :: s -> ~ endsDoc id s) ->
  exists l1 l2, yields cc content l T_START_NOWDOC start r l1 /\ yields cc content l1 T_STRING r [] l2.
Proof. intros cc content l w id r OK. exact (nowdoc_open cc OK content l w id r). Qed.
Print Assumptions C12_nowdoc_unclosed.
Example C12_case : let id := str "EOT" in let body := str "a $b EOT" ++ [cNL] ++ str " EOT" ++ [cNL] in
  let s := str "EOT;" ++ [cNL] in
  docIdent asciiCC id /\ ~ endsDoc id (body ++ s) /\ nowdocBody id (body ++ s) body s.
Proof.
  split; [split; [exists 69%N, (str "OT"); split; [reflexivity|left; reflexivity]|repeat constructor]|]. split.
  - intros (r & [H|H]); discriminate.
  - split; [reflexivity|]. split; [exists []; right; reflexivity|]. split; [eexists (str "a $b EOT" ++ [cNL] ++ str " EOT"); reflexivity|].
    intros b s' E HE. do 8 (destruct b; [discriminate E|cbn in E; injection E as _ E]).
    destruct b; [cbn in E; injection E as <-; destruct HE as (r & [H|H]); discriminate|cbn in E; injection E as _ E].
    do 4 (destruct b; [discriminate E|cbn in E; injection E as _ E]). cbn. lia.
Qed.

(** ** C13: theorems in PropLex3.v; a case here *)
Fixpoint firstTokens (n : nat) (content : qstring) (l : LexState) : option (list Token * LexState) :=
  match n with
  | 0 => Some ([], l)
  | S n => match firstTokens n content l with
           | Some (ts, l1) => match nextToken asciiCC content l1 with
                              | Some (l2, t, _) => if isEOF (t_kind t) then None else Some (ts ++ [t], l2)
                              | None => None end
           | None => None end
  end.
Lemma firstTokens_handsOut content l n : forall ts l', firstTokens n content l = Some (ts, l') -> handsOut asciiCC content l ts l'.
Proof.
  induction n as [|n IH]; intros ts l'; cbn [firstTokens].
  - intros H. injection H as <- <-. constructor.
  - destruct (firstTokens n content l) as [[ts1 l1]|]; [|discriminate].
    destruct (nextToken asciiCC content l1) as [[[l2 t] nl]|] eqn:E; [|discriminate].
    destruct (isEOF (t_kind t)) eqn:Ee; [discriminate|]. intros H. injection H as <- <-.
    eapply ho_snoc; [apply IH; reflexivity|exact E|]. intros Hk. unfold isEOF in Ee. rewrite Hk in Ee. discriminate.
Qed.
Example C13_case : exists toks l, handsOut asciiCC (str "<?php __halt_compiler( );x") initHtml toks l /\ endsWithHalt toks.
Proof.
  destruct (firstTokens 6 (str "<?php __halt_compiler( );x") initHtml) as [[toks l]|] eqn:E; [|vm_compute in E; discriminate].
  exists toks, l. split; [exact (firstTokens_handsOut _ _ _ _ _ E)|].
  vm_compute in E. injection E as <- <-.
  eexists [_], _, [], _, [_], _, [], _. split; [reflexivity|].
  split; [reflexivity|]. split; [reflexivity|]. split; [reflexivity|]. split; [reflexivity|].
  split; [constructor|]. split; [constructor; [left; reflexivity|constructor]|constructor].
Qed.

(** ** C14 *)
Theorem C14_open : forall cc content l r, ascii_ok cc ->
  at_ cc content HtmlState l (str "<?" ++ r) -> ~ xmlTag cc r ->
  exists l' k tag tail, yields cc content l k tag tail l' /\ str "<?" ++ r = tag ++ tail /\
    lx_st l' = DefaultState :: lx_st l /\
    ((k = T_OPEN_TAG_WITH_ECHO /\ tag = str "<?=") \/
     (k = T_OPEN_TAG /\ phpTag cc tag) \/
     (k = T_OPEN_TAG /\ tag = str "<?" /\ (forall x, r <> cEQ :: x) /\
      forall t x, str "<?" ++ r = t ++ x -> ~ phpTag cc t)).
Proof. intros cc content l r OK. exact (html_open cc OK content l r). Qed.
Print Assumptions C14_open.
Theorem C14_text : forall cc content l c t body tail, ascii_ok cc ->
  at_ cc content HtmlState l (c :: t) -> (forall r, c :: t = str "<?" ++ r -> xmlTag cc r) ->
  firstOcc (str "<?") t body tail ->
  exists l', yields cc content l T_INLINE_HTML (c :: body) (str "<?" ++ tail) l' /\ lx_st l' = lx_st l.
Proof. intros cc content l c t body tail OK. exact (html_text cc OK content l c t body tail). Qed.
Print Assumptions C14_text.
Theorem C14_document : forall cc content, ascii_ok cc -> content <> [] -> ~ contains (str "<?") content ->
  exists tok nls last, lexAll cc 2 content initHtml = Some (Done [tok] nls last) /\
    t_kind tok = T_INLINE_HTML /\ symbol content tok = content.
Proof.
  intros cc [|c t] OK Hne Hn; [congruence|].
  exact (html_document cc OK (c :: t) c t eq_refl (fun a b E => Hn (ex_intro _ a (ex_intro _ b E)))).
Qed.
Print Assumptions C14_document.
Example C14_case : at_ asciiCC (str "<?PHP 1") HtmlState initHtml (str "<?" ++ str "PHP 1") /\ ~ xmlTag asciiCC (str "PHP 1") /\
  phpTag asciiCC (str "<?PHP ").
Proof.
  split; [apply startHtml|]. split; [intros (?&?&?&?&E&E2); injection E as <- <- <- _; discriminate|].
  exists 80%N, 72%N, 80%N, 32%N. repeat split.
Qed.
Example C14_xml_case : at_ asciiCC (str "<?xml?><?=1") HtmlState initHtml (60%N :: str "?xml?><?=1") /\
  (forall r, 60%N :: str "?xml?><?=1" = str "<?" ++ r -> xmlTag asciiCC r) /\
  firstOcc (str "<?") (str "?xml?><?=1") (str "?xml?>") (str "=1").
Proof.
  split; [apply startHtml|]. split; [intros r E; injection E as <-; do 4 eexists; split; reflexivity|].
  split; [reflexivity|]. intros a b E. do 6 (destruct a; [discriminate E|cbn in E; injection E as _ E]). cbn. lia.
Qed.

(** ** C15 *)
Theorem C15_decimal : forall cc content l s ds r, ascii_ok cc ->
  inPhp cc content l (s ++ r) -> s <> [] -> decDigits s ds ->
  (s = [c0] -> noLetter cc 120 r /\ noLetter cc 98 r) -> noDigit cc r -> noDot r -> ~ expStart cc r ->
  exists l', yields cc content l (intOrFloat (value 10 ds)) s r l' /\ lx_st l' = lx_st l.
Proof. intros cc content l s ds r OK. exact (integer_token cc OK content l s ds r). Qed.
Print Assumptions C15_decimal.
Theorem C15_float : forall cc content l s1 ds1 s2 ds2 r, ascii_ok cc ->
  inPhp cc content l ((s1 ++ cDOT :: s2) ++ r) -> decDigits s1 ds1 -> decDigits s2 ds2 ->
  s1 ++ s2 <> [] -> noDigit cc r -> ~ expStart cc r ->
  exists l', yields cc content l T_DNUMBER (s1 ++ cDOT :: s2) r l' /\ lx_st l' = lx_st l.
Proof. intros cc content l s1 ds1 s2 ds2 r OK. exact (float_token cc OK content l s1 ds1 s2 ds2 r). Qed.
Print Assumptions C15_float.
Theorem C15_exponent : forall cc content l (s1 : qstring) ds1 (s2 : qstring) ds2 (pt : bool) e (sg s3 : qstring) ds3 (r : qstring),
  ascii_ok cc ->
  let text := s1 ++ (if pt then cDOT :: s2 else []) ++ e :: sg ++ s3 in
  inPhp cc content l (text ++ r) -> decDigits s1 ds1 -> decDigits s2 ds2 -> decDigits s3 ds3 ->
  (if pt then s1 ++ s2 <> [] else s1 <> []) -> [e] = str "e" \/ [e] = str "E" ->
  sg = [] \/ sg = [cMINUS] \/ sg = [cPLUS] -> s3 <> [] -> noDigit cc r ->
  exists l', yields cc content l T_DNUMBER text r l' /\ lx_st l' = lx_st l.
Proof.
  intros cc content l s1 ds1 s2 ds2 pt e sg s3 ds3 r OK text Hp H1 H2 H3 H4 He.
  apply (float_exp_token cc OK content l s1 ds1 s2 ds2 pt e sg s3 ds3 r Hp H1 H2 H3 H4).
  destruct He as [He|He]; injection He as He; subst e; [left|right]; reflexivity.
Qed.
Print Assumptions C15_exponent.
(** Hexadecimal literals: full statement without the exclusion of digits starting with 0b;
    refuted below. *)
Theorem C15_hex_partial : forall cc content l x s ds r, ascii_ok cc ->
  inPhp cc content l ((c0 :: x :: s) ++ r) -> [x] = str "x" \/ [x] = str "X" -> s <> [] -> hexDigits s ds ->
  (forall y, s <> str "0b" ++ y /\ s <> str "0B" ++ y) -> (s = [c0] -> noLetter cc 98 r) ->
  noDigit cc r -> noHexDigit cc r ->
  exists l', yields cc content l (intOrFloat (value 16 ds)) (c0 :: x :: s) r l' /\ lx_st l' = lx_st l.
Proof.
  intros cc content l x s ds r OK Hp Hx Hne Hd Hb.
  apply (hex_token cc OK content l x s ds r Hp); auto.
  - destruct Hx as [Hx|Hx]; injection Hx as Hx; subst x; [left|right]; reflexivity.
  - intros b y ->. destruct (Hb y) as [H1 H2]. split; intros ->; [apply H1|apply H2]; reflexivity.
Qed.
Print Assumptions C15_hex_partial.
Theorem C15_hex_refuted : exists content l s ds l',
  inPhp asciiCC content l (str "0x" ++ s) /\ hexDigits s ds /\ (value 16 ds <= phpIntMax)%N /\
  yields asciiCC content l T_DNUMBER (str "0x" ++ s) [] l'.
Proof.
  exists (str "0x0b"), initDefault, (str "0b"), [0; 11]%N. eexists. split; [apply startPhp|]. split; [reflexivity|].
  split; [vm_compute; discriminate|]. do 2 eexists. split; [vm_compute; reflexivity|]. repeat split.
Qed.
Print Assumptions C15_hex_refuted.
(** Binary literals: full statement without the bound on the length; refuted below. *)
Theorem C15_binary_partial : forall cc content l b s ds r, ascii_ok cc ->
  inPhp cc content l ((c0 :: b :: s) ++ r) -> [b] = str "b" \/ [b] = str "B" -> s <> [] -> binDigits s ds ->
  List.length s <= 19 -> noDigit cc r -> noDot r ->
  (value 2 ds <= phpIntMax)%N /\
  exists l', yields cc content l T_LNUMBER (c0 :: b :: s) r l' /\ lx_st l' = lx_st l.
Proof.
  intros cc content l b s ds r OK Hp Hb Hne Hd Hl Hr1 Hr2.
  assert (HL : List.length ds <= 19). { destruct Hd as [Hd _]. apply (f_equal (@List.length _)) in Hd. rewrite !map_length in Hd. rewrite <- Hd. exact Hl. }
  destruct (bin_small ds (proj2 Hd) HL) as [E1 E2]. split; [exact E2|].
  assert (Hb' : (b = 98 \/ b = 66)%N) by (destruct Hb as [Hb|Hb]; injection Hb as Hb; subst b; [left|right]; reflexivity).
  destruct (bin_token cc OK content l b s ds r Hp Hb' Hne Hd Hr1 Hr2) as [l' HY]. rewrite E1 in HY. eauto.
Qed.
Print Assumptions C15_binary_partial.
Theorem C15_binary_refuted : exists content l s ds l',
  inPhp asciiCC content l (str "0b" ++ s) /\ binDigits s ds /\ (value 2 ds <= phpIntMax)%N /\
  yields asciiCC content l T_DNUMBER (str "0b" ++ s) [] l'.
Proof.
  exists (str "0b10000000000000000000"), initDefault, (str "10000000000000000000"), [1; 0;0;0;0;0;0;0;0;0;0;0;0;0;0;0;0;0;0;0]%N. eexists.
  split; [apply startPhp|]. split; [split; [reflexivity|repeat constructor]|].
  split; [vm_compute; discriminate|]. do 2 eexists. split; [vm_compute; reflexivity|]. repeat split.
Qed.
Print Assumptions C15_binary_refuted.
Example C15_case : let doc := str "9223372036854775808;" in
  inPhp asciiCC doc initDefault (str "9223372036854775808" ++ str ";") /\
  decDigits (str "9223372036854775808") [9;2;2;3;3;7;2;0;3;6;8;5;4;7;7;5;8;0;8]%N /\
  intOrFloat (value 10 [9;2;2;3;3;7;2;0;3;6;8;5;4;7;7;5;8;0;8]%N) = T_DNUMBER /\
  intOrFloat (value 10 [9;2;2;3;3;7;2;0;3;6;8;5;4;7;7;5;8;0;7]%N) = T_LNUMBER /\
  noDigit asciiCC (str ";") /\ noDot (str ";") /\ ~ expStart asciiCC (str ";").
Proof.
  split; [apply startPhp|]. split; [reflexivity|]. split; [vm_compute; reflexivity|]. split; [vm_compute; reflexivity|].
  split; [intros c s E; injection E as <- _; reflexivity|]. split; [intros s; discriminate|].
  intros (e & x & E & H & _). injection E as <- _. discriminate.
Qed.

(** ** C16 *)
Theorem C16_cast : forall cc content l w1 word w2 r k t, ascii_ok cc -> spaceNotLetter cc ->
  inPhp cc content l (castShape cc w1 word w2 ++ r) ->
  allBlank cc w1 -> letters cc word -> allBlank cc w2 -> In (k, t) castTypes -> sameWord cc word k ->
  exists l', yields cc content l t (castShape cc w1 word w2) r l' /\ lx_st l' = lx_st l.
Proof. intros cc content l w1 word w2 r k t OK SL. exact (cast_token cc OK content SL l w1 word w2 r k t). Qed.
Print Assumptions C16_cast.
Theorem C16_paren : forall cc content l r, ascii_ok cc ->
  inPhp cc content l (str "(" ++ r) ->
  (forall w1 word w2 tail k t, str "(" ++ r = castShape cc w1 word w2 ++ tail -> allBlank cc w1 ->
     letters cc word -> allBlank cc w2 -> In (k, t) castTypes -> ~ sameWord cc word k) ->
  exists l', yields cc content l T_LPAREN (str "(") r l' /\ lx_st l' = lx_st l.
Proof. intros cc content l r OK. exact (paren_token cc OK content l r). Qed.
Print Assumptions C16_paren.
Lemma asciiCC_spaceNotLetter : spaceNotLetter asciiCC.
Proof.
  intros c. cbn. unfold asciiSpace, asciiLetter, asciiUpper, asciiLowerLetter.
  rewrite orb_true_iff, andb_true_iff, !N.leb_le, N.eqb_eq. intros H.
  rewrite !orb_false_iff, !andb_false_iff, !N.leb_gt. lia.
Qed.
Example C16_case : let doc := str "( InTeger )$x" in spaceNotLetter asciiCC /\
  inPhp asciiCC doc initDefault (castShape asciiCC (str " ") (str "InTeger") (str " ") ++ str "$x") /\
  allBlank asciiCC (str " ") /\ letters asciiCC (str "InTeger") /\ In (str "integer", T_INT_CAST) castTypes /\
  sameWord asciiCC (str "InTeger") (str "integer").
Proof.
  split; [exact asciiCC_spaceNotLetter|]. split; [apply startPhp|]. split; [repeat constructor|]. split; [repeat constructor|].
  split; [cbn; tauto|reflexivity].
Qed.

(** ** C51: variables and blanks *)
Theorem C51_variable : forall cc content l name r, ascii_ok cc ->
  inPhp cc content l (cDOLLAR :: name ++ r) -> (exists c s, name = c :: s /\ identStart cc c) ->
  Forall (identChar cc) name -> (forall c s, r = c :: s -> ~ identChar cc c) ->
  exists l', yields cc content l T_VARIABLE (cDOLLAR :: name) r l' /\ lx_st l' = lx_st l.
Proof. intros cc content l name r OK. exact (variable_token cc OK content l name r). Qed.
Print Assumptions C51_variable.
Theorem C51_blanks : forall cc content l w r, ascii_ok cc ->
  inPhp cc content l (w ++ r) -> w <> [] -> allBlank cc w -> (forall c s, r = c :: s -> isSpace cc c = false) ->
  exists l', yields cc content l T_WHITESPACE w r l' /\ lx_st l' = lx_st l.
Proof. intros cc content l w r OK. exact (whitespace_token cc OK content l w r). Qed.
Print Assumptions C51_blanks.
Example C51_case : let doc := str "$a_1->b" in
  inPhp asciiCC doc initDefault (cDOLLAR :: str "a_1" ++ str "->b") /\ Forall (identChar asciiCC) (str "a_1").
Proof.
  split; [apply startPhp|]. repeat (apply Forall_cons; [unfold identChar; cbn; tauto|]). apply Forall_nil.
Qed.
