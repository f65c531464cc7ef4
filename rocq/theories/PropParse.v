(** C58, C59, C60, C64: parsing a file.  The parser is [parseFile] of ParseModel.v, the specification
    ParseSpec.v.  [g] is what the parser generator adds to php.g: every theorem holds for all of it. *)
From Coq Require Import List Bool Arith ZArith Lia.
From Verif Require Import Chars LexModel LexSpec TokModel PropTok ParseModel ParseSpec ParseProofs ParseProofs2 ParseProofs3 ParseProofs5 ParseProofs6 ParseProofs7 ParseProofs8.
Import ListNotations.
Open Scope nat_scope.

(** The parser comes to an end on every list of tokens. *)
Theorem C58_parsing_ends : forall g ts, exists f0 r, forall f, f0 <= f -> parseFile g f ts = Some r.
Proof. exact parse_ends. Qed.
Print Assumptions C58_parsing_ends.

(** ... and so does reading a text: the lexer's tokens up to the end marker are parsed. *)
Definition kinds (ps : list PTok) : list Tok := map p_kind (removelast ps).
Theorem C58_text : forall g cc content l, ascii_ok cc -> LexSpec.initial l ->
  ~ braceDollarDigit cc content -> ~ yieldAtEnd cc content ->
  exists ps f0 r, tokenize cc (2 * List.length content + 1) content l 0 0 = Some (PDone ps)
    /\ forall f, f0 <= f -> parseFile g f (kinds ps) = Some r.
Proof.
  intros g cc content l OK I N1 N2. destruct (C17_finishes cc content l OK I N1 N2) as [ps H].
  destruct (parse_ends g (kinds ps)) as (f0 & r & E). exists ps, f0, r. auto.
Qed.
Print Assumptions C58_text.

(** Tokens and nodes of the tree lie where they stand in the file. *)
Theorem C59_placed : forall g f ts t ps, parseFile g f ts = Some (Accepted t ps) -> wellPlaced ts t.
Proof. exact parse_placed. Qed.
Print Assumptions C59_placed.

(** Problems lie at tokens of the file (or its end); a rejected file has an error. *)
Theorem C59_problems : forall g f ts r, parseFile g f ts = Some r ->
  match r with
  | Accepted _ ps => forall p, In p ps -> pr_index p <= List.length ts
  | Rejected ps => (forall p, In p ps -> pr_index p <= List.length ts) /\ exists p, In p ps /\ isError p = true
  end.
Proof. exact parse_problems. Qed.
Print Assumptions C59_problems.

(** A file parsed without an error is a word of the grammar, and the tree has all its tokens: for
    every file if the generated try/recover unblocks errors, else for files without closures. *)
Theorem C60_sound_partial : forall g f ts t ps, unblocks g = true \/ noClosure ts ->
  parseFile g f ts = Some (Accepted t ps) -> (forall p, In p ps -> isError p = false) -> treeOf ts t.
Proof. exact parse_sound. Qed.
Print Assumptions C60_sound_partial.

(** Without that, a file that no tree can be for is parsed without any problem:
    [<?php f(function() { $a = });] *)
Theorem C60_closure_refuted : exists ts, (forall t, ~ treeOf ts t) /\
  forall g, unblocks g = false -> (forall n, resync g n T_RBRACE = true) ->
  exists f t, parseFile g f ts = Some (Accepted t []).
Proof.
  exists badArgument. split; [apply no_tree; cbn; tauto|]. intros g U R.
  destruct (silent g U R) as (t & H & _). exists 400, t. exact H.
Qed.
Print Assumptions C60_closure_refuted.

(** A syntax error outside of braces: nothing of the file is kept, whatever comes behind it. *)
Theorem C64_rest_refuted : exists begin, forall g tail, exists f0 ps, forall f, f0 <= f ->
  parseFile g f (begin ++ tail) = Some (Rejected ps).
Proof.
  exists [T_OPEN_TAG; T_RPAREN]. intros g tail. destruct (rest_lost g tail) as [ps H]. exists 60, ps. exact H.
Qed.
Print Assumptions C64_rest_refuted.

(** A syntax error in the body of a function: however broken it is (as long as it has no braces and
    none of the words that end a statement list), the rest of the file is read as if the function was
    not there, only further down. *)
Theorem C64_body_partial : forall g bad tail f t ps, (forall n, resync g n T_RBRACE = true) -> noBraces bad ->
  parseFile g f (T_OPEN_TAG :: tail) = Some (Accepted t ps) ->
  exists f' o fn rest e ps',
    t = Node n_start 0 (o :: rest) e
    /\ parseFile g f' (T_OPEN_TAG :: functionWith bad ++ tail)
       = Some (Accepted (Node n_start 0 (o :: fn :: map (shift (List.length (functionWith bad))) rest)
                              (e + List.length (functionWith bad))) ps').
Proof. intros g bad tail f t ps HR NB. exact (behind_broken g bad tail f t ps HR (noBraces_flat bad NB)). Qed.
Print Assumptions C64_body_partial.

(** With braces it can get out of step: [<?php function f() { echo "{$a;}"; }] is rejected. *)
Theorem C64_braces_refuted : exists bad, forall g, (forall n, resync g n T_RBRACE = true) ->
  exists f ps, parseFile g f (T_OPEN_TAG :: functionWith bad) = Some (Rejected ps).
Proof. eexists. intros g HR. exists 300. exact (nested_lost g HR). Qed.
Print Assumptions C64_braces_refuted.

(** A file with a function, a class, a method and a call, parsed without a problem:
    [<?php function f($a) { return $a + 1; } class A extends B { public function g() { f(2); } }] *)
Definition file58 : list Tok :=
  [T_OPEN_TAG; T_FUNCTION; T_STRING; T_LPAREN; T_VARIABLE; T_RPAREN; T_LBRACE; T_RETURN; T_VARIABLE; T_PLUS; T_LNUMBER;
   T_SEMICOLON; T_RBRACE; T_CLASS; T_STRING; T_EXTENDS; T_STRING; T_LBRACE; T_PUBLIC; T_FUNCTION; T_STRING; T_LPAREN;
   T_RPAREN; T_LBRACE; T_STRING; T_LPAREN; T_LNUMBER; T_RPAREN; T_SEMICOLON; T_RBRACE; T_RBRACE].
Example C58_case : forall g, exists t, parseFile g 800 file58 = Some (Accepted t []) /\ List.length (leaves t) = 31.
Proof. intros g. eexists. split; [vm_compute; reflexivity|vm_compute; reflexivity]. Qed.
Example C60_no_closure : noClosure file58.
Proof.
  intros pre post. split; intros H;
    repeat (destruct pre as [|x pre]; [discriminate H|cbn [app] in H; injection H as <- H || injection H as H]); destruct pre; discriminate H.
Qed.
(** An error in a function body is reported where it is, and what follows is read:
    [<?php function f() { $a = ; } class A {}] *)
Definition file59 : list Tok :=
  [T_OPEN_TAG; T_FUNCTION; T_STRING; T_LPAREN; T_RPAREN; T_LBRACE; T_VARIABLE; T_ASSIGN; T_SEMICOLON; T_RBRACE;
   T_CLASS; T_STRING; T_LBRACE; T_RBRACE].
Definition gen59 : Gen := {| resync := fun _ k => teq k T_RBRACE || teq k T_VARIABLE; unblocks := true |}.
Example C59_case : exists t ps, parseFile gen59 800 file59 = Some (Accepted t ps)
  /\ map pr_index ps <> [] /\ forallb (Nat.eqb 8) (map pr_index ps) = true
  /\ In (T_CLASS, 10) (leaves t) /\ ~ In (T_VARIABLE, 6) (leaves t).
Proof.
  eexists. eexists. split; [vm_compute; reflexivity|]. split; [discriminate|]. split; [vm_compute; reflexivity|].
  split; [vm_compute; tauto|]. vm_compute. intuition discriminate.
Qed.
(** [function f() { $a = ) ( foreach }] in front of [class A {}] *)
Example C64_case : forall g, (forall n, resync g n T_RBRACE = true) ->
  noBraces [T_VARIABLE; T_ASSIGN; T_RPAREN; T_LPAREN; T_FOREACH] /\
  exists t ps, parseFile g 300 [T_OPEN_TAG; T_CLASS; T_STRING; T_LBRACE; T_RBRACE] = Some (Accepted t ps).
Proof.
  intros g HR. split.
  - intros k K H. cbn in K. repeat (destruct K as [<-|K]; [cbn in H; intuition discriminate|]). exact K.
  - eexists. eexists. rewrite (parseFile_ext g (pinned g (resync g n_topStatement T_SEMICOLON) (unblocks g))); [vm_compute; reflexivity|reflexivity|].
    intros n k. cbn. destruct (teq k T_RBRACE) eqn:E1; [apply teq_eq in E1; subst k; apply HR|].
    destruct (teq k T_SEMICOLON) eqn:E2; [|reflexivity]. apply teq_eq in E2. subst k. destruct n; reflexivity.
Qed.
