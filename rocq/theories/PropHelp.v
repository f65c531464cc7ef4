(** C39-C41.  Vocabulary in HelpSpec.v. *)
From Verif Require Import HelpSpec HelpProofs HelpProofs2 HelpProofs3 HelpProofs4.
Open Scope nat_scope.

(** ** C39 *)
(** Full statement: the words are whole words; see [C39_refuted]. *)
Theorem C39_exact_partial : forall cc text ks, ascii_ok cc -> spacesAreNoLetters cc ->
  (getMethodTokens cc text = ks <-> modifiersBefore cc text ks).
Proof.
  intros cc text ks OK SP. split.
  - intros <-. exact (tokens_sound cc OK SP text).
  - intros H. exact (before_unique cc OK SP text _ _ (tokens_sound cc OK SP text) H).
Qed.
Print Assumptions C39_exact_partial.
Lemma asciiCC_spaces : spacesAreNoLetters asciiCC.
Proof.
  intros c H. cbn in *. unfold asciiSpace in H. unfold asciiLowerLetter, asciiToLower, asciiUpper.
  replace ((65 <=? c)%N && (c <=? 90)%N) with false by lia. lia.
Qed.
Example C39_case : spacesAreNoLetters asciiCC /\
  getMethodTokens asciiCC (str "class X { public abstract  Static final static FUNCTION ") = [WFunction; WStatic; WFinal].
Proof. split; [exact asciiCC_spaces|reflexivity]. Qed.
(** [$nonstatic ] counts as the modifier static: words need not start at a word boundary. *)
Theorem C39_refuted : exists cc before c text, ascii_ok cc /\ spacesAreNoLetters cc /\
  text = before ++ c :: str "static " /\ isLetter cc c = true /\ getMethodTokens cc text = [WStatic].
Proof.
  exists asciiCC, (str "var $no"), 110%N, (str "var $nonstatic "). split; [exact asciiCC_ok|].
  split; [exact asciiCC_spaces|]. repeat split.
Qed.
Print Assumptions C39_refuted.

(** ** C40 *)
(** The inserted text is what the template means, wherever it is inserted. *)
Theorem C40_text : forall cc cfg line start kw t, ascii_ok cc -> ~ In cNL line -> wellFormed t ->
  x_text (execute cc cfg line start kw (writeTemplate t)) =
  showTemplate (getIndentation cc line) (indentString cfg) t.
Proof.
  intros cc cfg line start kw t OK NL (NE & U & [P|[(a & b & -> & PA & PB)|(a & s & b & -> & PA & PB & NS & HS)]]).
  - rewrite exec_none by assumption. reflexivity.
  - rewrite exec_cursor by assumption. unfold showTemplate. rewrite flat_map_app. reflexivity.
  - rewrite exec_select by assumption. unfold showTemplate. rewrite flat_map_app. cbn [flat_map showPiece app].
    rewrite flat_map_app. cbn. f_equal. f_equal. clear. induction s as [|c s IH]; [reflexivity|]. cbn. rewrite <- IH. reflexivity.
Qed.
Print Assumptions C40_text.
(** Full statement: without the condition on line ends and column; see [C40_refuted]. *)
Theorem C40_cursor_partial : forall cc cfg line start kw a b, ascii_ok cc -> ~ In cNL line -> plain a -> plain b ->
  unambiguous (a ++ PMark MCursor :: b) -> noNewline a \/ k_col start = 0 ->
  let e := execute cc cfg line start kw (writeTemplate (a ++ PMark MCursor :: b)) in
  x_cursor e = Some (typed start (showTemplate (getIndentation cc line) (indentString cfg) a)) /\ x_selection e = None.
Proof.
  intros cc cfg line start kw a b OK NL PA PB U H. cbn zeta. rewrite exec_cursor by assumption.
  unfold result. cbn [x_cursor x_selection]. (split; [|reflexivity]). f_equal.
  rewrite firstn_app, Nat.sub_diag, firstn_all. cbn [firstn]. rewrite app_nil_r. apply cursor_right.
  destruct H as [H|H]; [left|right; exact H]. apply show_nonl; [apply indent_ok|exact PA|exact H].
Qed.
Print Assumptions C40_cursor_partial.
Theorem C40_selection_partial : forall cc cfg line start kw a s b, ascii_ok cc -> ~ In cNL line -> plain a -> plain b ->
  s <> [] -> noPercent s -> unambiguous (a ++ PMark MSelect :: map PChar s ++ PMark MEndSelect :: b) ->
  noNewline a \/ k_col start = 0 ->
  let e := execute cc cfg line start kw (writeTemplate (a ++ PMark MSelect :: map PChar s ++ PMark MEndSelect :: b)) in
  let before := showTemplate (getIndentation cc line) (indentString cfg) a in
  x_cursor e = Some (typed start before) /\ x_selection e = Some (typed start (before ++ s)).
Proof.
  intros cc cfg line start kw a s b OK NL PA PB NS HS U H. cbn zeta. rewrite exec_select by assumption.
  unfold result. cbn [x_cursor x_selection]. set (A := showTemplate (getIndentation cc line) (indentString cfg) a).
  rewrite firstn_app, Nat.sub_diag, firstn_all. cbn [firstn]. rewrite app_nil_r.
  assert (C : {| k_line := k_line start + countNl A; k_col := k_col start + tailLen A 0 |} = typed start A).
  { apply cursor_right. destruct H as [H|H]; [left|right; exact H]. apply show_nonl; [apply indent_ok|exact PA|exact H]. }
  rewrite C. (split; [reflexivity|]). f_equal. rewrite typed_app, (typed_flat (typed start A) s).
  - f_equal. lia.
  - intros X. apply (HS 10%N X). reflexivity.
Qed.
Print Assumptions C40_selection_partial.
(** The templates of the program are well formed, all but one. *)
Theorem C40_builtin_partial : forall k s, In (k, s) builtinTemplates -> k <> str "static" ->
  exists t, s = writeTemplate t /\ wellFormed t.
Proof.
  intros k s H N. exists (readT s 0).
  assert (F : forallb (fun ks => eqs (fst ks) (str "static") ||
                (eqs (snd ks) (writeTemplate (readT (snd ks) 0)) && wfb (readT (snd ks) 0))) builtinTemplates = true)
    by (vm_compute; reflexivity).
  rewrite forallb_forall in F. specialize (F _ H). cbn [fst snd] in F. apply orb_true_iff in F. destruct F as [F|F].
  - apply eqs_eq in F. contradiction.
  - apply andb_true_iff in F. destruct F as [F1 F2]. apply eqs_eq in F1. split; [exact F1|apply wfb_ok; exact F2].
Qed.
Print Assumptions C40_builtin_partial.
Example C40_case : In (str "try", nl (str "try {~%INDENT%%CURSOR%~} catch() {~$%INDENT%~}~")) builtinTemplates /\
  execute asciiCC (Some (Some 2)) (str "try") {| k_line := 4; k_col := 0 |} []
    (nl (str "try {~%INDENT%%CURSOR%~} catch() {~$%INDENT%~}~")) =
  {| x_text := nl (str "try {~  ~} catch() {~$  ~}~"); x_cursor := Some {| k_line := 5; k_col := 2 |}; x_selection := None |}.
Proof. split; [|vm_compute; reflexivity]. vm_compute. tauto. Qed.
(** In an indented line the cursor lands too far right when the marker is on a later line. *)
Theorem C40_refuted : exists cc cfg line start k a b, ascii_ok cc /\ ~ In cNL line /\ plain a /\ plain b /\
  unambiguous (a ++ PMark MCursor :: b) /\ In (k, writeTemplate (a ++ PMark MCursor :: b)) builtinTemplates /\
  x_cursor (execute cc cfg line start k (writeTemplate (a ++ PMark MCursor :: b))) <>
  Some (typed start (showTemplate (getIndentation cc line) (indentString cfg) a)).
Proof.
  exists asciiCC, (Some (Some 2)), (str "    do"), {| k_line := 0; k_col := 4 |}, (str "do"),
    (readT (nl (str "do {~%INDENT%")) 0), (readT (nl (str "~} while();~")) 0).
  split; [exact asciiCC_ok|]. split; [cbn; intuition discriminate|]. split; [apply plainb_ok; reflexivity|].
  split; [apply plainb_ok; reflexivity|]. split; [apply unambb_ok; reflexivity|].
  split; [vm_compute; tauto|]. vm_compute. discriminate.
Qed.
Print Assumptions C40_refuted.
(** The template of the keyword static leaves a stray percent sign. *)
Theorem C40_static_refuted : exists s, In (str "static", s) builtinTemplates /\
  x_text (execute asciiCC None [] {| k_line := 0; k_col := 0 |} (str "static") s) = nl (str "static $%;~").
Proof. exists (nl (str "static $%CURSOR%%;~")). split; [vm_compute; tauto|vm_compute; reflexivity]. Qed.
Print Assumptions C40_static_refuted.

(** ** C41 *)
Theorem C41_total : forall ps ds, exists r, createArgumentList ps ds = Some r.
Proof. exact argList_total. Qed.
Print Assumptions C41_total.
Theorem C41_text : forall ps ds, List.length ds <= List.length ps ->
  exists hl, createArgumentList ps ds = Some (flat_map fst (argPieces ps ds), hl).
Proof. intros ps ds H. destruct (argList_spec ps ds H) as (segs & lead & last & _ & E). exists (segments 0 segs ++ [(List.length (concatP segs), List.length (concatP (argPieces ps ds)), last)]). exact E. Qed.
Print Assumptions C41_text.
(** Full statement: all segments tile the text; the last one starts at the right place but its
    length is that of the whole text, see [C41_refuted]. *)
Theorem C41_segments_partial : forall ps ds, List.length ds <= List.length ps ->
  exists init s f, argPieces ps ds = init ++ [(s, f)] /\
  createArgumentList ps ds = Some (flat_map fst (argPieces ps ds),
    segments 0 init ++ [(List.length (flat_map fst init), List.length (flat_map fst (argPieces ps ds)), f)]).
Proof.
  intros ps ds H. destruct (argList_spec ps ds H) as (segs & lead & last & E1 & E).
  exists segs, lead, last. split; [exact E1|exact E].
Qed.
Print Assumptions C41_segments_partial.
Definition prm n t := {| p_name := str n; p_type := t |}.
Example C41_case : createArgumentList [prm "a" (Some (str "array")); prm "b" None; prm "c" None] [str "1"; []] =
  Some (str "(array $a, $b = 1, $c)",
        [(0, 1, Normal); (1, 8, Matched); (9, 2, Normal); (11, 2, Matched); (13, 6, Normal); (19, 2, Matched); (21, 22, Normal)]).
Proof. reflexivity. Qed.
Theorem C41_refuted : exists ps ds text hl, createArgumentList ps ds = Some (text, hl) /\
  hl <> segments 0 (argPieces ps ds) /\ exists start len f, In (start, len, f) hl /\ start + len > List.length text.
Proof.
  exists [prm "a" None], [], (str "($a)"). eexists. split; [reflexivity|]. split; [discriminate|].
  exists 3, 4, Normal. split; [cbn; auto|cbn; lia].
Qed.
Print Assumptions C41_refuted.
