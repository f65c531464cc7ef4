(** C47, C48: word under the cursor, magic constants. *)
From Verif Require Import Chars HoverModel HoverSpec HoverProofs.

(** C47: on a word character, the word found is the maximal run of letters and underscores around
    the cursor; the range delimits it, except that it starts at -1 for a word at column 0. *)
Theorem C47_word_partial cc line col a b : ascii_ok cc -> maximalWord cc line a b -> (a <= col < b)%nat ->
  rStart (wordUnderCursor cc line col) = (if (a =? 0)%nat then -1 else Z.of_nat a)%Z /\
  rEnd (wordUnderCursor cc line col) = Z.of_nat b /\ word (wordUnderCursor cc line col) = columns line a b.
Proof. intros OK. exact (found_parts cc OK line col a b). Qed.
Print Assumptions C47_word_partial.
(** C47: elsewhere there is no word and the range is empty. *)
Theorem C47_no_word cc line col : ascii_ok cc -> ~ wordAt cc line col ->
  rStart (wordUnderCursor cc line col) = Z.of_nat col /\ rEnd (wordUnderCursor cc line col) = Z.of_nat col /\
  word (wordUnderCursor cc line col) = [].
Proof. intros OK. exact (found_none cc OK line col). Qed.
Print Assumptions C47_no_word.
(** C47: no index before the line or beyond the position after its last character is read. *)
Theorem C47_reads cc line col i : (col <= List.length line)%nat ->
  In i (reads (wordUnderCursor cc line col)) -> (0 <= i <= Z.of_nat (List.length line))%Z.
Proof. exact (reads_inside cc line col i). Qed.
Print Assumptions C47_reads.
(** C47: a magic constant is recognised exactly when the cursor is on it and it is not at the
    start of the line. *)
Theorem C47_magic_partial cc line col : ascii_ok cc ->
  (isMagicConstant (wordUnderCursor cc line col) = true <->
   exists a b n, maximalWord cc line a b /\ (0 < a <= col)%nat /\ (col < b)%nat /\ In n magicNames /\ columns line a b = str n).
Proof. intros OK. exact (magic_spec cc OK line col). Qed.
Print Assumptions C47_magic_partial.
Lemma ex_word : maximalWord asciiCC (str "a __FILE__;") 2 10.
Proof.
  split; [cbn; lia|]. split; [|split].
  - intros i Hi. do 10 (destruct i as [|i]; [try lia; eexists; split; reflexivity|]). lia.
  - intros (c & H & E). injection H as <-. discriminate.
  - intros i Hi. injection Hi as ->. intros (c & H & E). injection H as <-. discriminate.
Qed.
Example C47_nontrivial : maximalWord asciiCC (str "a __FILE__;") 2 10 /\
  isMagicConstant (wordUnderCursor asciiCC (str "a __FILE__;") 5) = true.
Proof. split; [exact ex_word|reflexivity]. Qed.
(** C47 fails at the start of a line. *)
Theorem C47_line_start_refuted : exists line col b, maximalWord asciiCC line 0 b /\ (col < b)%nat /\
  columns line 0 b = str "__FILE__" /\ rStart (wordUnderCursor asciiCC line col) = (-1)%Z /\
  isMagicConstant (wordUnderCursor asciiCC line col) = false.
Proof.
  exists (str "__FILE__"), 3%nat, 8%nat. split; [|repeat split; cbn; lia].
  split; [cbn; lia|]. split; [|split].
  - intros i Hi. do 8 (destruct i as [|i]; [eexists; split; reflexivity|]). lia.
  - intros (c & H & E). discriminate.
  - intros i Hi. discriminate.
Qed.
Print Assumptions C47_line_start_refuted.

(** C48: findContextAt picks the scopes around the position. *)
Theorem C48_scopes t pos ch : wfTree t -> (findContextAt t pos = Some ch <-> At pos t ch).
Proof. intros W. split; [apply findAt_sound|now apply findAt_complete]. Qed.
Print Assumptions C48_scopes.
Theorem C48_class t pos ch : wfTree t -> At pos t ch ->
  (forall c up, innermost KClass ch c up -> classValue t pos = SName (nName c)) /\
  (Forall (fun x => nKind x <> KClass) ch -> classValue t pos = SEmpty).
Proof. exact (class_value t pos ch). Qed.
Print Assumptions C48_class.
Theorem C48_function t pos ch : wfTree t -> At pos t ch ->
  (forall c up k, innermost KOther ch c up -> nOwner c = Some (true, k) -> functionValue t pos = SName (nName c)) /\
  (forall c up, innermost KOther ch c up -> (forall k, nOwner c <> Some (true, k)) -> functionValue t pos = SEmpty) /\
  (Forall (fun x => nKind x <> KOther) ch -> functionValue t pos = SEmpty).
Proof. exact (function_value t pos ch). Qed.
Print Assumptions C48_function.
(** C48: __NAMESPACE__ shows the last component of the innermost namespace. *)
Theorem C48_namespace_partial t pos ch : wfTree t -> At pos t ch ->
  (forall c up k, innermost KNamespace ch c up -> nOwner c = Some (k, true) -> namespaceValue t pos = SName (nName c)) /\
  (Forall (fun x => nKind x <> KNamespace) ch -> namespaceValue t pos = SEmpty).
Proof. exact (namespace_value t pos ch). Qed.
Print Assumptions C48_namespace_partial.
(** C48: __METHOD__ in a method body, and outside all functions. *)
Theorem C48_method_partial t pos ch : wfTree t -> At pos t ch ->
  (forall c p up fuel, innermost KOther ch c (p :: up) -> nKind p = KClass -> methodValue (S fuel) t pos = Some (SMethod (nName p) (nName c))) /\
  (forall fuel, Forall (fun x => nKind x <> KOther) ch -> methodValue (S fuel) t pos = Some SEmpty).
Proof. exact (method_value t pos ch). Qed.
Print Assumptions C48_method_partial.
(** C48 fails for __METHOD__ in a function or closure that is not a method: the search restarts at
    the beginning of the body, which is inside the body, and never ends. *)
Theorem C48_method_loops t pos ch c p up : wfTree t -> At pos t ch -> innermost KOther ch c (p :: up) -> nKind p <> KClass ->
  At (nFrom c) t (c :: p :: up) -> forall fuel, methodValue fuel t pos = None.
Proof. exact (method_loops t pos ch c p up). Qed.
Print Assumptions C48_method_loops.

Definition nd k f e n o := {| nKind := k; nFrom := f; nTo := e; nName := str n; nOwner := o |}.
(** <?php namespace n; class A { function m() { HERE } } function f() { THERE } *)
Definition body := nd KOther 20 30 "m" (Some (true, false)).
Definition clsA := nd KClass 10 40 "a" (Some (false, false)).
Definition fbody := nd KOther 50 60 "f" (Some (true, false)).
Definition nsN := nd KNamespace 5 100 "n" (Some (false, true)).
Definition topC := nd KGlobal 0 100 "" None.
Definition exTree := T topC [T nsN [T clsA [T body []]; T fbody []]].
Lemma exTree_wf : wfTree exTree.
Proof.
  assert (L : forall n, wfTree (T n [])) by (intros n; constructor; [intros c []|intros [|i] j a b H; discriminate]).
  assert (S : forall n c, wfTree c -> wfTree (T n [c])).
  { intros n c Wc. constructor; [intros x [<-|[]]; auto|]. intros [|[|i]] [|[|j]] a b Hi Hj; try discriminate; lia. }
  apply S. constructor.
  - intros c [<-|[<-|[]]]; auto.
  - intros [|[|[|i]]] [|[|[|j]]] a b Hi Hj Hne; try discriminate; try lia; injection Hi as <-; injection Hj as <-; intros pos;
      unfold covers, contains, clsA, fbody, nd; cbn [nFrom nTo]; lia.
Qed.
Example C48_nontrivial : At 25 exTree [body; clsA; nsN; topC] /\ classValue exTree 25 = SName (str "a") /\
  functionValue exTree 25 = SName (str "m") /\ namespaceValue exTree 55 = SName (str "n") /\ classValue exTree 55 = SEmpty.
Proof. split; [apply (C48_scopes exTree 25 _ exTree_wf); reflexivity|]. repeat split. Qed.
Theorem C48_method_refuted : exists t pos, wfTree t /\ (forall fuel, methodValue fuel t pos = None).
Proof.
  exists exTree, 55%nat. split; [exact exTree_wf|].
  apply (C48_method_loops exTree 55 [fbody; nsN; topC] fbody nsN [topC]).
  - exact exTree_wf.
  - apply (C48_scopes exTree 55 _ exTree_wf). reflexivity.
  - exists []. repeat split. constructor.
  - discriminate.
  - apply (C48_scopes exTree 50 _ exTree_wf). reflexivity.
Qed.
Print Assumptions C48_method_refuted.
