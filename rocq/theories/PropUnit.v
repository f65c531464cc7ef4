(** C44, C45, C54: PHPUnit support. *)
From Verif Require Import Chars UnitModel UnitSpec UnitProofs.

(** C44: until the declarations file has been read, nothing is examined. *)
Theorem C44_nothing_before l : forallb (fun n => negb (declared n)) l = true -> examined (notices l) = [].
Proof. exact (C44_nothing_before_l l). Qed.
Print Assumptions C44_nothing_before.
(** C44: how often a context is examined, for every history: those received before the first
    reading of the declarations file once per reading, the others once per reception. *)
Theorem C44_count pre post c : forallb (fun n => negb (declared n)) pre = true ->
  times c (examined (notices (pre ++ NDeclarations true :: post))) =
  (received c pre * (1 + List.length (filter declared post)) + received c post)%nat.
Proof. exact (C44_count_l pre post c). Qed.
Print Assumptions C44_count.
(** C44: when the declarations file is read once, every context is examined once per reception. *)
Theorem C44_once_partial pre post c :
  forallb (fun n => negb (declared n)) pre = true -> forallb (fun n => negb (declared n)) post = true ->
  times c (examined (notices (pre ++ NDeclarations true :: post))) = received c (pre ++ NDeclarations true :: post).
Proof. exact (C44_once_l pre post c). Qed.
Print Assumptions C44_once_partial.
(** C44 fails when it is read again: a context received once is examined twice. *)
Theorem C44_refuted : exists l c, received c l = 1%nat /\ times c (examined (notices l)) = 2%nat.
Proof. exists [NContext 5; NDeclarations true; NDeclarations true], 5%nat. split; reflexivity. Qed.
Print Assumptions C44_refuted.
Example C44_ex : examined (notices [NContext 1; NNull; NDeclarations false; NContext 2; NDeclarations true; NContext 1]) = [1; 2; 1]%nat.
Proof. reflexivity. Qed.

(** C45: a case is recorded as passed iff the last line that reports it has the mark x, *)
Theorem C45_case_passed cc cases lines name :
  lookup name (rowsInserted cc cases [] lines) = Some Passed <-> lastReport cc cases lines name 120.
Proof. exact (C45_case_passed_l cc cases lines name). Qed.
Print Assumptions C45_case_passed.
(** as failed iff it has another mark, *)
Theorem C45_case_failed cc cases lines name :
  lookup name (rowsInserted cc cases [] lines) = Some Failed <-> exists mark, mark <> 120 /\ lastReport cc cases lines name mark.
Proof. exact (C45_case_failed_l cc cases lines name). Qed.
Print Assumptions C45_case_failed.
(** and has no result iff no line reports it. *)
Theorem C45_case_none cc cases lines name :
  lookup name (rowsInserted cc cases [] lines) = None <-> Forall (fun l => forall k, ~ reports cc cases l name k) lines.
Proof. exact (C45_case_none_l cc cases lines name). Qed.
Print Assumptions C45_case_none.
(** C45: the result of the suite. *)
Theorem C45_suite cc cases lines error :
  let r := processFinished error (rowsInserted cc cases [] lines) in
  (r = Failed <-> error = 1%Z \/ (error = 0%Z /\ exists name mark, mark <> 120 /\ lastReport cc cases lines name mark)) /\
  (r = Error <-> error <> 0%Z /\ error <> 1%Z) /\
  (r = Passed <-> error = 0%Z /\ forall name mark, lastReport cc cases lines name mark -> mark = 120).
Proof. exact (C45_suite_l cc cases lines error). Qed.
Print Assumptions C45_suite.
(** The rows may arrive in any number of batches. *)
Theorem C45_batches cc cases a b : rowsInserted cc cases (rowsInserted cc cases [] a) b = rowsInserted cc cases [] (a ++ b).
Proof. unfold rowsInserted. rewrite fold_left_app. reflexivity. Qed.
Print Assumptions C45_batches.
Definition exCases : list qstring := [str "testfoobar"; str "testadd"].
Definition exLines : list qstring := [str "PHPUnit"; str " [ ] Foo bar"; str " [x] Add"; str " [x] Foo Bar"; str "[ ] Other"].
Example C45_ex : lookup (str "testfoobar") (rowsInserted asciiCC exCases [] exLines) = Some Passed /\
  lookup (str "testother") (rowsInserted asciiCC exCases [] exLines) = None /\
  processFinished 0 (rowsInserted asciiCC exCases [] exLines) = Passed /\
  processFinished 0 (rowsInserted asciiCC exCases [] (firstn 3 exLines)) = Failed /\
  processFinished 2 (rowsInserted asciiCC exCases [] exLines) = Error.
Proof. repeat split; vm_compute; reflexivity. Qed.
Example C45_ex_report : reports asciiCC exCases (str " [ ] Foo bar") (str "testfoobar") cSP.
Proof.
  exists (str "Foo bar"). split; [|split; [reflexivity|exists (str "testfoobar"); split; [left; reflexivity|reflexivity]]].
  apply marked_iff. exists (str "[ ] Foo bar"). split; reflexivity.
Qed.

(** C54: every suite registered when a context is examined is a runnable class - not abstract, in a
    project, with at least one test method - and lists its test methods; it is a test class of the
    context, or derived from one through classes that are not runnable. *)
Theorem C54_sound inh fuel decls n l : In (n, l) (processContext inh fuel decls) ->
  exists c d, In c decls /\ cIsClass c = true /\ cAbstract c = false /\ cHasCtx c = true /\ cIsTest c = true /\
    reaches inh c d /\ runnable d l /\ cNo d = n.
Proof. exact (C54_sound_l inh fuel decls n l). Qed.
Print Assumptions C54_sound.
(** C54: all these are registered. *)
Theorem C54_complete inh decls c d l : In c decls -> cIsClass c = true -> cAbstract c = false -> cHasCtx c = true -> cIsTest c = true ->
  reaches inh c d -> runnable d l ->
  exists f0, forall fuel, (f0 <= fuel)%nat -> In (cNo d, l) (processContext inh fuel decls).
Proof. exact (C54_complete_l inh decls c d l). Qed.
Print Assumptions C54_complete.
Definition exClass (n : nat) (m : list (bool * qstring)) : Class :=
  {| cNo := n; cIsClass := true; cAbstract := false; cHasCtx := true; cIsTest := true; cProject := true; cMembers := m |}.
Definition exBase : Class := exClass 1 [(true, str "setup"); (false, str "testdata")].
Definition exDerived : Class := exClass 2 [(true, str "testadd"); (true, str "helper"); (true, str "testsub")].
Definition exInh (c : Class) : list Class := if Nat.eqb (cNo c) 1 then [exDerived] else [].
Example C54_ex : processContext exInh 5 [exBase] = [(2%nat, [str "testadd"; str "testsub"])].
Proof. vm_compute. reflexivity. Qed.
