(** C24: tags of doc comments.  Vocabulary in DocSpec.v. *)
From Verif Require Import DocProofs.
Open Scope nat_scope.

(** The search always ends and never reads outside the comment. *)
Theorem C24_safe : forall cc d name onlyOne, exists r, findInDocComment cc d name onlyOne = Ret r.
Proof. intros cc d name onlyOne. exact (find_safe cc d name onlyOne (S (List.length d)) 0 [] (Nat.lt_succ_diag_r _)). Qed.
Print Assumptions C24_safe.

(** All values: exactly those of the lines that start with the tag, in order; asked for one
    only: the first of them.  Missing from the full property: comments in which a line other
    than the last has the tag followed by blanks only; see [C24_refuted]. *)
Theorem C24_values_partial : forall cc d name, ascii_ok cc -> ~ In cNL name -> noBlankTag cc name d ->
  findInDocComment cc d name false = Ret (values cc name (lines d)) /\
  findInDocComment cc d name true = Ret (firstn 1 (values cc name (lines d))).
Proof.
  intros cc d name OK Hn HB.
  split; [exact (find_spec cc (ok_space cc OK cNL eq_refl) d name false Hn _ 0 [] (Nat.lt_succ_diag_r _) HB (fun _ => eq_refl))
         |exact (find_spec cc (ok_space cc OK cNL eq_refl) d name true Hn _ 0 [] (Nat.lt_succ_diag_r _) HB (fun _ => eq_refl))].
Qed.
Print Assumptions C24_values_partial.

(** The word for [@param] followed by blanks only is taken from the next line: the star. *)
Definition nl24 := [cNL].
Definition doc24r : qstring := str "/** @param " ++ nl24 ++ str " * @param int $a */".
Theorem C24_refuted : exists d name, ~ In cNL name /\
  findInDocComment asciiCC d name false = Ret [str "*"] /\ values asciiCC name (lines d) = [str "int"].
Proof.
  exists doc24r, (str "param"). split; [cbn; intros H; repeat (destruct H as [H|H]; [discriminate H|]); exact H|].
  split; vm_compute; reflexivity.
Qed.
Print Assumptions C24_refuted.

Definition doc24 : qstring := str "/**" ++ nl24 ++ str " * Adds. @param no" ++ nl24 ++ str " * @param  int $a" ++ nl24 ++ str " * @params x" ++
  nl24 ++ str " * @return" ++ nl24 ++ str "@param string|null $b */".
Example C24_case : ~ In cNL (str "param") /\ noBlankTag asciiCC (str "param") doc24 /\
  findInDocComment asciiCC doc24 (str "param") false = Ret [str "int"; str "string|null"].
Proof.
  split; [cbn; intros H; repeat (destruct H as [H|H]; [discriminate H|]); exact H|]. split; [|vm_compute; reflexivity].
  unfold noBlankTag. cbn -[blankTag].
  repeat (constructor; [intros (r & H & Hr & HF); vm_compute in H; try discriminate H; injection H as <-;
    repeat (apply Forall_cons_iff in HF as [HC HF]; vm_compute in HC; try discriminate HC; clear HC)|]).
  constructor.
Qed.
