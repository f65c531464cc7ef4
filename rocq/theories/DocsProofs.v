(** Proofs for C46 and C55. *)
From Verif Require Import Chars DocsModel DocsSpec.

Section P.
Variable cc : CharClass.
Hypothesis OK : ascii_ok cc.
Lemma filename_form d isLocal : getDocumentationFilename cc d isLocal =
  match baseName d isLocal with [] => [] | f => if isLocal then map (fun c => if c =? cUNDERSCORE then cMINUS else c) (map (toLower cc) f) ++ str ".html" else f end.
Proof. unfold getDocumentationFilename. destruct (baseName d isLocal); reflexivity. Qed.
Lemma nonempty_iff d isLocal : getDocumentationFilename cc d isLocal <> [] <-> baseName d isLocal <> [].
Proof.
  rewrite filename_form. destruct (baseName d isLocal) as [|c l]; [tauto|]. split; [discriminate|]. intros _.
  destruct isLocal; discriminate.
Qed.
Lemma reserved_in n : isReserved n = true <-> In n reservedVariables.
Proof.
  unfold isReserved. rewrite existsb_exists. split.
  - intros (x & Hx & E). apply eqs_eq in E. subst. exact Hx.
  - intros H. exists n. split; [exact H|]. apply eqs_eq. reflexivity.
Qed.
Lemma nonempty_l d isLocal : documented d -> dName d <> str "_SERVER" -> getDocumentationFilename cc d isLocal <> [].
Proof.
  intros H Hs. apply nonempty_iff. destruct H as [cls ctor dtor n|n|n|n Hn]; cbn [baseName dKind dName] in *.
  - destruct isLocal; cbn; [discriminate|]. destruct cls; discriminate.
  - discriminate.
  - discriminate.
  - assert (R : isReserved (str n) = true).
    { cbn in Hn. repeat (destruct Hn as [<-|Hn]; [try reflexivity; exfalso; apply Hs; reflexivity|]). destruct Hn. }
    unfold baseName. cbn [dKind dName]. rewrite R. destruct isLocal; [discriminate|].
    cbn in Hn. repeat (destruct Hn as [<-|Hn]; [discriminate|]). destruct Hn.
Qed.
Lemma pageOf_map base : base <> [] -> pageOf cc base (map (fun c => if c =? cUNDERSCORE then cMINUS else c) (map (toLower cc) base) ++ str ".html").
Proof.
  intros _. eexists. split; [reflexivity|]. split; [rewrite !map_length; reflexivity|]. intros i c H.
  exists (if toLower cc c =? cUNDERSCORE then cMINUS else toLower cc c).
  split; [|split; intros E; [rewrite E; reflexivity|apply N.eqb_neq in E; rewrite E; reflexivity]].
  rewrite !nth_error_map. rewrite H. reflexivity.
Qed.
Lemma local_page d : baseName d true <> [] -> pageOf cc (baseName d true) (getDocumentationFilename cc d true).
Proof. intros H. rewrite filename_form. destruct (baseName d true) eqn:E; [contradiction|]. rewrite <- E in *. apply pageOf_map. exact H. Qed.
Lemma local_chars d : lowerIdem cc -> Forall (localChar cc) (getDocumentationFilename cc d true).
Proof.
  intros I. rewrite filename_form. destruct (baseName d true) as [|b l]; [constructor|]. apply Forall_app. split.
  - apply Forall_forall. intros x Hx. apply in_map_iff in Hx as (y & <- & Hy). apply in_map_iff in Hy as (z & <- & Hz).
    destruct (N.eqb_spec (toLower cc z) cUNDERSCORE) as [E|E]; split; try (rewrite (ok_lower _ OK) by lia; reflexivity); try lia; try apply I; exact E.
  - cbn. repeat (constructor; [split; [rewrite (ok_lower _ OK) by lia; reflexivity|discriminate]|]). constructor.
Qed.
Lemma ends_html d : getDocumentationFilename cc d true <> [] -> exists p, getDocumentationFilename cc d true = p ++ str ".html".
Proof. rewrite filename_form. destruct (baseName d true); [contradiction|]. intros _. eexists. reflexivity. Qed.
End P.

Section I.
Context {D : Type}.
Lemma push_all (l m : list D) : fold_left (fun m d => m ++ [d]) l m = m ++ l.
Proof. revert m. induction l as [|x l IH]; intros m; cbn; [rewrite app_nil_r; reflexivity|]. rewrite IH, <- app_assoc. reflexivity. Qed.
Lemma fill_rows (top : list (Entry D)) : forall rows, rowsFor top rows -> forall m, fillModel D m top = m ++ rows.
Proof.
  induction 1 as [|e top rows Hc H IH|e top rows Hc Hm H IH|e ms top rows Hc Hm H IH]; intros m; unfold fillModel in *; cbn [fold_left].
  - rewrite app_nil_r. reflexivity.
  - rewrite Hc. apply IH.
  - rewrite Hc, Hm. cbv zeta. rewrite IH, <- app_assoc. reflexivity.
  - rewrite Hc, Hm. cbv zeta. rewrite push_all, IH, <- !app_assoc. reflexivity.
Qed.
Lemma rowsFor_ex (top : list (Entry D)) : exists rows, rowsFor top rows.
Proof.
  induction top as [|e top [rows IH]]; [eexists; constructor|].
  destruct (eConst e) eqn:Hc; [eexists; apply rf_const; eauto|].
  destruct (eMembers e) eqn:Hm; eexists; [eapply rf_class|apply rf_plain]; eauto.
Qed.
End I.

Lemma not_reserved cc n isLocal :
  (forall v, In v ["GLOBALS"; "php_errormsg"; "HTTP_RAW_POST_DATA"; "http_response_header"; "argc"; "argv"; "_GET"; "_POST"; "_FILES";
             "_REQUEST"; "_SESSION"; "_ENV"; "_COOKIE"]%string -> n <> str v) ->
  getDocumentationFilename cc {| dKind := KOther; dName := n |} isLocal = [].
Proof.
  intros H. unfold getDocumentationFilename, baseName. cbn [dKind dName].
  replace (isReserved n) with false; [reflexivity|]. symmetry. unfold isReserved, reservedVariables. apply not_true_is_false. intros K.
  apply existsb_exists in K. destruct K as (x & Hx & E). apply in_map_iff in Hx. destruct Hx as (v & <- & Hv). apply eqs_eq in E. exact (H v Hv E).
Qed.
