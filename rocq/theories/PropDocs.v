(** C46, C55: PHP documentation. *)
From Verif Require Import Chars DocsModel DocsSpec DocsProofs.

(** C46: methods, classes, functions and superglobals other than $_SERVER get a page name. *)
Theorem C46_nonempty_partial cc d isLocal : documented d -> dName d <> str "_SERVER" ->
  getDocumentationFilename cc d isLocal <> [].
Proof. exact (nonempty_l cc d isLocal). Qed.
Print Assumptions C46_nonempty_partial.
(** C46 fails for $_SERVER. *)
Theorem C46_refuted : exists d, documented d /\ forall cc isLocal, getDocumentationFilename cc d isLocal = [].
Proof.
  exists {| dKind := KOther; dName := str "_SERVER" |}. split; [apply (dc_global "_SERVER"); cbn; tauto|]. reflexivity.
Qed.
Print Assumptions C46_refuted.
(** C46: local names are in lower case, have no underscore and end in .html. *)
Theorem C46_local cc d : ascii_ok cc -> lowerIdem cc ->
  Forall (localChar cc) (getDocumentationFilename cc d true) /\
  (getDocumentationFilename cc d true <> [] -> exists p, getDocumentationFilename cc d true = p ++ str ".html").
Proof. intros OK I. split; [exact (local_chars cc OK d I)|exact (ends_html cc d)]. Qed.
Print Assumptions C46_local.
(** C46: the names, by kind of declaration. *)
Theorem C46_method cc cls n ctor dtor :
  getDocumentationFilename cc {| dKind := KMethod (Some cls) ctor dtor; dName := n |} false = cls ++ str "." ++ n /\
  pageOf cc (str "function." ++ cls ++ str "-" ++ (if ctor then str "construct" else if dtor then str "destruct" else n))
    (getDocumentationFilename cc {| dKind := KMethod (Some cls) ctor dtor; dName := n |} true).
Proof.
  split; [rewrite filename_form; cbn; destruct cls; reflexivity|].
  exact (local_page cc {| dKind := KMethod (Some cls) ctor dtor; dName := n |} ltac:(discriminate)).
Qed.
Print Assumptions C46_method.
(** C46: a method whose class is not known, and a variable that is not reserved, has no page. *)
Theorem C46_none cc n ctor dtor isLocal : getDocumentationFilename cc {| dKind := KMethod None ctor dtor; dName := n |} isLocal = [] /\
  ((forall v, In v ["GLOBALS"; "php_errormsg"; "HTTP_RAW_POST_DATA"; "http_response_header"; "argc"; "argv"; "_GET"; "_POST"; "_FILES";
             "_REQUEST"; "_SESSION"; "_ENV"; "_COOKIE"]%string -> n <> str v) ->
   getDocumentationFilename cc {| dKind := KOther; dName := n |} isLocal = []).
Proof. split; [reflexivity|]. intros H. exact (not_reserved cc n isLocal H). Qed.
Print Assumptions C46_none.
Theorem C46_class cc n :
  getDocumentationFilename cc {| dKind := KClass; dName := n |} false = str "class." ++ n /\
  pageOf cc (str "class." ++ n) (getDocumentationFilename cc {| dKind := KClass; dName := n |} true).
Proof. split; [reflexivity|]. exact (local_page cc {| dKind := KClass; dName := n |} ltac:(discriminate)). Qed.
Print Assumptions C46_class.
Theorem C46_function cc n :
  getDocumentationFilename cc {| dKind := KFunction; dName := n |} false = str "function." ++ n /\
  pageOf cc (str "function." ++ n) (getDocumentationFilename cc {| dKind := KFunction; dName := n |} true).
Proof. split; [reflexivity|]. exact (local_page cc {| dKind := KFunction; dName := n |} ltac:(discriminate)). Qed.
Print Assumptions C46_function.
(** C46: a page is shown exactly for a declaration of the internal function file that has a name
    and, locally, whose file exists; it is that file under the documentation location. *)
Theorem C46_shown cc internal path isLocal ex d url :
  documentationForDeclaration cc internal path isLocal ex d = Some url <->
  internal = true /\ getDocumentationFilename cc d isLocal <> [] /\
  url = path ++ str "/" ++ getDocumentationFilename cc d isLocal /\ (isLocal = true -> ex url = true).
Proof.
  unfold documentationForDeclaration. destruct internal; cbn [negb]; [|split; [discriminate|intros [X _]; discriminate]].
  destruct (getDocumentationFilename cc d isLocal) as [|a f]; [split; [discriminate|intros (_ & X & _); contradiction]|].
  cbv zeta. destruct isLocal; cbn [andb].
  - destruct (ex (path ++ cSLASH :: a :: f)) eqn:E; cbn [negb]; split.
    + intros X. injection X as <-. repeat split; auto. discriminate.
    + intros (_ & _ & -> & _). reflexivity.
    + discriminate.
    + intros (_ & _ & -> & X). specialize (X eq_refl). cbn in X. congruence.
  - split; [intros X; injection X as <-; repeat split; discriminate|]. intros (_ & _ & -> & _). reflexivity.
Qed.
Print Assumptions C46_shown.
Example C46_ex : getDocumentationFilename asciiCC {| dKind := KMethod (Some (str "XMLReader")) true false; dName := str "__construct" |} true
   = str "function.xmlreader-construct.html" /\
  getDocumentationFilename asciiCC {| dKind := KFunction; dName := str "str_replace" |} true = str "function.str-replace.html" /\
  getDocumentationFilename asciiCC {| dKind := KOther; dName := str "_GET" |} true = str "reserved.variables.get.html".
Proof. repeat split; reflexivity. Qed.
Example C46_ex_idem : lowerIdem asciiCC.
Proof. intros c. cbn. unfold asciiToLower. destruct (asciiUpper c) eqn:E; [|rewrite E; reflexivity]. unfold asciiUpper in *.
  replace ((65 <=? c + 32) && (c + 32 <=? 90)) with false by lia. reflexivity. Qed.

(** C55: the first time the internal function file is ready, the index gets its rows: the
    declarations that are not constant, each class followed by its members; other updates leave it. *)
Theorem C55_rows D (top : list (Entry D)) rows : rowsFor top rows -> updateReady D [] true (Some top) = rows.
Proof. intros H. exact (fill_rows top rows H []). Qed.
Print Assumptions C55_rows.
Theorem C55_rows_exist D (top : list (Entry D)) : exists rows, rowsFor top rows.
Proof. exact (rowsFor_ex top). Qed.
Print Assumptions C55_rows_exist.
Theorem C55_others D (m : list D) ours top : ours = false \/ top = None -> updateReady D m ours top = m.
Proof. intros [-> | ->]; [destruct top|]; reflexivity. Qed.
Print Assumptions C55_others.
(** C55: every row is a declaration and only the top level has rows. *)
Theorem C55_index D (m : list D) row : (row < rowCount D false m)%nat <-> exists d, declarationForIndex D m row = Some d.
Proof.
  unfold rowCount, declarationForIndex. rewrite <- nth_error_Some. destruct (nth_error m row); split; intros; eauto; try contradiction; try discriminate.
  destruct H as [d H]. discriminate.
Qed.
Print Assumptions C55_index.
(** C55 fails when the file is updated again: its declarations are listed once more. *)
Theorem C55_refuted : exists (top : list (Entry nat)) rows, rowsFor top rows /\
  updateReady nat (updateReady nat [] true (Some top)) true (Some top) <> rows.
Proof.
  exists [{| eDecl := 1%nat; eConst := false; eMembers := None |}], [1%nat].
  split; [apply rf_plain; try reflexivity; constructor|]. discriminate.
Qed.
Print Assumptions C55_refuted.
Example C55_ex : updateReady nat [] true (Some [{| eDecl := 1%nat; eConst := true; eMembers := None |};
   {| eDecl := 2%nat; eConst := false; eMembers := Some [3; 4]%nat |}; {| eDecl := 5%nat; eConst := false; eMembers := None |}]) = [2; 3; 4; 5]%nat.
Proof. reflexivity. Qed.
