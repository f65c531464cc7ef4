(** C74: completing the file name of an include. *)
From Coq Require Import List Bool Arith NArith String.
From Verif Require Import Chars IncItemModel IncItemSpec IncItemProofs IncItemProofs2.
Import ListNotations.
Open Scope nat_scope.

(** ** What is put into the document *)
(** The name is put in place of the rest of an old one, and the statement is closed, once, as it was opened; all other text
    stays. *)
Theorem C74_text_partial : forall cc pre q o close dir after rest i, ascii_ok cc -> (forall c, isSpace cc c = true -> foldCase cc c = c) ->
  Opening cc q o close -> (forall q, quote q -> ~ In q dir) -> Behind cc q after rest ->
  execute cc (pre ++ o ++ dir) after i = pre ++ o ++ dir ++ entry i ++ close ++ rest.
Proof. intros cc pre q o close dir after rest i OK BL. exact (execute_text cc OK BL pre q o close dir after rest i). Qed.
Print Assumptions C74_text_partial.
(** Behind a folder the cursor is put where its files can be completed. *)
Theorem C74_cursor : forall before n rest,
  firstn (cursorAfter before {| iname := n; idir := true |}) (before ++ (n ++ str "/") ++ rest) = before ++ n ++ str "/".
Proof. exact cursor_text. Qed.
Print Assumptions C74_cursor.

(** ** What is offered *)
(** The files and folders in the folder that is written, and what is then written denotes the one chosen. *)
Theorem C74_offered_partial : forall at_ dir fo word p n d, Forall proper dir -> typed fo word -> Denotes dir fo p ->
  Forall (fun f => f <> None) (at_ p) -> apart (at_ p) -> proper n ->
  (In {| iname := n; idir := d |} (offered at_ dir false (fo ++ word)) <-> contents (at_ p) n d) /\ Denotes dir (fo ++ n) (p ++ [n]).
Proof. exact offered_plain. Qed.
Print Assumptions C74_offered_partial.
(** Behind dirname(__FILE__) . or __DIR__ . the path begins with a slash, and is relative to the folder of the file. *)
Theorem C74_offered_dirname_partial : forall at_ dir fo word p n d, Forall proper dir -> typed fo word -> absolute (fo ++ word) = false -> Denotes dir fo p ->
  Forall (fun f => f <> None) (at_ p) -> apart (at_ p) -> proper n ->
  (In {| iname := n; idir := d |} (offered at_ dir true (str "/" ++ fo ++ word)) <-> contents (at_ p) n d) /\ Denotes dir (fo ++ n) (p ++ [n]).
Proof. exact offered_dirname. Qed.
Print Assumptions C74_offered_dirname_partial.
(** With nothing written there, the slash is offered along. *)
Theorem C74_offered_slash : forall at_ dir n d, Forall proper dir -> Forall (fun f => f <> None) (at_ dir) -> apart (at_ dir) -> proper n ->
  (In {| iname := str "/" ++ n; idir := d |} (offered at_ dir true []) <-> contents (at_ dir) n d) /\ Denotes dir n (dir ++ [n]).
Proof. exact offered_empty. Qed.
Print Assumptions C74_offered_slash.
(** Nothing is offered twice, but for the folder above. *)
Theorem C74_once : forall at_ dir a expr, NoDup (map iname (filter notUp (offered at_ dir a expr))).
Proof. exact offered_once. Qed.
Print Assumptions C74_once.
(** Nothing else is offered, but for the folder above with nothing written yet. *)
Theorem C74_only : forall at_ dir a expr x, In x (offered at_ dir a expr) ->
  (x = up /\ expr = [] /\ exists f, In (Some f) (at_ (base dir a expr)) /\ inFolder f = false) \/
  exists n, contents (at_ (base dir a expr)) n (idir x) /\ (iname x = n \/ (a = true /\ iname x = str "/" ++ n)).
Proof. exact offered_only. Qed.
Print Assumptions C74_only.

(** ** Where the code goes wrong *)
Definition file (s : string) : item := {| iname := str s; idir := false |}.
Local Notation exec b a s := (execute asciiCC (str b) (str a) (file s)).
(** An include inside of an expression is torn apart, here the condition of an if. *)
Theorem C74_expression_refuted : exec "if (include('" "x') == 1) {}" "a.php" = str "if (include('a.php');) == 1) {}".
Proof. vm_compute. reflexivity. Qed.
Print Assumptions C74_expression_refuted.
(** Behind __DIR__ the string is not closed; with another include before it, it is closed with the quote of that one. *)
Theorem C74_dir_refuted : exec "include __DIR__ . '/" "" "a.php" = str "include __DIR__ . '/a.php" /\
  execute asciiCC (str "include " ++ [34%N] ++ str "b.php" ++ [34%N] ++ str "; include __DIR__ . '/") [] (file "a.php") =
    str "include " ++ [34%N] ++ str "b.php" ++ [34%N] ++ str "; include __DIR__ . '/a.php" ++ [34%N] ++ str ";".
Proof. split; vm_compute; reflexivity. Qed.
Print Assumptions C74_dir_refuted.
(** A semicolon in the next line stays, next to the new one. *)
Theorem C74_next_line_refuted : execute asciiCC (str "include 'l") (str "ib.php'" ++ [10%N] ++ str ";") (file "a.php") =
  str "include 'la.php';" ++ [10%N] ++ str ";".
Proof. vm_compute. reflexivity. Qed.
Print Assumptions C74_next_line_refuted.
(** Of an old name with a blank, the rest stays behind the statement; a quote in the new name ends the string. *)
Theorem C74_blank_refuted : exec "include '" "my lib.php';" "a.php" = str "include 'a.php'; lib.php';".
Proof. vm_compute. reflexivity. Qed.
Print Assumptions C74_blank_refuted.
Theorem C74_quote_refuted : exec "include '" "" "it's.php" = str "include 'it's.php';".
Proof. vm_compute. reflexivity. Qed.
Print Assumptions C74_quote_refuted.
(** Behind dirname(__FILE__) . with a name not behind a slash, the files of the folder above are offered. *)
Theorem C74_no_slash_refuted : forall dir c r, c <> 47%N -> ~ In 47%N r -> base dir true (c :: r) = removelast dir.
Proof. exact no_slash. Qed.
Print Assumptions C74_no_slash_refuted.
(** Behind .. the files two folders up are offered; what is written leads one folder up. *)
Theorem C74_up_refuted : forall dir, Forall proper dir -> base dir false (str "..") = removelast (removelast dir) /\ Denotes dir (str "..") (removelast dir).
Proof. exact two_up. Qed.
Print Assumptions C74_up_refuted.
(** The folder above is offered once for each project with this folder, and without a slash behind dirname(__FILE__) . *)
Theorem C74_up_twice_refuted : forall f g a, inFolder f = false -> inFolder g = false -> files f = [] -> folders f = [] -> files g = [] -> folders g = [] ->
  offered (fun _ => [Some f; Some g]) [] a [] = [up; up].
Proof. intros [f1 f2 f3] [g1 g2 g3] a. cbn. intros -> -> -> -> -> ->. reflexivity. Qed.
Print Assumptions C74_up_twice_refuted.

(** The hypotheses are met. *)
Example blanks_ascii : forall c, isSpace asciiCC c = true -> foldCase asciiCC c = c.
Proof.
  intros c H. cbn in *. unfold asciiSpace, asciiToLower, asciiUpper in *.
  destruct (N.leb_spec 65 c), (N.leb_spec c 90); try reflexivity. apply orb_prop in H. destruct H as [H|H].
  - apply andb_prop in H. destruct H as [_ H]. apply N.leb_le in H. exfalso. apply (N.lt_irrefl c). eapply N.le_lt_trans; [exact H|]. eapply N.lt_le_trans; [|eassumption]. reflexivity.
  - apply N.eqb_eq in H. subst c. exfalso. revert H0. cbn. intros X. apply X. reflexivity.
Qed.
Example opening_met : Opening asciiCC 39 (str "Include_Once ( dirname(__file__) . '") (39%N :: str " );").
Proof.
  change (str "Include_Once ( dirname(__file__) . '") with
    (str "Include_Once" ++ str " " ++ str "(" ++ str " " ++ (str "dirname" ++ [] ++ str "(" ++ [] ++ str "__file__" ++ [] ++ str ")" ++ str " " ++ str "." ++ str " ") ++ [39%N]).
  change (39%N :: str " );") with (39%N :: str " " ++ str ");"). apply O_paren with (kw := "include_once"%string); try (repeat constructor; fail).
Qed.
Example behind_met : Behind asciiCC 39 (str "old.php' ) ; echo 1;") (str " echo 1;").
Proof.
  apply (B_closed asciiCC 39 (str "old.php") (str " ) ") (str " echo 1;")).
  - cbn. intros X. repeat (destruct X as [X|X]; [discriminate X|]). exact X.
  - repeat constructor.
  - repeat (constructor; [first [right; reflexivity|left; split; [reflexivity|discriminate]]|]). constructor.
Qed.
Example text_case : exec "<? Include_Once ( dirname(__file__) . '/lib/" "old.php' ) ; echo 1;" "a.php" = str "<? Include_Once ( dirname(__file__) . '/lib/a.php' ); echo 1;".
Proof. vm_compute. reflexivity. Qed.
Example offered_case : offered (fun p => if eqs (List.concat p) (str "wwwsrclib") then [Some {| files := [str "a.php"; str "b.php"]; folders := [str "x"]; inFolder := true |}] else [])
    [str "www"; str "src"; str "gui"] false (str "../lib/fo") = [file "a.php"; file "b.php"; {| iname := str "x"; idir := true |}].
Proof. vm_compute. reflexivity. Qed.
Example typed_case : typed (str "../lib/") (str "fo") /\ Denotes [str "www"; str "src"; str "gui"] (str "../lib/") [str "www"; str "src"; str "lib"].
Proof.
  split; [split; [right; exists (str "../lib"); reflexivity|right; repeat split; try discriminate; cbn; intros X; repeat (destruct X as [X|X]; [discriminate X|]); exact X]|].
  apply (N_slash _ (str "../lib")); [|discriminate]. change (str "../lib") with (str "../" ++ str "lib"). apply (N_name _ (str "../") [str "www"; str "src"] (str "lib")); try discriminate.
  - apply (N_slash _ (str "..")); [|discriminate]. apply (N_up _ [] [str "www"; str "src"; str "gui"]); [constructor|left; reflexivity].
  - right. exists (str ".."). reflexivity.
  - cbn. intros X. repeat (destruct X as [X|X]; [discriminate X|]). exact X.
Qed.
