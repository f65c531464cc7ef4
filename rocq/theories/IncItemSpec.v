(** What completing the file name of an include has to do. *)
From Coq Require Import List Bool Arith NArith String.
From Verif Require Import Chars IncItemModel.
Import ListNotations.
Open Scope nat_scope.

Section Text.
Variable cc : CharClass.
Definition blank (s : qstring) : Prop := Forall (fun c => isSpace cc c = true) s.
(** the same text, but for case *)
Definition sameCI (a : qstring) (b : string) : Prop := map (foldCase cc) a = map (foldCase cc) (str b).
Definition quote (q : N) : Prop := q = 39%N \/ q = 34%N.

(** dirname(__FILE__) . or nothing *)
Inductive DirName : qstring -> Prop :=
| D_none : DirName []
| D_some d b1 b2 f b3 b4 b5 : sameCI d "dirname" -> sameCI f "__FILE__" -> blank b1 -> blank b2 -> blank b3 -> blank b4 -> blank b5 ->
    DirName (d ++ b1 ++ str "(" ++ b2 ++ f ++ b3 ++ str ")" ++ b4 ++ str "." ++ b5).
(** The start of an include up to the opening quote [q] of the path; [close] is what ends it behind the path: the quote,
    a parenthesis if one was opened, with the blanks written behind that one, and the semicolon. *)
Inductive Opening (q : N) : qstring -> qstring -> Prop :=
| O_plain k kw b d : In kw ["include"; "include_once"; "require"; "require_once"]%string -> sameCI k kw -> blank b -> DirName d -> quote q ->
    Opening q (k ++ b ++ d ++ [q]) (q :: str ";")
| O_paren k kw b1 b2 d : In kw ["include"; "include_once"; "require"; "require_once"]%string -> sameCI k kw -> blank b1 -> blank b2 -> DirName d -> quote q ->
    Opening q (k ++ b1 ++ str "(" ++ b2 ++ d ++ [q]) (q :: b2 ++ str ");").
(** What stands behind the cursor: the rest of an old name, without blanks, and the end of the statement; [rest] stays. *)
Inductive Behind (q : N) : qstring -> qstring -> Prop :=
| B_open old rest : ~ In q old -> Forall (fun c => isSpace cc c = false) old -> (rest = [] \/ exists c r, rest = c :: r /\ isSpace cc c = true) ->
    Behind q (old ++ rest) rest
| B_closed old b rest : ~ In q old -> Forall (fun c => isSpace cc c = false) old ->
    Forall (fun c => (isSpace cc c = true /\ c <> 10%N) \/ c = 41%N) b ->
    Behind q (old ++ [q] ++ b ++ str ";" ++ rest) rest.
Definition entry (i : item) : qstring := iname i ++ (if idir i then str "/" else []).
End Text.

(** ** Paths *)
(** A path in the text, relative to the folder [dir]; folders are lists of names. *)
Inductive Denotes (dir : list qstring) : qstring -> list qstring -> Prop :=
| N_here : Denotes dir [] dir
| N_root : Denotes dir (str "/") []
| N_slash t p : Denotes dir t p -> t <> [] -> Denotes dir (t ++ str "/") p
| N_name t p n : Denotes dir t p -> (t = [] \/ exists t', t = t' ++ str "/") -> n <> [] -> ~ In 47%N n -> n <> str "." -> n <> str ".." ->
    Denotes dir (t ++ n) (p ++ [n])
| N_dot t p : Denotes dir t p -> (t = [] \/ exists t', t = t' ++ str "/") -> Denotes dir (t ++ str ".") p
| N_up t p : Denotes dir t p -> (t = [] \/ exists t', t = t' ++ str "/") -> Denotes dir (t ++ str "..") (removelast p).
(** The name of a file or folder. *)
Definition proper (n : qstring) : Prop := n <> [] /\ ~ In 47%N n /\ n <> str "." /\ n <> str "..".
(** What is written: a folder, empty or ending in a slash, and the beginning of a name. *)
Definition typed (folder word : qstring) : Prop := (folder = [] \/ exists f, folder = f ++ str "/") /\ (word = [] \/ proper word).
(** The files and folders of a project folder. *)
Definition contents (l : list (option folder)) (n : qstring) (isDir : bool) : Prop :=
  exists f, In (Some f) l /\ In n (if isDir then folders f else files f).
(** No file has the name of a folder. *)
Definition apart (l : list (option folder)) : Prop := forall n, contents l n false -> contents l n true -> False.
(** The item for the folder above. *)
Definition up : item := {| iname := str ".."; idir := true |}.
Definition notUp (i : item) : bool := negb (eqs (iname i) (str "..")).
