(** Resolution of include expressions (duchain/helper.cpp). *)
From Verif Require Import Chars.

(** What the code asks of its environment.  Paths are opaque: [parentOf] is Path::parent of a
    document, [join] is Path(base, text), [asUrl] is Path::pathOrUrl, [isLocal] is
    Path::isLocalFile, [inside] is Path::isParentOf; [known] says that there is a chain for a
    document (DUChain::chainForDocument), [onDisk] is QFile::exists. *)
Record Env (path : Type) := {
  parentOf : path -> path;
  join : path -> qstring -> path;
  asUrl : path -> qstring;
  isLocal : path -> bool;
  inside : path -> path -> bool;
  known : qstring -> bool;
  onDisk : qstring -> bool;
  projects : list path
}.
Arguments parentOf {path}. Arguments join {path}. Arguments asUrl {path}. Arguments isLocal {path}.
Arguments inside {path}. Arguments known {path}. Arguments onDisk {path}. Arguments projects {path}.

Section M.
Variables (cc : CharClass) (path : Type) (E : Env path).

(** helper.cpp 328-344: includeExists *)
Definition includeExists (p : path) : bool :=
  if known E (asUrl E p) then true
  else if isLocal E p then onDisk E (asUrl E p) else false.

(** QString::startsWith(..., Qt::CaseInsensitive) *)
Fixpoint startsWithCI (pre s : qstring) : bool :=
  match pre, s with
  | [], _ => true
  | x :: p, y :: t => (foldCase cc x =? foldCase cc y) && startsWithCI p t
  | _ :: _, [] => false
  end.

(** One round of the loop at helper.cpp 369-378; [first]: i == 0. *)
Fixpoint round (first : bool) (doc : path) (inc : qstring) (l : list path) : option qstring :=
  match l with
  | [] => None
  | p :: r =>
      if first && negb (inside E p doc) then round first doc inc r
      else let c := join E p inc in
           if includeExists c then Some (asUrl E c) else round first doc inc r
  end.

(** helper.cpp 346-384: findIncludeFile; [None] is the empty IndexedString. *)
Definition findIncludeFile (inc : qstring) (doc : path) : option qstring :=
  match inc with
  | [] => None
  | _ =>
      if startsWithCI (str "http://") inc || startsWithCI (str "ftp://") inc then Some inc
      else let c := join E (parentOf E doc) inc in
           if includeExists c then Some (asUrl E c)
           else match round true doc inc (projects E) with
                | Some r => Some r
                | None => round false doc inc (projects E)
                end
  end.

(** The scalars of an include expression in the order the visitor meets them: string literals
    with their quotes, or others. *)
Inductive Scalar := SString (text : qstring) | SOther.

(** helper.cpp 304-325: findCommonScalar: each visit overwrites the last. *)
Definition findCommonScalar (l : list Scalar) : option Scalar := fold_left (fun _ x => Some x) l None.

Definition endsWithSlash (s : qstring) : bool :=
  match rev s with c :: _ => c =? cSLASH | [] => false end.
(** QString::mid(1, length() - 2) *)
Definition strip (s : qstring) : qstring := firstn (List.length s - 2) (skipn 1 s).

(** helper.cpp 386-401: getIncludeFileForNode; [e] is [None] when there is no includeExpression. *)
Definition getIncludeFileForNode (e : option (list Scalar)) (doc : path) : option qstring :=
  match e with
  | None => None
  | Some l =>
      match findCommonScalar l with
      | Some (SString t) =>
          let s := strip t in
          if eqs s (str ".") || eqs s (str "..") || endsWithSlash s then None
          else findIncludeFile s doc
      | _ => None
      end
  end.
End M.
