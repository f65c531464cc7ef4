(** PHPUnit support (testprovider/phpunitprovider.cpp, testprovider/phpunitrunjob.cpp). *)
From Verif Require Import Chars.

(** ** Update notifications *)
(** A declaration of a context: whether it is a class, abstract, has an internal context, derives
    from the TestCase class; its members (is a function, name) and the classes that derive from it
    are looked up by number. *)
Record Class := { cNo : nat; cIsClass : bool; cAbstract : bool; cHasCtx : bool; cIsTest : bool;
                  cProject : bool; cMembers : list (bool * qstring) }.
(** phpunitprovider.cpp 51-80: what updateReady is given.  [NNull]: a null context.
    [NDeclarations b]: the declarations file, [b]: it has declarations.  [NContext c]: another
    file, as context number [c]. *)
Inductive Notice := NNull | NDeclarations (some : bool) | NContext (c : nat).
(** m_testCaseDeclaration.isValid(), m_pendingContexts, and the contexts examined so far, oldest
    first (calls of processContext). *)
Record Prov := { known : bool; pending : list nat; examined : list nat }.
Definition fresh : Prov := {| known := false; pending := []; examined := [] |}.
Definition updateReady (s : Prov) (n : Notice) : Prov :=
  match n with
  | NNull => s
  | NDeclarations false => s
  | NDeclarations true => {| known := true; pending := pending s; examined := examined s ++ pending s |}
  | NContext c =>
      if known s then {| known := true; pending := pending s; examined := examined s ++ [c] |}
      else {| known := false; pending := pending s ++ [c]; examined := examined s |}
  end.
Definition notices (l : list Notice) : Prov := fold_left updateReady l fresh.

(** ** Test suites *)
Section Suites.
(** DUChainUtils::inheriters (platform): the classes derived from a class; simplified: its bound
    of 100 steps is left out. *)
Variable inheriters : Class -> list Class.

Definition isTestName (m : bool * qstring) : bool := fst m && startsWith (str "test") (snd m).
(** phpunitprovider.cpp 114-161 (processTestCaseDeclaration): the suites registered, each a class
    with its test cases; the identifiers of methods are in lower case. *)
Definition testCases (c : Class) : list qstring := map snd (filter isTestName (cMembers c)).
Fixpoint processTestCase (fuel : nat) (c : Class) : list (nat * list qstring) :=
  match fuel with
  | O => []
  | S f =>
      if negb (cProject c) then []
      else if negb (cIsClass c) then []
      else let down := flat_map (processTestCase f) (inheriters c) in
           if cAbstract c then down
           else match testCases c with
                | [] => down
                | l => [(cNo c, l)]
                end
  end.
(** phpunitprovider.cpp 83-112 (processContext), with the TestCase declaration loaded. *)
Definition processContext (fuel : nat) (decls : list Class) : list (nat * list qstring) :=
  flat_map (fun c => if negb (cIsClass c) || cAbstract c || negb (cHasCtx c) then []
                     else if cIsTest c then processTestCase fuel c else []) decls.
End Suites.

(** ** Results *)
Section Results.
Variable cc : CharClass.
Inductive Res := Passed | Failed | Error.

(** phpunitrunjob.cpp 153-159: the first occurrence of \[([x\s])\] in a line: what follows index
    i, and the captured character. *)
Fixpoint findMark (line : qstring) : option (N * qstring) :=
  match line with
  | a :: ((b :: c :: _) as r) =>
      if (a =? cLBRACKET) && ((b =? 120) || isSpace cc b) && (c =? cRBRACKET) then Some (b, line) else findMark r
  | _ => None
  end.
(** phpunitrunjob.cpp 162-163 *)
Definition caseName (rest : qstring) : qstring :=
  str "test" ++ filter (fun c => negb (c =? cSP)) (map (toLower cc) (skipn 4 rest)).
(** phpunitrunjob.cpp 151-183: one line; results are a map, latest entry first. *)
Definition oneLine (cases : list qstring) (m : list (qstring * Res)) (line : qstring) : list (qstring * Res) :=
  match findMark line with
  | None => m
  | Some (mark, rest) =>
      let t := caseName rest in
      if existsb (fun c => eqsCI cc t c) cases
      then (t, if mark =? 120 then Passed else Failed) :: filter (fun e => negb (eqs (fst e) t)) m
      else m
  end.
Definition rowsInserted (cases : list qstring) (m : list (qstring * Res)) (lines : list qstring) : list (qstring * Res) :=
  fold_left (oneLine cases) lines m.
(** phpunitrunjob.cpp 122-144 *)
Definition processFinished (error : Z) (m : list (qstring * Res)) : Res :=
  if (error =? 1)%Z then Failed
  else if (error =? 0)%Z then
    if existsb (fun e => match snd e with Failed => true | _ => false end) m then Failed else Passed
  else Error.
Fixpoint lookup (k : qstring) (m : list (qstring * Res)) : option Res :=
  match m with [] => None | (k', v) :: r => if eqs k k' then Some v else lookup k r end.
End Results.
