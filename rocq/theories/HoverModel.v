(** Word under the cursor and magic constants (phplanguagesupport.cpp,
    duchain/navigation/magicconstantnavigationcontext.cpp). *)
From Verif Require Import Chars.
Open Scope Z_scope.

Section Word.
Variable cc : CharClass.

(** QString::operator[](int) on a non-const string (QCharRef): 0 from the end of the string on. *)
Definition charAt (line : qstring) (i : Z) : N := nth (Z.to_nat i) line 0%N.
Definition inWord (c : N) : bool := isLetter cc c || (c =? cUNDERSCORE)%N.

(** phplanguagesupport.cpp 120-128: startCol counted down from [k]; [col] is position.column().
    The second result lists the indices read. *)
Fixpoint startLoop (line : qstring) (col : Z) (k : nat) : Z * list Z :=
  if negb (inWord (charAt line (Z.of_nat k))) then
    (if Z.of_nat k =? col then Z.of_nat k else Z.of_nat k + 1, [Z.of_nat k])
  else match k with
       | O => (-1, [0])
       | S k' => let (r, l) := startLoop line col k' in (r, Z.of_nat k :: l)
       end.
(** phplanguagesupport.cpp 129-134; [fuel] bounds endCol by lineLength. *)
Fixpoint endLoop (line : qstring) (e : Z) (fuel : nat) : Z * list Z :=
  match fuel with
  | O => (e, [])
  | S f => if negb (inWord (charAt line e)) then (e, [e])
           else let (r, l) := endLoop line (e + 1) f in (r, e :: l)
  end.
(** QString::mid (Qt 5) *)
Definition mid (s : qstring) (pos n : Z) : qstring :=
  let len := Z.of_nat (List.length s) in
  if pos >? len then []
  else if pos <? 0 then
    if (n <? 0) || (n + pos >=? len) then s
    else if n + pos <=? 0 then [] else firstn (Z.to_nat (n + pos)) s
  else if (n <? 0) || (n >? len - pos) then skipn (Z.to_nat pos) s
  else firstn (Z.to_nat n) (skipn (Z.to_nat pos) s).

Record Found := { word : qstring; rStart : Z; rEnd : Z; reads : list Z }.
(** phplanguagesupport.cpp 109-138 for an open document; [col] >= 0, lineLength is the length of
    [line].  The line number of the range is left out. *)
Definition wordUnderCursor (line : qstring) (col : nat) : Found :=
  let (s, r1) := startLoop line (Z.of_nat col) col in
  let (e, r2) := endLoop line (Z.of_nat col) (S (List.length line) - col) in
  {| word := mid line s (e - s); rStart := s; rEnd := e; reads := r1 ++ r2 |}.

Definition magicNames : list string :=
  ["__FILE__"; "__LINE__"; "__METHOD__"; "__CLASS__"; "__FUNCTION__"; "__NAMESPACE__"; "__DIR__"; "__TRAIT__"]%string.
(** phplanguagesupport.cpp 140-156; Range::isValid: no negative column. *)
Definition isMagicConstant (f : Found) : bool :=
  if ((0 <=? rStart f) && (0 <=? rEnd f)) && negb (rStart f =? rEnd f)
  then existsb (fun n => eqs (word f) (str n)) magicNames else false.
End Word.
Close Scope Z_scope.

(** ** Magic constants *)
Inductive CK := KGlobal | KNamespace | KClass | KFunction | KOther.
(** A context: kind, range [from, to) (positions as numbers in text order), localScopeIdentifier,
    owner: whether its type is a function type and whether its kind is Namespace. *)
Record Node := { nKind : CK; nFrom : nat; nTo : nat; nName : qstring; nOwner : option (bool * bool) }.
Inductive Tree := T (n : Node) (children : list Tree).

Definition kindEq (a b : CK) : bool :=
  match a, b with
  | KGlobal, KGlobal | KNamespace, KNamespace | KClass, KClass | KFunction, KFunction | KOther, KOther => true
  | _, _ => false end.
Definition contains (n : Node) (pos : nat) : bool := ((nFrom n <=? pos) && (pos <? nTo n))%nat.

(** DUContext::findContextAt (platform): the deepest context that contains the position, given
    with its parents, innermost first. *)
Fixpoint findContextAt (t : Tree) (pos : nat) : option (list Node) :=
  match t with
  | T n cs =>
      if contains n pos then
        match (fix go (l : list Tree) : option (list Node) :=
                 match l with
                 | [] => None
                 | c :: r => match go r with Some x => Some x | None => findContextAt c pos end
                 end) cs with
        | Some ch => Some (ch ++ [n])
        | None => Some [n]
        end
      else None
  end.

(** magicconstantnavigationcontext.cpp 33-43: the context with its parents. *)
Fixpoint climb (k : CK) (ch : list Node) : option (list Node) :=
  match ch with
  | [] => None
  | c :: up => if kindEq (nKind c) k then Some ch else climb k up
  end.
Definition findContext (t : Tree) (pos : nat) (k : CK) : option (list Node) :=
  match findContextAt t pos with Some ch => climb k ch | None => None end.

(** What html shows as the value: the name of a scope or of a method, the note "empty (...)". *)
Inductive Shown := SName (s : qstring) | SMethod (cls meth : qstring) | SEmpty.

(** magicconstantnavigationcontext.cpp 62-73 (__CLASS__, __TRAIT__) *)
Definition classValue (t : Tree) (pos : nat) : Shown :=
  match findContext t pos KClass with Some (c :: _) => SName (nName c) | _ => SEmpty end.
(** 74-93 (__METHOD__): [fuel] iterations of the while loop; [None]: it has not ended. *)
Fixpoint methodValue (fuel : nat) (t : Tree) (pos : nat) : option Shown :=
  match fuel with
  | O => None
  | S f =>
      match findContext t pos KOther with
      | Some (c :: p :: _) =>
          if kindEq (nKind p) KClass then Some (SMethod (nName p) (nName c))
          else methodValue f t (nFrom c)
      | _ => Some SEmpty
      end
  end.
(** 94-103 (__FUNCTION__) *)
Definition functionValue (t : Tree) (pos : nat) : Shown :=
  match findContext t pos KOther with
  | Some (c :: _) => match nOwner c with Some (true, _) => SName (nName c) | _ => SEmpty end
  | _ => SEmpty
  end.
(** 104-113 (__NAMESPACE__) *)
Definition namespaceValue (t : Tree) (pos : nat) : Shown :=
  match findContext t pos KNamespace with
  | Some (c :: _) => match nOwner c with Some (_, true) => SName (nName c) | _ => SEmpty end
  | _ => SEmpty
  end.
