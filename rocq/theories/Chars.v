(** Characters and strings.

    A QString is a [list N] of UTF-16 code units.  The Unicode predicates that the code
    takes from Qt (QChar::isSpace, isDigit, isLetter, toLower and the case folding used by
    QString/QStringView::compare(..., Qt::CaseInsensitive)) are the fields of a record.
    Theorems assume of them only [ascii_ok]: the right answers on ASCII. *)
From Coq Require Export List Arith NArith ZArith Bool Ascii String Lia.
From Coq Require Export ZifyBool ZifyNat ZifyN.
Export ListNotations.
Open Scope list_scope.
Open Scope N_scope.

Definition qstring := list N.

(** QStringLiteral / QLatin1String literals. *)
Fixpoint str (s : string) : qstring :=
  match s with
  | EmptyString => []
  | String a t => N_of_ascii a :: str t
  end.

Notation cNUL := 0%N (only parsing).
Notation cTAB := 9%N (only parsing).
Notation cNL := 10%N (only parsing).
Notation cSP := 32%N (only parsing).
Notation cBANG := 33%N (only parsing).
Notation cDQ := 34%N (only parsing).
Notation cHASH := 35%N (only parsing).
Notation cDOLLAR := 36%N (only parsing).
Notation cPERCENT := 37%N (only parsing).
Notation cAMP := 38%N (only parsing).
Notation cSQ := 39%N (only parsing).
Notation cLPAREN := 40%N (only parsing).
Notation cRPAREN := 41%N (only parsing).
Notation cSTAR := 42%N (only parsing).
Notation cPLUS := 43%N (only parsing).
Notation cCOMMA := 44%N (only parsing).
Notation cMINUS := 45%N (only parsing).
Notation cDOT := 46%N (only parsing).
Notation cSLASH := 47%N (only parsing).
Notation c0 := 48%N (only parsing).
Notation c1 := 49%N (only parsing).
Notation c9 := 57%N (only parsing).
Notation cCOLON := 58%N (only parsing).
Notation cSEMI := 59%N (only parsing).
Notation cLT := 60%N (only parsing).
Notation cEQ := 61%N (only parsing).
Notation cGT := 62%N (only parsing).
Notation cQUEST := 63%N (only parsing).
Notation cAT := 64%N (only parsing).
Notation cLBRACKET := 91%N (only parsing).
Notation cBSLASH := 92%N (only parsing).
Notation cRBRACKET := 93%N (only parsing).
Notation cCARET := 94%N (only parsing).
Notation cUNDERSCORE := 95%N (only parsing).
Notation cBACKTICK := 96%N (only parsing).
Notation cLBRACE := 123%N (only parsing).
Notation cPIPE := 124%N (only parsing).
Notation cRBRACE := 125%N (only parsing).
Notation cTILDE := 126%N (only parsing).

Record CharClass := {
  isSpace  : N -> bool;
  isDigit  : N -> bool;
  isLetter : N -> bool;
  toLower  : N -> N;
  foldCase : N -> N
}.

(** The ASCII part of the Unicode character database. *)
Definition asciiSpace (c : N) : bool := ((9 <=? c) && (c <=? 13)) || (c =? 32).
Definition asciiDigit (c : N) : bool := (48 <=? c) && (c <=? 57).
Definition asciiUpper (c : N) : bool := (65 <=? c) && (c <=? 90).
Definition asciiLowerLetter (c : N) : bool := (97 <=? c) && (c <=? 122).
Definition asciiLetter (c : N) : bool := asciiUpper c || asciiLowerLetter c.
Definition asciiToLower (c : N) : N := if asciiUpper c then c + 32 else c.

Record ascii_ok (cc : CharClass) : Prop := {
  ok_space  : forall c, c < 128 -> isSpace cc c = asciiSpace c;
  ok_digit  : forall c, c < 128 -> isDigit cc c = asciiDigit c;
  ok_letter : forall c, c < 128 -> isLetter cc c = asciiLetter c;
  ok_lower  : forall c, c < 128 -> toLower cc c = asciiToLower c;
  ok_fold   : forall c, c < 128 -> foldCase cc c = asciiToLower c
}.

(** A concrete instance: the character database cut down to ASCII; non-ASCII letters are
    represented by every code unit from 0x80 on counting as a letter. *)
Definition asciiCC : CharClass := {|
  isSpace := asciiSpace; isDigit := asciiDigit;
  isLetter := fun c => asciiLetter c || (128 <=? c);
  toLower := asciiToLower; foldCase := asciiToLower |}.

Lemma asciiCC_ok : ascii_ok asciiCC.
Proof.
  constructor; intros c Hc; simpl; auto.
  replace (128 <=? c) with false by lia. now rewrite orb_false_r.
Qed.

(** Decidable equality on strings. *)
Fixpoint eqs (a b : qstring) : bool :=
  match a, b with
  | [], [] => true
  | x :: a', y :: b' => (x =? y) && eqs a' b'
  | _, _ => false
  end.

Lemma eqs_eq a b : eqs a b = true <-> a = b.
Proof.
  revert b; induction a as [|x a IH]; intros [|y b]; simpl; try (split; congruence).
  rewrite andb_true_iff, N.eqb_eq, IH. split; [intros [-> ->]|intros H; inversion H]; auto.
Qed.

(** compare(..., Qt::CaseInsensitive) == 0 *)
Definition eqsCI (cc : CharClass) (a b : qstring) : bool :=
  eqs (map (foldCase cc) a) (map (foldCase cc) b).

(** QString::startsWith *)
Fixpoint startsWith (pre s : qstring) : bool :=
  match pre, s with
  | [], _ => true
  | x :: p, y :: t => (x =? y) && startsWith p t
  | _ :: _, [] => false
  end.

Lemma startsWith_spec pre s : startsWith pre s = true <-> exists t, s = pre ++ t.
Proof.
  revert s; induction pre as [|x pre IH]; intros s; simpl.
  - split; eauto.
  - destruct s as [|y s].
    + split; [discriminate|intros [t H]; discriminate].
    + rewrite andb_true_iff, N.eqb_eq, IH. split.
      * intros [-> [t ->]]; eauto.
      * intros [t H]. inversion H; subst; eauto.
Qed.
