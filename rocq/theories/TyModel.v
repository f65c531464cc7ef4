(** Types of the PHP plugin (duchain/types). *)
From Verif Require Import Chars.

(** The plugin's types.  Modifiers, data type and the declaration id of a class are numbers of the
    platform; an IndexedType is the number of a type in the type repository.
    - [TInt]: IntegralTypeExtended (types/integraltypeextended.cpp), data: modifiers, m_dataType
    - [TStruct]: Php::StructureType (types/structuretype.cpp), data: modifiers, class kind and
      declaration id, prettyName
    - [TCont]: IndexedContainer (types/indexedcontainer.cpp), also m_values. *)
Inductive Ty :=
| TInt (mods dataType : N)
| TStruct (mods classKind id : N) (pretty : qstring)
| TCont (mods classKind id : N) (pretty : qstring) (values : list N).

(** The enum values of Identity: integraltypeextended.h, structuretype.h, indexedcontainer.h. *)
Definition typeClassId (t : Ty) : N := match t with TInt _ _ => 50 | TStruct _ _ _ _ => 51 | TCont _ _ _ _ _ => 52 end.
Definition modifiers (t : Ty) : N := match t with TInt m _ => m | TStruct m _ _ _ => m | TCont m _ _ _ _ => m end.
(** AbstractType::equals (platform): class id and modifiers. *)
Definition abstractEquals (a b : Ty) : bool := (typeClassId a =? typeClassId b) && (modifiers a =? modifiers b).
(** IntegralType::equals (platform): rhs is an integral type with the same data type, and AbstractType::equals. *)
Definition integralEquals (a b : Ty) : bool :=
  match a, b with TInt _ x, TInt _ y => (x =? y) && abstractEquals a b | _, _ => false end.
(** KDevelop::StructureType::equals (platform), which Php::StructureType does not override: class
    kind, declaration id and AbstractType::equals; prettyName is not compared. *)
Definition structKey (t : Ty) : option (N * N) :=
  match t with TStruct _ k i _ => Some (k, i) | TCont _ k i _ _ => Some (k, i) | TInt _ _ => None end.
Definition structEquals (a b : Ty) : bool :=
  match structKey a, structKey b with
  | Some (k, i), Some (k', i') => (k =? k') && (i =? i') && abstractEquals a b
  | _, _ => false
  end.
(** indexedcontainer.cpp 92-113: the loop over the types. *)
Fixpoint sameFrom (a b : list N) : bool :=
  match a, b with
  | [], [] => true
  | x :: a', y :: b' => if negb (y =? x) then false else sameFrom a' b'
  | _, _ => false
  end.
(** equals of each class: integraltypeextended.cpp 56-71, structuretype (inherited),
    indexedcontainer.cpp 89-113.  The shortcut for identical objects is left out (C50_refl). *)
Definition equals (a b : Ty) : bool :=
  match a with
  | TInt _ x =>
      if negb (integralEquals a b) then false
      else match b with TInt _ y => x =? y | _ => false end
  | TStruct _ _ _ _ => structEquals a b
  | TCont _ _ _ _ va =>
      if negb (structEquals a b) then false
      else match b with
           | TCont _ _ _ _ vb =>
               if negb (List.length va =? List.length vb)%nat then false else sameFrom va vb
           | _ => false
           end
  end.

(** Unsigned 32-bit arithmetic. *)
Definition u32 (n : N) : N := n mod 4294967296.
Section Hash.
(** IntegralType::hash and KDevelop::StructureType::hash (platform): functions of the data they compare. *)
Variable integralHash : N -> N -> N -> N.
Variable structHash : N -> N -> N -> N -> N.
(** indexedcontainer.cpp 117-120 *)
Fixpoint sumFrom (h i : N) (l : list N) : N :=
  match l with [] => h | v :: r => sumFrom (u32 (h + u32 (i * v))) (i + 1) r end.
(** integraltypeextended.cpp 51-54, structuretype.cpp 55-58, indexedcontainer.cpp 115-122 *)
Definition hash (t : Ty) : N :=
  match t with
  | TInt m d => u32 (4 * integralHash (typeClassId t) m d)
  | TStruct m k i _ => u32 (4 * structHash (typeClassId t) m k i)
  | TCont m k i _ v => sumFrom (u32 (4 * structHash (typeClassId t) m k i)) 0 v
  end.
End Hash.

(** clone: integraltypeextended.cpp 46-49, structuretype.cpp 50-53, indexedcontainer.cpp 55-59: the
    copy constructors copy the data. *)
Definition clone (t : Ty) : Ty :=
  match t with
  | TInt m d => TInt m d
  | TStruct m k i p => TStruct m k i p
  | TCont m k i p v => TCont m k i p v
  end.
(** integraltypeextended.cpp 27-32: ConstModifier is bit 0 (platform). *)
Definition newIntegralExtended (dataType : N) : Ty := TInt 1 dataType.
(** indexedcontainer.cpp 37-54 *)
Definition entries (t : Ty) : list N := match t with TCont _ _ _ _ v => v | _ => [] end.
Definition addEntry (t : Ty) (x : N) : Ty :=
  match t with TCont m k i p v => TCont m k i p (v ++ [x]) | _ => t end.
Definition typesCount (t : Ty) : nat := List.length (entries t).
Definition typeAt (t : Ty) (n : nat) : option N := nth_error (entries t) n.
Fixpoint setNth (l : list N) (n : nat) (x : N) : list N :=
  match l, n with [], _ => [] | _ :: r, O => x :: r | y :: r, S k => y :: setNth r k x end.
Definition replaceType (t : Ty) (n : nat) (x : N) : Ty :=
  match t with TCont m k i p v => TCont m k i p (setNth v n x) | _ => t end.

Section Strings.
(** toString of KDevelop::StructureType (the declaration's name), of KDevelop::IntegralType and of
    a type of the repository. *)
Variables (structName : N -> qstring) (integralName : N -> N -> qstring) (nameOf : N -> qstring).
(** TypeResource = TypeLanguageSpecific, TypeCallable, TypeObject *)
Variable languageSpecific : N.
(** structuretype.cpp 32-39 *)
Definition structToString (id : N) (pretty : qstring) : qstring := match pretty with [] => structName id | _ => pretty end.
(** indexedcontainer.cpp 63-75 *)
Fixpoint shown (i : nat) (l : list N) : list qstring :=
  match l with
  | [] => []
  | v :: r => if (5 <=? i)%nat then [str "..."] else nameOf v :: shown (S i) r
  end.
Fixpoint join (sep : qstring) (l : list qstring) : qstring :=
  match l with [] => [] | [x] => x | x :: r => x ++ sep ++ join sep r end.
(** indexedcontainer.cpp 61-83, integraltypeextended.cpp 34-44 *)
Definition toString (t : Ty) : qstring :=
  match t with
  | TInt m d => if d =? languageSpecific then str "resource"
                else if d =? languageSpecific + 1 then str "callable"
                else if d =? languageSpecific + 2 then str "object" else integralName m d
  | TStruct _ _ i p => structToString i p
  | TCont _ _ i p v => structToString i p ++ str " of (" ++ join (str ", ") (shown 0 v) ++ str ")"
  end.
End Strings.
