(** Specification for C50. *)
From Verif Require Import Chars TyModel.

(** Two types are the same: same class, modifiers and referent, same contents in the same order;
    the name shown does not matter. *)
Inductive same : Ty -> Ty -> Prop :=
| sm_int m d : same (TInt m d) (TInt m d)
| sm_struct m k i p p' : same (TStruct m k i p) (TStruct m k i p')
| sm_cont m k i p p' v : same (TCont m k i p v) (TCont m k i p' v).
