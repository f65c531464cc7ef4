(** What the names behind [new] refer to. *)
From Coq Require Import List Bool Arith NArith.
From Verif Require Import PhpTypes Chars LookModel ExprModel ExprSpec ChainModel ChainSpec NewModel.
Import ListNotations.

Section Spec.
Variable cc : CharClass.
Variable w : world.

Definition all (l : list inner) : list use := flat_map i_uses l.
(** The expressions in a part. *)
Definition inside (k : part) : list use :=
  match k with
  | Name _ _ l | Static _ _ l => all l
  | ByVar e l | ByIndirect e l | ByExpr e l | Brace e l | StaticIndirect e l | StaticExpr _ e l => i_uses e ++ all l
  end.
(** A name written in the program. *)
Definition written (k : part) : option (nat * qstring * list inner) :=
  match k with Name p n l | Static p n l => Some (p, n, l) | _ => None end.
(** An element of an array is of no known class. *)
Definition after (l : list inner) (t : option ty) (k : option N) : Prop :=
  match l with [] => Class t k | _ => k = None end.

(** [Path k l us]: behind a value of class [k] (none: not known) the parts [l] make the uses [us].  A name refers to the property
    of that name of the class in front; where the class has none it is unknown; all other expressions are looked at. *)
Inductive Path : option N -> list part -> list use -> Prop :=
| P_end k : Path k [] []
| P_property c x k r p n l d k' us : written k = Some (p, n, l) -> ctxOf w c = Some x -> Has cc false Property n x d ->
    after l (result d) k' -> Path k' r us -> Path (Some c) (k :: r) ([used p d] ++ all l ++ us)
| P_missing c x k r p n l us : written k = Some (p, n, l) -> ctxOf w c = Some x -> (forall d, ~ Has cc false Property n x d) ->
    Path None r us -> Path (Some c) (k :: r) ([unknown p] ++ all l ++ us)
| P_nowhere c k r us : ctxOf w c = None -> Path None r us -> Path (Some c) (k :: r) (inside k ++ us)
| P_noclass k r us : Path None r us -> Path None (k :: r) (inside k ++ us)
| P_dynamic c k r us : written k = None -> Path None r us -> Path (Some c) (k :: r) (inside k ++ us).

(** The class of the value in front, and what is used there. *)
Inductive Front : start -> option N -> list use -> Prop :=
| F_var v l k : (match i_found v with Some (Some t) => after l t k | _ => k = None end) -> Front (FromVar v l) k (i_uses v ++ all l)
| F_static x p n l d k : Has cc false Property n x d -> after l (result d) k -> Front (FromStatic (Some x) p n l) k ([used p d] ++ all l)
| F_missing x p n l : (forall d, ~ Has cc false Property n x d) -> Front (FromStatic (Some x) p n l) None ([unknown p] ++ all l)
| F_noclass p n l : Front (FromStatic None p n l) None (all l).

(** ** The expressions without the oddities of PropNew.v *)
(** The type is no mixture of types. *)
Definition pure (t : option ty) : Prop := forall l, t <> Some (Unsure l).
Definition noIndex (k : part) : Prop := exists p n, written k = Some (p, n, []).
(** The properties of the classes on the way are of pure types, and no constant or method has their name. *)
Definition tidy : Prop := forall c x n, ctxOf w c = Some x -> clear cc true Property n x /\ (forall d, Has cc false Property n x d -> pure (result d)).
(** Names only; an index only at the end, and then all names in front exist. *)
Inductive smooth : option N -> list part -> Prop :=
| S_names k l : Forall noIndex l -> smooth k l
| S_index c x k p n l : written k = Some (p, n, l) -> ctxOf w c = Some x -> smooth (Some c) [k]
| S_more c x k r p n : written k = Some (p, n, []) -> ctxOf w c = Some x -> (exists d, Has cc false Property n x d) ->
    (forall d k', Has cc false Property n x d -> Class (result d) k' -> smooth k' r) -> smooth (Some c) (k :: r).
(** The same in front: a variable that is looked up leaves what it finds. *)
Definition smoothFront (b : start) (r : list part) : Prop :=
  match b with
  | FromVar v l => (match i_found v with Some (Some t) => pure t | Some None => True | None => False end) /\ (l = [] \/ r = [])
  | FromStatic (Some x) p n l => clear cc true Property n x /\ (forall d, Has cc false Property n x d -> pure (result d)) /\ (l = [] \/ r = [])
  | FromStatic None p n l => False
  end.
End Spec.
