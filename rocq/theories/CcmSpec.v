(** C18: a counted map from (file, identifier) to (pretty name, kind, count). *)
From Verif Require Export CcmModel.
Open Scope N_scope.

Definition cmap := N -> N -> option (N * N * N).
Definition cempty : cmap := fun _ _ => None.
Definition cput (m : cmap) (f i : N) (v : option (N * N * N)) : cmap :=
  fun f' i' => if N.eqb f f' && N.eqb i i' then v else m f' i'.

(** One call on the map; identifier 0 is no identifier. *)
Definition mapOp (m : cmap) (o : Op) : cmap :=
  match o with
  | Add f i p k =>
      if N.eqb i 0 then m else
      match m f i with
      | Some (_, _, n) => cput m f i (Some (p, k, n + 1))
      | None => cput m f i (Some (p, k, 1))
      end
  | Update f i p k =>
      match m f i with
      | Some (_, _, n) => cput m f i (Some (p, k, n))
      | None => m
      end
  | Remove f i =>
      match m f i with
      | Some (p, k, n) => cput m f i (if N.eqb n 1 then None else Some (p, k, n - 1))
      | None => m
      end
  end.
Fixpoint mapOps (m : cmap) (h : list Op) : cmap :=
  match h with [] => m | o :: t => mapOps (mapOp m o) t end.

(** Updates are only made for items that are listed (the documented precondition). *)
Fixpoint updatesListed (m : cmap) (h : list Op) : Prop :=
  match h with
  | [] => True
  | o :: t => (match o with Update f i _ _ => i <> 0 -> m f i <> None | _ => True end) /\ updatesListed (mapOp m o) t
  end.

(** How often, counting adds up and removes down but never below zero. *)
Fixpoint balance (f i : N) (n : N) (h : list Op) : N :=
  match h with
  | [] => n
  | Add f' i' _ _ :: t => balance f i (if N.eqb f f' && N.eqb i i' then n + 1 else n) t
  | Remove f' i' :: t => balance f i (if N.eqb f f' && N.eqb i i' then n - 1 else n) t
  | Update _ _ _ _ :: t => balance f i n t
  end.
