(** The completion index: duchain/completioncodemodel.{h,cpp}. *)
From Coq Require Export List NArith Arith Lia Bool Permutation.
Export ListNotations.

(** CompletionCodeModelItem, completioncodemodel.h 27-46.  Identifiers, file names and pretty
    names are indices (IndexedQualifiedIdentifier, IndexedString); identifier 0 is the invalid
    one.  referenceCount is a 32-bit unsigned. *)
Record CItem := { ci_id : N; ci_pretty : N; ci_ref : N; ci_kind : N }.
Definition uint32 (n : N) : N := N.modulo n (2 ^ 32).

(** The slots of CompletionCodeModelRepositoryItem::items, completioncodemodel.cpp 64-98.
    A free slot of the embedded tree (an item with invalid identifier) is [None]. *)
Definition slots := list (option CItem).
Definition valid (s : slots) : list CItem := flat_map (fun o => match o with Some i => [i] | None => [] end) s.

(** KDevelop::EmbeddedTreeAddItem / EmbeddedTreeRemoveItem (not part of this repository): any
    pair of functions that add an item resp. free the slot of an item, wherever they put it
    and however they resize the list. *)
Record EmbTree := { et_add : slots -> CItem -> slots; et_remove : slots -> N -> slots }.
Record EmbTreeOk (et : EmbTree) : Prop := {
  et_add_ok : forall s i, Permutation (valid (et_add et s i)) (i :: valid s);
  et_remove_ok : forall s id, Permutation (valid (et_remove et s id)) (filter (fun i => negb (N.eqb (ci_id i) id)) (valid s))
}.

(** EmbeddedTreeAlgorithms::indexOf: the slot holding this identifier. *)
Fixpoint indexOf (s : slots) (id : N) : option nat :=
  match s with
  | [] => None
  | Some i :: t => if N.eqb (ci_id i) id then Some O else option_map S (indexOf t id)
  | None :: t => option_map S (indexOf t id)
  end.
Fixpoint updSlot (s : slots) (n : nat) (f : CItem -> CItem) : slots :=
  match s, n with
  | o :: t, O => option_map f o :: t
  | o :: t, S n' => o :: updSlot t n' f
  | [], _ => []
  end.
Definition refAt (s : slots) (n : nat) : N :=
  match nth_error s n with Some (Some i) => ci_ref i | _ => 0%N end.

(** The item repository: one entry per file (hash and equals look at the file only,
    completioncodemodel.cpp 77-81 and 132-134). *)
Definition repo := list (N * slots).
Definition findFile (r : repo) (file : N) : option slots :=
  option_map snd (find (fun p => N.eqb (fst p) file) r).
Definition deleteFile (r : repo) (file : N) : repo := filter (fun p => negb (N.eqb (fst p) file)) r.
(** Changing the entry in place through a DynamicItem. *)
Definition setFile (r : repo) (file : N) (s : slots) : repo :=
  map (fun p => if N.eqb (fst p) file then (file, s) else p) r.

Section Ops.
Variable et : EmbTree.

(** addItem, completioncodemodel.cpp 173-232 *)
Definition addItem (r : repo) (file id pretty kind : N) : repo :=
  if N.eqb id 0 then r else
  let newItem := {| ci_id := id; ci_pretty := pretty; ci_ref := 1; ci_kind := kind |} in
  match findFile r file with
  | Some s =>
      match indexOf s id with
      | Some n => setFile r file (updSlot s n (fun i =>
          {| ci_id := ci_id i; ci_pretty := pretty; ci_ref := uint32 (ci_ref i + 1); ci_kind := kind |}))
      | None =>
          let s' := et_add et s newItem in
          if Nat.eqb (length s') (length s) then setFile r file s'
          else (file, s') :: deleteFile r file
      end
  | None => (file, [Some newItem]) :: r
  end.

(** updateItem, completioncodemodel.cpp 234-275; [None]: the asserted precondition fails. *)
Definition updateItem (r : repo) (file id pretty kind : N) : option repo :=
  if N.eqb id 0 then Some r else
  match findFile r file with
  | Some s =>
      match indexOf s id with
      | Some n => Some (setFile r file (updSlot s n (fun i =>
          {| ci_id := ci_id i; ci_pretty := pretty; ci_ref := ci_ref i; ci_kind := kind |})))
      | None => None
      end
  | None => None
  end.

(** removeItem, completioncodemodel.cpp 277-330 *)
Definition removeItem (r : repo) (file id : N) : repo :=
  if N.eqb id 0 then r else
  match findFile r file with
  | Some s =>
      match indexOf s id with
      | Some n =>
          let s1 := updSlot s n (fun i =>
            {| ci_id := ci_id i; ci_pretty := ci_pretty i; ci_ref := uint32 (ci_ref i + (2 ^ 32 - 1)); ci_kind := ci_kind i |}) in
          if N.eqb (refAt s1 n) 0 then
            let s2 := et_remove et s1 id in
            if Nat.eqb (length s2) (length s1) then setFile r file s2
            else if Nat.eqb (length s2) 0 then deleteFile r file
            else (file, s2) :: deleteFile r file
          else setFile r file s1
      | None => r
      end
  | None => r
  end.

(** items, completioncodemodel.cpp 332-356; callers skip the invalid identifiers. *)
Definition listed (r : repo) (file : N) : list CItem :=
  match findFile r file with Some s => valid s | None => [] end.

(** A history of calls. *)
Inductive Op := Add (file id pretty kind : N) | Update (file id pretty kind : N) | Remove (file id : N).
Definition runOp (r : repo) (o : Op) : option repo :=
  match o with
  | Add f i p k => Some (addItem r f i p k)
  | Update f i p k => updateItem r f i p k
  | Remove f i => Some (removeItem r f i)
  end.
Fixpoint runOps (r : repo) (h : list Op) : option repo :=
  match h with
  | [] => Some r
  | o :: t => match runOp r o with Some r' => runOps r' t | None => None end
  end.
End Ops.
