(** C18: the completion index is a counted per-file map.  Vocabulary in CcmSpec.v. *)
From Verif Require Import CcmProofs.
Open Scope N_scope.

(** The calls are those a caller may make (updates only for listed items) and there are fewer
    than 2^32 of them (the count is a 32-bit unsigned).  Then no assertion fails, and after the
    history exactly the map's items are listed, each once. *)
Theorem C18_map : forall et, EmbTreeOk et -> forall h,
  N.of_nat (length h) < 2 ^ 32 -> updatesListed cempty h ->
  exists r, runOps et [] h = Some r /\
    (forall f, NoDup (map ci_id (listed r f))) /\
    forall f i p k n, In {| ci_id := i; ci_pretty := p; ci_ref := n; ci_kind := k |} (listed r f) <-> mapOps cempty h f i = Some (p, k, n).
Proof. exact index_map. Qed.
Print Assumptions C18_map.

(** The map lists an item iff it was added more often than removed. *)
Theorem C18_balance : forall h f i, i <> 0 ->
  match mapOps cempty h f i with Some (_, _, c) => balance f i 0 h = c /\ 0 < c | None => balance f i 0 h = 0 end.
Proof. intros h f i Hi. exact (map_balance h cempty f i 0 Hi eq_refl). Qed.
Print Assumptions C18_balance.

(** Other files and identifiers are unaffected by a call. *)
Definition concerns (o : Op) (f i : N) : Prop :=
  match o with Add f' i' _ _ | Update f' i' _ _ | Remove f' i' => f' = f /\ i' = i end.
Theorem C18_frame : forall m o f i, ~ concerns o f i -> mapOp m o f i = m f i.
Proof. exact map_frame. Qed.
Print Assumptions C18_frame.

(** A concrete embedded list that frees slots in place and appends when there is no free one. *)
Definition et0 : EmbTree := {|
  et_add := fun s i => s ++ [Some i];
  et_remove := fun s id => map (fun o => match o with Some i => if N.eqb (ci_id i) id then None else Some i | None => None end) s |}.
Example et0_ok : EmbTreeOk et0.
Proof. exact et0_ok_lemma. Qed.
Definition h18 : list Op := [Add 1 7 70 2; Add 1 7 71 3; Add 2 7 70 2; Remove 1 7; Update 1 7 72 4; Add 1 9 90 1; Remove 1 9; Remove 1 9; Add 1 0 1 1].
Example C18_case : N.of_nat (length h18) < 2 ^ 32 /\ updatesListed cempty h18 /\
  option_map (fun r => (listed r 1, listed r 2)) (runOps et0 [] h18) =
  Some ([{| ci_id := 7; ci_pretty := 72; ci_ref := 1; ci_kind := 4 |}], [{| ci_id := 7; ci_pretty := 70; ci_ref := 1; ci_kind := 2 |}]).
Proof. split; [reflexivity|]. split; [cbn; repeat split; discriminate|reflexivity]. Qed.
