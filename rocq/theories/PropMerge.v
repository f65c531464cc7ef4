(** C21 and C22: accumulated types.  Vocabulary in MergeSpec.v and PhpTypes.v. *)
From Verif Require Import MergeProofs.
Open Scope nat_scope.

(** C21: after assignments of plain types, the variable's type is the union of the distinct
    assigned types in order of first assignment, mixed only counting once something definite
    was assigned before it. *)
Theorem C21_union : forall ts, ts <> [] -> Forall plain ts -> variableType ts = Some (unionOf (firsts (dropMixed ts))).
Proof. exact var_plain. Qed.
Print Assumptions C21_union.
(** ... where [firsts] is the history without repetitions. *)
Theorem C21_distinct : forall l, NoDup (firsts l) /\ forall t, In t (firsts l) <-> In t l.
Proof. intros l. exact (conj (firsts_nodup l) (fun t => firsts_in t l)). Qed.
Print Assumptions C21_distinct.
(** Any types, references and unions included: from something definite on, exactly the plain
    types of the assignments are added, and none is lost. *)
Theorem C21_any : forall ts c, settled c ->
  exists r, fold_left assignTo ts (Some c) = Some r /\ settled r /\
    forall a, In a (atoms r) <-> In a (atoms c) \/ exists t, In t ts /\ In a (atoms t).
Proof. exact assign_all. Qed.
Print Assumptions C21_any.

Definition ts21 := [Integral KMixed; Integral KInt; Struct 4; Integral KInt; Integral KNull; Struct 4].
Example C21_case : ts21 <> [] /\ Forall plain ts21 /\
  variableType ts21 = Some (Unsure [Integral KInt; Struct 4; Integral KNull]).
Proof. split; [discriminate|]. split; [repeat constructor|reflexivity]. Qed.
Example C21_case_ref : settled (Ref (Integral KInt)) /\
  fold_left assignTo [Integral KString] (Some (Ref (Integral KInt))) = Some (Ref (Unsure [Integral KInt; Integral KString])).
Proof. split; [split; discriminate|reflexivity]. Qed.

(** C22: a fixed return type stays, provided every function nested in this one has a fixed
    return type as well; see [C22_fixed_refuted] for why that is needed. *)
Theorem C22_fixed_partial : forall t body, nested true body -> functionReturn (Some t) body = t.
Proof. intros t body H. unfold functionReturn. cbn [isSome]. rewrite (body_fixed body (Some t) H). exact eq_refl. Qed.
Print Assumptions C22_fixed_partial.
(** function f(): int { $g = function() {}; return "x"; } *)
Theorem C22_fixed_refuted : exists t body, functionReturn (Some t) body <> t /\
  functionReturn (Some t) body = Unsure [Integral KString; t].
Proof. exists (Integral KInt), [SFun None []; SReturn (Some (Integral KString))]. split; [discriminate|reflexivity]. Qed.
Print Assumptions C22_fixed_refuted.

(** Without a fixed type: nothing returned gives void, only mixed gives mixed, otherwise the
    plain types of the returns, where mixed is dropped when it came before anything definite.
    Provided no nested function has a fixed type ([C22_infer_refuted]); missing from the full
    property: mixed after something definite ([C22_mixed_refuted]), callables together with
    functions. *)
Theorem C22_union_partial : forall body, nested false body -> noPair (ownReturns body) ->
  (ownReturns body = [] -> functionReturn None body = Integral KVoid) /\
  (ownReturns body <> [] -> dropMixed (ownReturns body) = [] -> functionReturn None body = Integral KMixed) /\
  (dropMixed (ownReturns body) <> [] ->
     forall a, In a (atoms (functionReturn None body)) <-> exists t, In t (dropMixed (ownReturns body)) /\ In a (atoms t)).
Proof. exact return_union. Qed.
Print Assumptions C22_union_partial.
(** With plain types: one distinct type gives that type, several give a union holding each once. *)
Theorem C22_distinct_partial : forall body, nested false body -> noPair (ownReturns body) ->
  Forall plain (ownReturns body) -> dropMixed (ownReturns body) <> [] ->
  (forall t, Forall (fun x => x = t) (dropMixed (ownReturns body)) -> functionReturn None body = t) /\
  ((forall t, ~ Forall (fun x => x = t) (dropMixed (ownReturns body))) ->
     exists m, functionReturn None body = Unsure m /\ NoDup m /\ forall x, In x m <-> In x (dropMixed (ownReturns body))).
Proof. exact return_shape. Qed.
Print Assumptions C22_distinct_partial.
(** function f() { $g = function(): int {}; return "x"; } is recorded as returning nothing. *)
Theorem C22_infer_refuted : exists body, ownReturns body = [Integral KString] /\ functionReturn None body = Integral KVoid.
Proof. exists [SFun (Some (Integral KInt)) []; SReturn (Some (Integral KString))]. split; reflexivity. Qed.
Print Assumptions C22_infer_refuted.
(** Mixed yields only when it comes first. *)
Theorem C22_mixed_refuted : 
  functionReturn None [SReturn (Some (Integral KMixed)); SReturn (Some (Integral KInt))] = Integral KInt /\
  functionReturn None [SReturn (Some (Integral KInt)); SReturn (Some (Integral KMixed))] = Unsure [Integral KMixed; Integral KInt].
Proof. split; reflexivity. Qed.
Print Assumptions C22_mixed_refuted.

Definition body22 := [SReturn (Some (Integral KMixed)); SFun None [SReturn (Some (Struct 9))]; SReturn (Some (Ref (Integral KInt)));
  SReturn None; SReturn (Some (Integral KNull)); SReturn (Some (Integral KInt))].
Example C22_case : nested false body22 /\ noPair (ownReturns body22) /\ Forall plain (ownReturns body22) /\ dropMixed (ownReturns body22) <> [] /\
  functionReturn None body22 = Unsure [Integral KNull; Integral KInt].
Proof. repeat split; try discriminate; [left|]; repeat constructor. Qed.
Example C22_case_fixed : nested true [SFun (Some (Integral KInt)) []; SReturn (Some (Integral KString))].
Proof. cbn. auto. Qed.
