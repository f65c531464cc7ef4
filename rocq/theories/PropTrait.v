(** C27: importing trait methods respects precedence. *)
From Verif Require Import TraitModel TraitSpec TraitProofs TraitProofs2.

(** Declarations of the class stay; only additions are made. *)
Theorem C27_own_members_kept : forall ls ts, exists new, fst (importTraits ls ts) = ls ++ new.
Proof. intros ls ts. exact (result_extends ts ls). Qed.
Print Assumptions C27_own_members_kept.

(** Everything added is a faithful copy of a member of a used trait that nothing in the class
    stood for; so a member declared earlier in the class wins. *)
Theorem C27_added_are_copies : forall ts ls, Forall wfLoc ls -> forall l, In l (fst (importTraits ls ts)) -> In l ls \/
  exists t m, In t (resolvedPrefix ts) /\ In m (t_members t) /\ copyOf l m /\ forall x, In x ls -> ~ hides x m.
Proof. exact result_added. Qed.
Print Assumptions C27_added_are_copies.
Theorem C27_declared_name_wins : forall ts ls, Forall wfLoc ls -> forall l0, In l0 ls -> forall l,
  In l (fst (importTraits ls ts)) -> l_name l = l_name l0 -> In l ls.
Proof. exact result_existing_name. Qed.
Print Assumptions C27_declared_name_wins.
Theorem C27_names_stay_unique : forall ts ls, Forall wfLoc ls -> NoDup (map l_name ls) ->
  Forall distinctNames (resolvedPrefix ts) -> NoDup (map l_name (fst (importTraits ls ts))).
Proof. exact result_names. Qed.
Print Assumptions C27_names_stay_unique.

(** Every member of the used traits in front of the first unresolved one is represented. *)
Theorem C27_all_members_partial : forall ts ls, Forall wfLoc ls -> forall t m,
  In t (resolvedPrefix ts) -> In m (t_members t) -> exists l, In l (fst (importTraits ls ts)) /\ hides l m.
Proof. exact result_complete. Qed.
Print Assumptions C27_all_members_partial.

(** The first used trait that has a member provides it. *)
Theorem C27_first_trait_provides : forall ts1 t ts2 ls m, Forall wfLoc ls ->
  In m (t_members t) -> (forall l, In l ls -> ~ hides l m) ->
  (forall t' m', In t' ts1 -> In m' (t_members t') -> m_name m' <> m_name m /\ m_id m' <> m_id m) ->
  In (aliasFor m) (fst (importTraits ls (map Some ts1 ++ Some t :: ts2))).
Proof. exact result_first. Qed.
Print Assumptions C27_first_trait_provides.

(** A collision is reported exactly for methods whose place is first taken by another trait's
    method that does not exclude this trait. *)
Theorem C27_collisions : forall ts ls e, In e (snd (importTraits ls ts)) <->
  exists ts1 t ts2 m, ts = map Some ts1 ++ Some t :: ts2 /\ In m (t_members t) /\ e = Collision (m_id m) /\
    scan t m (fst (importTraits ls (map Some ts1))) = FoundCollision.
Proof. exact importTraits_errors. Qed.
Print Assumptions C27_collisions.
Theorem C27_collision_meaning : forall t m ls, Forall wfLoc ls ->
  (scan t m ls = FoundCollision <->
   exists pre l post, ls = pre ++ l :: post /\ (forall x, In x pre -> ~ hides x m) /\
     l_kind l = MethodAlias /\ l_aliasOf l <> Some (m_id m) /\ l_name l = m_name m /\
     ~ In (t_local t) (l_over l) /\ m_isMethod m = true).
Proof. exact scan_collision. Qed.
Print Assumptions C27_collision_meaning.

(** "use A, B { A::n insteadof B; }" gives the class A's method n, only that one, and no
    collision, for a trait B outside any namespace. *)
Theorem C27_insteadof_partial : forall own A B n mA mB,
  Forall ownMember own -> ~ In n (map l_name own) ->
  distinctNames A -> NoDup (map m_id (t_members A ++ t_members B)) ->
  t_local B = t_qid B ->
  In mA (t_members A) -> m_name mA = n -> m_isMethod mA = true ->
  In mB (t_members B) -> m_name mB = n -> m_isMethod mB = true ->
  exists ls es, classBody own [Uses [Some A; Some B] [insteadof A n B]] = Some (ls, es) /\
    (exists l, In l ls /\ l_name l = n /\ l_aliasOf l = Some (m_id mA) /\ l_access l = m_access mA) /\
    (forall l, In l ls -> l_name l = n -> l_aliasOf l = Some (m_id mA)) /\
    ~ In (Collision (m_id mB)) es.
Proof. exact insteadof_ok. Qed.
Print Assumptions C27_insteadof_partial.

(** "m as modifiers alias": name, access and static of the alias. *)
Theorem C27_alias : forall s t m l es, a_trait s = Some t ->
  aliasDecl s = Some ([l], es) -> find (fun m => Nat.eqb (m_name m) (a_method s)) (t_members t) = Some m ->
  (l_name l = match a_alias s with Some n => n | None => a_method s end) /\ l_aliasOf l = Some (m_id m) /\
  l_static l = m_static m /\
  (match a_mods s with
   | None => l_access l = m_access m
   | Some ms => (~ In Public ms -> ~ In Protected ms -> ~ In Private ms -> l_access l = m_access m) /\
                (In Public ms -> l_access l = APublic) /\
                (In Protected ms -> ~ In Public ms -> l_access l = AProtected) /\
                (In Private ms -> ~ In Public ms -> ~ In Protected ms -> l_access l = APrivate)
   end).
Proof. exact alias_access. Qed.
Print Assumptions C27_alias.

Definition mth (i n : nat) : Member := {| m_id := i; m_name := n; m_isMethod := true; m_access := APublic; m_static := false |}.
Definition prop (i n : nat) : Member := {| m_id := i; m_name := n; m_isMethod := false; m_access := APublic; m_static := false |}.
Definition ownM (n : nat) (meth : bool) : Loc :=
  {| l_name := n; l_kind := Own; l_isMethod := meth; l_aliasOf := None; l_over := []; l_access := APublic; l_static := false |}.

(** A trait behind one that does not resolve is not imported at all. *)
Theorem C27_unresolved_trait_refuted : exists ts t m,
  In (Some t) ts /\ In m (t_members t) /\ fst (importTraits [] ts) = [].
Proof.
  exists [None; Some {| t_qid := 1; t_local := 1; t_members := [mth 5 6] |}],
         {| t_qid := 1; t_local := 1; t_members := [mth 5 6] |}, (mth 5 6).
  cbn. auto.
Qed.
Print Assumptions C27_unresolved_trait_refuted.

(** "use T { T::foo as bar; }": the class has bar but no longer foo. *)
Theorem C27_alias_hides_original_refuted : exists t s ls es,
  In (mth 5 6) (t_members t) /\ classBody [] [Uses [Some t] [s]] = Some (ls, es) /\
  map l_name ls = [7] /\ es = [].
Proof.
  exists {| t_qid := 1; t_local := 1; t_members := [mth 5 6] |}.
  exists {| a_trait := Some {| t_qid := 1; t_local := 1; t_members := [mth 5 6] |}; a_method := 6;
            a_alias := Some 7; a_mods := None; a_conflicts := [] |}.
  eexists. eexists. split; [left; reflexivity|]. split; [reflexivity|]. split; reflexivity.
Qed.
Print Assumptions C27_alias_hides_original_refuted.

(** A method of the class written behind the use statement does not win: both are declared. *)
Theorem C27_own_method_after_use_refuted : exists t ls es,
  classBody [] [Uses [Some t] []; Declares (ownM 6 true)] = Some (ls, es) /\
  map l_name ls = [6; 6] /\ es = [].
Proof.
  exists {| t_qid := 1; t_local := 1; t_members := [mth 5 6] |}. eexists. eexists.
  split; [reflexivity|]. split; reflexivity.
Qed.
Print Assumptions C27_own_method_after_use_refuted.

(** A property of the class keeps out a trait method of the same name. *)
Theorem C27_property_hides_method_refuted : exists t ls es,
  In (mth 5 6) (t_members t) /\ classBody [] [Declares (ownM 6 false); Uses [Some t] []] = Some (ls, es) /\
  forall l, In l ls -> l_isMethod l = false.
Proof.
  exists {| t_qid := 1; t_local := 1; t_members := [mth 5 6] |}. eexists. eexists.
  split; [left; reflexivity|]. split; [reflexivity|]. intros l [<-|[]]. reflexivity.
Qed.
Print Assumptions C27_property_hides_method_refuted.

(** Inside a namespace insteadof does not exclude: the collision is reported. *)
Theorem C27_insteadof_namespace_refuted : exists A B ls es,
  classBody [] [Uses [Some A; Some B] [insteadof A 6 B]] = Some (ls, es) /\ In (Collision 15) es.
Proof.
  exists {| t_qid := 101; t_local := 1; t_members := [mth 5 6] |},
         {| t_qid := 102; t_local := 2; t_members := [mth 15 6] |}.
  eexists. eexists. split; [reflexivity|]. cbn. auto.
Qed.
Print Assumptions C27_insteadof_namespace_refuted.

(** An alias of a trait property is a null dereference. *)
Theorem C27_alias_of_property_refuted : exists s, aliasDecl s = None.
Proof.
  exists {| a_trait := Some {| t_qid := 1; t_local := 1; t_members := [prop 5 6] |}; a_method := 6;
            a_alias := Some 7; a_mods := None; a_conflicts := [] |}. reflexivity.
Qed.
Print Assumptions C27_alias_of_property_refuted.

(** The hypotheses are met: two traits sharing method 6, one own member. *)
Definition tA := {| t_qid := 1; t_local := 1; t_members := [mth 10 6; mth 11 7] |}.
Definition tB := {| t_qid := 2; t_local := 2; t_members := [mth 20 6; prop 21 8] |}.
Example C27_case_insteadof : exists ls es,
  classBody [ownM 7 true] [Uses [Some tA; Some tB] [insteadof tA 6 tB]] = Some (ls, es) /\
  map l_name ls = [7; 6; 8] /\ es = [].
Proof. eexists. eexists. split; [reflexivity|]. split; reflexivity. Qed.
Example C27_case_collision :
  importTraits [ownM 7 true] [Some tA; Some tB] =
  ([ownM 7 true; aliasFor (mth 10 6); aliasFor (prop 21 8)], [Collision 20]).
Proof. reflexivity. Qed.
Example C27_case_hyps : Forall wfLoc [ownM 7 true] /\ distinctNames tA /\ NoDup (map m_id (t_members tA ++ t_members tB)).
Proof.
  split; [repeat constructor|]. split; [repeat constructor; cbn; intuition congruence|].
  repeat constructor; cbn; intuition congruence.
Qed.
