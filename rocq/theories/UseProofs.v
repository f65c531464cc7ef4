(** Proofs for C49. *)
From Verif Require Import Chars LookModel UseModel UseSpec.

Section P.
Variables (D Node : Type) (declaredAt : D -> Node -> bool) (deprecated : D -> bool).
Variable find : DeclarationType -> QId -> option D.
Notation useFor := (useFor D Node deprecated find).
Notation component := (component D Node declaredAt deprecated find).
Notation loop := (loop D Node declaredAt deprecated find).
Notation nc := (newCheckedUse D Node deprecated).

Lemma newChecked_useFor t g parts missing n : useFor t g parts missing n (nc n (find t {| qGlobal := g; qParts := parts |}) missing).
Proof.
  unfold UseSpec.useFor, newCheckedUse. cbn [uNode uDec uReport]. split; [reflexivity|]. split; [reflexivity|].
  destruct (find _ _) as [d|].
  - destruct (deprecated d) eqn:E; split; split; intros H; try discriminate; try (destruct H; discriminate); eauto.
    destruct H as (d' & X & Y). injection X as <-. congruence.
  - destruct missing; split; split; intros H; try discriminate; auto; destruct H as (? & H); try discriminate; destruct H; discriminate.
Qed.
Definition now (at_ : nat -> option Node) g p i (parts : list qstring) : option (list (UseRec D Node)) :=
  if (p <=? i)%nat then
    match at_ i with
    | None => None
    | Some n => match find NamespaceDT {| qGlobal := g; qParts := parts |} with
                | Some x => if declaredAt x n then Some [] else Some [nc n (find NamespaceDT {| qGlobal := g; qParts := parts |}) true]
                | None => Some [nc n (find NamespaceDT {| qGlobal := g; qParts := parts |}) true]
                end
    end
  else Some [].
Lemma loop_step at_ g p i cur x y rest : loop at_ g p i cur (x :: y :: rest) =
  match now at_ g p i (cur ++ [x]), loop at_ g p (S i) (cur ++ [x]) (y :: rest) with Some a, Some b => Some (a ++ b) | _, _ => None end.
Proof. reflexivity. Qed.
Lemma loop_some at_ g p rest : forall i cur parts, parts = cur ++ rest -> i = List.length cur -> rest <> [] ->
  (forall j, (i <= j)%nat -> (p <= j)%nat -> (j < List.length parts - 1)%nat -> at_ j <> None) ->
  exists groups, loop at_ g p i cur rest = Some (List.concat groups) /\
    List.length groups = (List.length parts - 1 - Nat.max p i)%nat /\
    forall k gr, nth_error groups k = Some gr ->
      exists n, at_ (Nat.max p i + k)%nat = Some n /\ component g parts (Nat.max p i + k) n gr.
Proof.
  induction rest as [|x rest IH]; intros i cur parts HP HI HN HA; [contradiction|].
  destruct rest as [|y rest].
  - exists []. cbn. split; [reflexivity|]. split; [subst; rewrite app_length; cbn; lia|]. intros [|k] gr X; discriminate.
  - destruct (IH (S i) (cur ++ [x]) parts) as (groups & E & L & G).
    { rewrite <- app_assoc. exact HP. } { rewrite app_length. cbn. lia. } { discriminate. } { intros j A B C. apply HA; lia. }
    rewrite loop_step, E. unfold now.
    assert (Len : List.length parts = (i + 2 + List.length rest)%nat).
    { subst. rewrite app_length. cbn. lia. }
    destruct (Nat.leb_spec p i) as [Hp|Hp].
    + destruct (at_ i) as [n|] eqn:Ea; [|exfalso; apply (HA i); auto; lia].
      assert (F : firstn (S i) parts = cur ++ [x]).
      { subst. replace (cur ++ x :: y :: rest) with ((cur ++ [x]) ++ y :: rest) by (rewrite <- app_assoc; reflexivity).
        rewrite firstn_app. replace (S (List.length cur)) with (List.length (cur ++ [x])) by (rewrite app_length; cbn; lia).
        rewrite firstn_all, Nat.sub_diag. cbn. rewrite app_nil_r. reflexivity. }
      assert (C : exists gr, component g parts i n gr /\
         match find NamespaceDT {| qGlobal := g; qParts := cur ++ [x] |} with
         | Some x0 => if declaredAt x0 n then Some [] else Some [nc n (find NamespaceDT {| qGlobal := g; qParts := cur ++ [x] |}) true]
         | None => Some [nc n (find NamespaceDT {| qGlobal := g; qParts := cur ++ [x] |}) true] end = Some gr).
      { unfold UseSpec.component. rewrite F. destruct (find NamespaceDT {| qGlobal := g; qParts := cur ++ [x] |}) as [d|] eqn:Ef.
        - destruct (declaredAt d n) eqn:Ed.
          + exists []. split; [left; eauto|reflexivity].
          + eexists. split; [|reflexivity]. right. split; [intros d' X; injection X as <-; exact Ed|]. eexists. split; [reflexivity|].
            rewrite <- Ef. apply newChecked_useFor.
        - eexists. split; [|reflexivity]. right. split; [discriminate|]. eexists. split; [reflexivity|]. rewrite <- Ef. apply newChecked_useFor. }
      destruct C as (gr0 & C & EN).
      exists (gr0 :: groups). split; [rewrite EN; reflexivity|].
      split; [cbn; rewrite L; lia|]. intros [|k] gr X.
      * cbn in X. injection X as <-. exists n. replace (Nat.max p i + 0)%nat with i by lia. auto.
      * cbn in X. destruct (G k gr X) as (n' & A & B). exists n'. replace (Nat.max p i + S k)%nat with (Nat.max p (S i) + k)%nat by lia. auto.
    + exists groups. split; [reflexivity|]. replace (Nat.max p i) with (Nat.max p (S i)) by lia. auto.
Qed.
Lemma loop_none at_ g p rest : forall i cur, rest <> [] ->
  (exists j, (i <= j)%nat /\ (p <= j)%nat /\ (j < i + List.length rest - 1)%nat /\ at_ j = None) -> loop at_ g p i cur rest = None.
Proof.
  induction rest as [|x rest IH]; intros i cur HN (j & H1 & H2 & H3 & H4); [contradiction|].
  destruct rest as [|y rest]; [cbn in H3; lia|]. rewrite loop_step.
  destruct (Nat.eq_dec j i) as [->|Hj].
  - unfold now. destruct (Nat.leb_spec p i); [|lia]. rewrite H4. reflexivity.
  - assert (E : loop at_ g p (S i) (cur ++ [x]) (y :: rest) = None).
    { apply IH; [discriminate|]. exists j. cbn [List.length] in *. repeat split; try lia. exact H4. }
    rewrite E. destruct (now at_ g p i (cur ++ [x])); reflexivity.
Qed.
Lemma found_iff (o : option D) : found D o = true <-> o <> None.
Proof. destruct o; cbn; split; try discriminate; congruence. Qed.
Lemma chooseScope_spec id t : exists g, scope D find t (qGlobal id) (qParts id) g /\ chooseScope D find id t = {| qGlobal := g; qParts := qParts id |}.
Proof.
  destruct id as [g parts]. unfold chooseScope. cbn [qGlobal qParts setGlobal].
  assert (R : forall b, found D (find t {| qGlobal := b; qParts := parts |}) || found D (find NamespaceDT {| qGlobal := b; qParts := parts |}) = true <-> resolves D find t b parts).
  { intros b. rewrite orb_true_iff, !found_iff. unfold resolves. tauto. }
  destruct (found D (find t {| qGlobal := g; qParts := parts |}) || found D (find NamespaceDT {| qGlobal := g; qParts := parts |})) eqn:E.
  - exists g. split; [apply sc_here; apply R; exact E|reflexivity].
  - assert (N : ~ resolves D find t g parts) by (rewrite <- R, E; discriminate).
    destruct g.
    + exists true. split; [apply sc_none; exact N|reflexivity].
    + unfold setGlobal. cbn [qParts].
      destruct (found D (find t {| qGlobal := true; qParts := parts |}) || found D (find NamespaceDT {| qGlobal := true; qParts := parts |})) eqn:E'.
      * exists true. split; [apply sc_global; [exact N|apply R; exact E']|reflexivity].
      * exists false. split; [apply sc_none; [exact N|rewrite <- R, E'; discriminate]|reflexivity].
Qed.
Lemma reports_match t : reportsNotFound t = match t with GlobalVariableDT => false | _ => true end.
Proof. destruct t; reflexivity. Qed.
Notation build := (buildNamespaceUses D Node declaredAt deprecated find).
(** No prefix. *)
Lemma build_plain id nodes t : qParts id <> [] -> List.length nodes = List.length (qParts id) ->
  exists g l, scope D find t (qGlobal id) (qParts id) g /\ build id 0 nodes t = Some l /\
    usesOfName D Node declaredAt deprecated find t g (qParts id) (nth_error nodes) 0 l.
Proof.
  intros HN HL. destruct (chooseScope_spec id t) as (g & S & E). exists g. unfold buildNamespaceUses. rewrite E. cbn [qGlobal qParts].
  destruct (loop_some (nth_error nodes) g 0 (qParts id) 0%nat [] (qParts id)) as (groups & EL & LL & GL); auto.
  { intros j _ _ Hj. apply nth_error_Some. lia. }
  rewrite EL. destruct (nth_error nodes (List.length nodes - 1)) as [n|] eqn:En.
  - eexists. split; [exact S|]. split; [reflexivity|]. exists groups. eexists. exists n. split; [reflexivity|]. split; [rewrite LL; cbn; lia|].
    split; [exact GL|]. split; [rewrite <- HL; exact En|]. rewrite reports_match. apply newChecked_useFor.
  - exfalso. apply nth_error_None in En. destruct (qParts id); [contradiction|]. cbn in HL. lia.
Qed.
(** One component after the prefix. *)
Lemma build_single id p node t : List.length (qParts id) = S p ->
  exists g l, scope D find t (qGlobal id) (qParts id) g /\ build id p [node] t = Some l /\
    usesOfName D Node declaredAt deprecated find t g (qParts id) (fun i => nth_error [node] (i - p)) p l.
Proof.
  intros HL. destruct (chooseScope_spec id t) as (g & S & E). exists g. unfold buildNamespaceUses. rewrite E. cbn [qGlobal qParts].
  destruct (loop_some (nth_error [node]) g p (qParts id) 0%nat [] (qParts id)) as (groups & EL & LL & GL); auto.
  { destruct (qParts id); discriminate. } { intros j _ A B. lia. }
  rewrite EL. cbn [nth_error List.length Nat.sub]. eexists. split; [exact S|]. split; [reflexivity|]. exists groups. eexists. exists node. split; [reflexivity|].
  replace (Nat.max p 0) with p in * by lia. split; [exact LL|].
  split.
  { intros k gr X. assert (k < List.length groups)%nat by (apply nth_error_Some; congruence). lia. }
  split; [replace (List.length (qParts id) - 1 - p)%nat with O by lia; reflexivity|]. rewrite reports_match. apply newChecked_useFor.
Qed.
(** Two components or more after a prefix of two or more. *)
Lemma build_hang id p nodes t : (2 <= p)%nat -> (2 <= List.length nodes)%nat -> List.length (qParts id) = (p + List.length nodes)%nat ->
  build id p nodes t = None.
Proof.
  intros HP HN HL. destruct (chooseScope_spec id t) as (g & S & E). unfold buildNamespaceUses. rewrite E. cbn [qGlobal qParts].
  rewrite (loop_none (nth_error nodes) g p (qParts id) 0%nat []).
  - reflexivity.
  - destruct (qParts id); [cbn in HL; lia|discriminate].
  - exists (p + List.length nodes - 2)%nat. repeat split; try lia. apply nth_error_None. lia.
Qed.
(** A prefix of one component: the uses are one node late. *)
Lemma build_late id nodes t : (1 <= List.length nodes)%nat -> List.length (qParts id) = S (List.length nodes) ->
  exists g l groups u n, scope D find t (qGlobal id) (qParts id) g /\ build id 1 nodes t = Some l /\
    l = List.concat groups ++ [u] /\ List.length groups = (List.length nodes - 1)%nat /\
    (forall k gr, nth_error groups k = Some gr -> exists n, nth_error nodes (S k) = Some n /\ component g (qParts id) (S k) n gr) /\
    nth_error nodes (List.length nodes - 1) = Some n /\
    useFor t g (qParts id) (match t with GlobalVariableDT => false | _ => true end) n u.
Proof.
  intros HN HL. destruct (chooseScope_spec id t) as (g & S & E). exists g. unfold buildNamespaceUses. rewrite E. cbn [qGlobal qParts].
  destruct (loop_some (nth_error nodes) g 1 (qParts id) 0%nat [] (qParts id)) as (groups & EL & LL & GL); auto.
  { destruct (qParts id); [cbn in HL; lia|discriminate]. } { intros j _ _ Hj. apply nth_error_Some. lia. }
  rewrite EL. destruct (nth_error nodes (List.length nodes - 1)) as [n|] eqn:En; [|apply nth_error_None in En; lia].
  eexists. exists groups. eexists. exists n. split; [exact S|]. split; [reflexivity|]. split; [reflexivity|]. 
  split; [rewrite LL; cbn; lia|]. split; [exact GL|]. split; [reflexivity|]. rewrite reports_match. apply newChecked_useFor.
Qed.
Lemma expr_uses nodes g rest : forall cur parts, parts = cur ++ rest -> List.length nodes = List.length rest -> forall k,
  nth_error (exprUses D Node find nodes g cur rest) k =
  if (k <? List.length rest - 1)%nat then match nth_error nodes k with
     | Some n => Some (n, find NamespaceDT {| qGlobal := g; qParts := firstn (S (List.length cur + k)) parts |}) | None => None end else None.
Proof.
  clear declaredAt deprecated. revert nodes. induction rest as [|x rest IH]; intros nodes cur parts HP HL k.
  - destruct nodes; [|discriminate]. cbn. destruct k; reflexivity.
  - destruct nodes as [|n nodes]; [discriminate|]. destruct rest as [|y rest].
    + cbn. destruct k; reflexivity.
    + cbn [exprUses]. assert (P2 : parts = (cur ++ [x]) ++ y :: rest) by (rewrite <- app_assoc; exact HP).
      destruct k as [|k].
      * cbn. f_equal. f_equal. f_equal. f_equal. rewrite P2, Nat.add_0_r.
        change (cur ++ [x] = firstn (S (List.length cur)) ((cur ++ [x]) ++ y :: rest)).
        rewrite firstn_app. replace (S (List.length cur)) with (List.length (cur ++ [x])) by (rewrite app_length; cbn; lia).
        rewrite firstn_all, Nat.sub_diag. cbn. rewrite app_nil_r. reflexivity.
      * change (nth_error (?a :: ?l) (S k)) with (nth_error l k). cbn [nth_error].
        rewrite (IH nodes (cur ++ [x]) parts P2) by (cbn in *; lia). rewrite app_length. cbn [List.length].
        replace (List.length cur + 1 + k)%nat with (List.length cur + S k)%nat by lia.
        replace (S (S (List.length rest)) - 1)%nat with (S (List.length rest)) by lia. replace (S (List.length rest) - 1)%nat with (List.length rest) by lia.
        reflexivity.
Qed.
End P.
Lemma pushParts_length cc b l : List.length (pushParts cc b l) = List.length l.
Proof. induction l as [|x l IH]; [reflexivity|]. destruct l; [reflexivity|]. cbn [pushParts List.length]. f_equal. exact IH. Qed.
