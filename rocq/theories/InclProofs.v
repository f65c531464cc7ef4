From Verif Require Import Chars InclModel InclSpec.

Section P.
Variables (cc : CharClass) (path : Type) (E : Env path).

Lemma exists_reachable p : includeExists path E p = true <-> reachable path E p.
Proof.
  unfold includeExists, reachable. destruct (known E (asUrl E p)); [tauto|].
  destruct (isLocal E p); split; auto; intros [H|[H1 H2]]; congruence.
Qed.

Lemma scheme_spec pre s : startsWithCI cc pre s = true <-> hasScheme cc pre s.
Proof.
  unfold hasScheme. revert s. induction pre as [|x pre IH]; intros s; cbn.
  - split; auto. intros _. exists [], s. auto.
  - destruct s as [|y s].
    + split; [discriminate|]. intros (a & b & H & Hm). destruct a; discriminate.
    + rewrite andb_true_iff, N.eqb_eq, IH. split.
      * intros (H1 & a & b & -> & H2). exists (y :: a), b. cbn. rewrite H2, H1. auto.
      * intros (a & b & H & Hm). destruct a as [|z a]; [discriminate|]. injection H as -> ->. cbn in Hm. injection Hm as H1 H2.
        split; auto. exists a, b. auto.
Qed.
Lemma remote_spec s : (startsWithCI cc (str "http://") s || startsWithCI cc (str "ftp://") s = true) <-> remote cc s.
Proof. rewrite orb_true_iff, !scheme_spec. reflexivity. Qed.

Fixpoint firstOf (l : list path) : option qstring :=
  match l with [] => None | c :: r => if includeExists path E c then Some (asUrl E c) else firstOf r end.
Lemma firstOf_app a b : firstOf (a ++ b) = match firstOf a with Some x => Some x | None => firstOf b end.
Proof. induction a as [|x a IH]; cbn; auto. destruct (includeExists path E x); auto. Qed.
Lemma round_true doc inc l : round path E true doc inc l = firstOf (map (fun p => join E p inc) (filter (fun p => inside E p doc) l)).
Proof. induction l as [|p l IH]; auto. cbn [round filter]. destruct (inside E p doc); cbn [negb andb map firstOf]; rewrite IH; auto. Qed.
Lemma round_false doc inc l : round path E false doc inc l = firstOf (map (fun p => join E p inc) l).
Proof. induction l as [|p l IH]; auto. cbn. rewrite IH. auto. Qed.
Lemma firstOf_some l u : firstOf l = Some u <-> exists c, firstReachable path E l c /\ asUrl E c = u.
Proof.
  unfold firstReachable. induction l as [|x l IH]; cbn.
  - split; [discriminate|]. intros (c & (b & a & H & _) & _). destruct b; discriminate.
  - destruct (includeExists path E x) eqn:X.
    + apply exists_reachable in X. split.
      * intros H. injection H as H. exists x. split; auto. exists [], l. auto.
      * intros (c & (b & a & H & R & F) & Hu). destruct b as [|y b].
        -- injection H as -> _. now subst.
        -- injection H as -> _. inversion_clear F. tauto.
    + assert (NX : ~ reachable path E x) by (rewrite <- exists_reachable; congruence). rewrite IH. split.
      * intros (c & (b & a & -> & R & F) & Hu). exists c. split; auto. exists (x :: b), a. auto.
      * intros (c & (b & a & H & R & F) & Hu). destruct b as [|y b].
        -- injection H as -> _. tauto.
        -- injection H as -> ->. inversion_clear F. exists c. split; auto. exists b, a. auto.
Qed.
Lemma firstOf_none l : firstOf l = None <-> Forall (fun x => ~ reachable path E x) l.
Proof.
  induction l as [|x l IH]; cbn; [split; auto|]. destruct (includeExists path E x) eqn:X.
  - apply exists_reachable in X. split; [discriminate|]. intros F. inversion_clear F. tauto.
  - rewrite IH. split.
    + intros F. constructor; auto. rewrite <- exists_reachable. congruence.
    + intros F. now inversion_clear F.
Qed.
Lemma find_local inc doc : inc <> [] -> ~ remote cc inc -> findIncludeFile cc path E inc doc = firstOf (candidates path E inc doc).
Proof.
  intros HN HR. unfold findIncludeFile, candidates. destruct inc as [|i inc]; [congruence|].
  destruct (startsWithCI cc (str "http://") (i :: inc) || startsWithCI cc (str "ftp://") (i :: inc)) eqn:R.
  { apply remote_spec in R. tauto. }
  cbn [firstOf]. destruct (includeExists path E (join E (parentOf E doc) (i :: inc))); auto.
  rewrite firstOf_app, round_true, round_false. reflexivity.
Qed.

Theorem resolves inc doc u : inc <> [] -> ~ remote cc inc ->
  (findIncludeFile cc path E inc doc = Some u <-> exists c, firstReachable path E (candidates path E inc doc) c /\ asUrl E c = u).
Proof. intros HN HR. rewrite find_local by auto. apply firstOf_some. Qed.
Theorem unresolved inc doc : inc <> [] -> ~ remote cc inc ->
  (findIncludeFile cc path E inc doc = None <-> Forall (fun c => ~ reachable path E c) (candidates path E inc doc)).
Proof. intros HN HR. rewrite find_local by auto. apply firstOf_none. Qed.
Theorem resolves_remote inc doc : remote cc inc -> findIncludeFile cc path E inc doc = Some inc.
Proof.
  intros R. unfold findIncludeFile. destruct inc as [|i inc].
  - exfalso. destruct R as [(a & b & H & Hm)|(a & b & H & Hm)]; destruct a; discriminate.
  - apply remote_spec in R. now rewrite R.
Qed.
Theorem never_missing inc doc u : ~ remote cc inc -> findIncludeFile cc path E inc doc = Some u ->
  exists p, asUrl E p = u /\ reachable path E p.
Proof.
  intros HR H. destruct inc as [|i inc]; [discriminate|].
  apply resolves in H; auto; [|discriminate]. destruct H as (c & (b & a & _ & R & _) & Hu). eauto.
Qed.

Lemma strip_quoted q s : strip (q :: s ++ [q]) = s.
Proof.
  unfold strip. cbn [skipn]. assert (L : (List.length (q :: s ++ [q]) - 2 = List.length s)%nat) by (cbn; rewrite app_length; cbn; lia).
  rewrite L, firstn_app, Nat.sub_diag, firstn_all. cbn. now rewrite app_nil_r.
Qed.
Lemma endsWithSlash_spec s : endsWithSlash s = true <-> exists t, s = t ++ [cSLASH].
Proof.
  unfold endsWithSlash. destruct s as [|c s] using rev_ind.
  - cbn. split; [discriminate|]. intros (t & H). destruct t; discriminate.
  - rewrite rev_unit. rewrite N.eqb_eq. split.
    + intros ->. eauto.
    + intros (t & H). apply app_inj_tail in H. tauto.
Qed.
Theorem node_literal q s doc : s <> str "." -> s <> str ".." -> (forall t, s <> t ++ [cSLASH]) ->
  getIncludeFileForNode cc path E (Some [SString (q :: s ++ [q])]) doc = findIncludeFile cc path E s doc.
Proof.
  intros H1 H2 H3. unfold getIncludeFileForNode. cbn [findCommonScalar fold_left]. rewrite strip_quoted.
  destruct (eqs s (str ".")) eqn:E1; [apply eqs_eq in E1; congruence|].
  destruct (eqs s (str "..")) eqn:E2; [apply eqs_eq in E2; congruence|].
  destruct (endsWithSlash s) eqn:E3; auto. apply endsWithSlash_spec in E3. destruct E3 as (t & Ht). exfalso. eapply H3; eauto.
Qed.
Theorem node_directory q s doc : s = str "." \/ s = str ".." \/ (exists t, s = t ++ [cSLASH]) ->
  getIncludeFileForNode cc path E (Some [SString (q :: s ++ [q])]) doc = None.
Proof.
  intros H. unfold getIncludeFileForNode. cbn [findCommonScalar fold_left]. rewrite strip_quoted.
  destruct H as [-> | [-> | H]]; auto. apply endsWithSlash_spec in H. rewrite H, !orb_true_r. reflexivity.
Qed.
End P.
