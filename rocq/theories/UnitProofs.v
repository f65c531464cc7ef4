(** Proofs for C44, C45 and C54. *)
From Verif Require Import Chars UnitModel UnitSpec.
From Coq Require Import Lia List Arith NArith ZArith.
Import ListNotations.

(** ** Notifications *)
Lemma times_app c a b : times c (a ++ b) = (times c a + times c b)%nat.
Proof. unfold times. apply count_occ_app. Qed.
Lemma notices_before l s : known s = false -> forallb (fun n => negb (declared n)) l = true ->
  let s' := fold_left updateReady l s in
  known s' = false /\ examined s' = examined s /\
  forall c, times c (pending s') = (times c (pending s) + received c l)%nat.
Proof.
  revert s. induction l as [|n l IH]; intros s Hk Hl.
  - cbn. repeat split; auto; intros; unfold received; cbn; lia.
  - cbn [forallb] in Hl. apply andb_true_iff in Hl as [Hn Hl]. cbn [fold_left].
    assert (Hk' : known (updateReady s n) = false).
    { destruct n as [|[]|d]; cbn in *; try discriminate; auto. rewrite Hk. auto. }
    destruct (IH _ Hk' Hl) as (A & B & C). split; [exact A|]. split.
    + rewrite B. destruct n as [|[]|d]; cbn in *; try discriminate; auto. rewrite Hk. auto.
    + intros c. rewrite C. destruct n as [|[]|d]; cbn [declared negb] in Hn; try discriminate; try (cbn; unfold received; cbn; lia).
      cbn [updateReady]. rewrite Hk. cbn [pending]. rewrite times_app. unfold received, times. cbn [filter count_occ].
      destruct (Nat.eq_dec d c) as [->|Hd]; [rewrite Nat.eqb_refl; cbn [List.length]; lia|].
      destruct (Nat.eqb_spec c d); [congruence|]. lia.
Qed.
Lemma notices_after l s : known s = true ->
  let s' := fold_left updateReady l s in
  known s' = true /\ pending s' = pending s /\
  forall c, times c (examined s') =
    (times c (examined s) + times c (pending s) * List.length (filter declared l) + received c l)%nat.
Proof.
  revert s. induction l as [|n l IH]; intros s Hk.
  - cbn. repeat split; auto; intros; unfold received; cbn; lia.
  - cbn [fold_left].
    assert (Hk' : known (updateReady s n) = true).
    { destruct n as [|[]|d]; cbn in *; auto. rewrite Hk. auto. }
    destruct (IH _ Hk') as (A & B & C). split; [exact A|]. split.
    + rewrite B. destruct n as [|[]|d]; cbn in *; auto. rewrite Hk. auto.
    + intros c. rewrite C. destruct n as [|[]|d]; try (cbn; unfold received; cbn; lia).
      * cbn [updateReady pending examined filter declared List.length]. rewrite times_app. unfold received. cbn [filter]. lia.
      * cbn [updateReady]. rewrite Hk. cbn [pending examined filter declared]. rewrite times_app. unfold received, times. cbn [filter count_occ].
      destruct (Nat.eq_dec d c) as [->|Hd]; [rewrite Nat.eqb_refl; cbn [List.length]; lia|].
      destruct (Nat.eqb_spec c d); [congruence|]. lia.
Qed.
Lemma C44_nothing_before_l l : forallb (fun n => negb (declared n)) l = true -> examined (notices l) = [].
Proof. intros H. destruct (notices_before l fresh eq_refl H) as (_ & B & _). exact B. Qed.
Lemma C44_count_l pre post c :
  forallb (fun n => negb (declared n)) pre = true ->
  times c (examined (notices (pre ++ NDeclarations true :: post))) =
  (received c pre * (1 + List.length (filter declared post)) + received c post)%nat.
Proof.
  intros H. unfold notices. rewrite fold_left_app. cbn [fold_left].
  destruct (notices_before pre fresh eq_refl H) as (A & B & C). set (s := fold_left updateReady pre fresh) in *.
  destruct (notices_after post (updateReady s (NDeclarations true)) eq_refl) as (_ & _ & F). rewrite F.
  cbn [updateReady pending examined]. rewrite times_app, B, C. change (pending fresh) with (@nil nat). change (examined fresh) with (@nil nat).
  unfold times. cbn [count_occ]. lia.
Qed.
Lemma received_app c a b : received c (a ++ b) = (received c a + received c b)%nat.
Proof. unfold received. rewrite filter_app, app_length. lia. Qed.
Lemma C44_once_l pre post c :
  forallb (fun n => negb (declared n)) pre = true -> forallb (fun n => negb (declared n)) post = true ->
  times c (examined (notices (pre ++ NDeclarations true :: post))) = received c (pre ++ NDeclarations true :: post).
Proof.
  intros H1 H2. rewrite C44_count_l by auto. rewrite received_app.
  assert (E : filter declared post = []).
  { clear -H2. induction post as [|n l IH]; [reflexivity|]. cbn in *. apply andb_true_iff in H2 as [A B].
    destruct (declared n); [discriminate|]. auto. }
  rewrite E. unfold received at 4. cbn [filter]. fold (received c post). cbn [List.length]. lia.
Qed.

(** ** Suites *)
Lemma testMethods_cases c : testMethods (cMembers c) (testCases c).
Proof.
  unfold testCases. induction (cMembers c) as [|[b n] r IH]; [constructor|]. cbn [filter].
  unfold isTestName at 1. cbn [fst snd]. destruct b.
  - cbn [andb]. destruct (startsWith (str "test") n) eqn:E.
    + apply startsWith_spec in E as [t ->]. cbn [map snd]. constructor. exact IH.
    + constructor; [|exact IH]. intros [_ (t & Ht)]. cbn [snd] in Ht.
      assert (startsWith (str "test") n = true) by (apply startsWith_spec; eauto). congruence.
  - cbn [andb]. constructor; [|exact IH]. intros [X _]. discriminate.
Qed.
Lemma testMethods_fun m l1 : testMethods m l1 -> forall l2, testMethods m l2 -> l1 = l2.
Proof.
  induction 1 as [|t r l H IH|m r l Hn H IH]; intros l2 H2.
  - inversion H2. reflexivity.
  - inversion H2 as [|t' r' l' H2' E|m' r' l' Hn' H2' E]; subst; [f_equal; auto|].
    exfalso. apply Hn'. split; [reflexivity|]. exists t. reflexivity.
  - inversion H2 as [|t' r' l' H2' E|m' r' l' Hn' H2' E]; subst; [|auto].
    exfalso. apply Hn. split; [reflexivity|]. exists t'. reflexivity.
Qed.
Section S.
Variable inh : Class -> list Class.
Lemma proc_sound fuel : forall c n l, In (n, l) (processTestCase inh fuel c) ->
  exists d, reaches inh c d /\ runnable d l /\ cNo d = n.
Proof.
  induction fuel as [|f IH]; intros c n l H; [destruct H|]. cbn [processTestCase] in H.
  destruct (cProject c) eqn:HP; cbn [negb] in H; [|destruct H].
  destruct (cIsClass c) eqn:HC; cbn [negb] in H; [|destruct H].
  assert (Hd : (forall l, ~ runnable c l) -> In (n, l) (flat_map (processTestCase inh f) (inh c)) ->
     exists d, reaches inh c d /\ runnable d l /\ cNo d = n).
  { intros Hr Hi. apply in_flat_map in Hi as (x & Hx & Hi). apply IH in Hi as (d & Hd & R).
    exists d. split; [|exact R]. econstructor; eauto. }
  pose proof (testMethods_cases c) as Hm.
  destruct (cAbstract c) eqn:HA.
  - apply Hd; auto. intros l' (_ & A & _). congruence.
  - destruct (testCases c) as [|t ts] eqn:Ht.
    + apply Hd; auto. intros l' (_ & _ & _ & M & N). apply N. eapply testMethods_fun; eauto.
    + destruct H as [H|[]]. injection H as <- <-. exists c. split; [constructor|]. split; [|reflexivity].
      repeat split; auto. discriminate.
Qed.
Lemma proc_complete c d : reaches inh c d -> forall l, runnable d l ->
  exists f0, forall fuel, (f0 <= fuel)%nat -> In (cNo d, l) (processTestCase inh fuel c).
Proof.
  induction 1 as [c|c x d HP HC HR Hx H IH]; intros l R.
  - exists 1%nat. intros fuel Hf. destruct fuel as [|f]; [lia|]. cbn [processTestCase].
    destruct R as (A & B & C & D & E). rewrite A, B, C. cbn [negb].
    rewrite (testMethods_fun _ _ (testMethods_cases c) _ D). destruct l; [contradiction|]. left. reflexivity.
  - destruct (IH _ R) as (f0 & Hf0). exists (S f0). intros fuel Hf. destruct fuel as [|f]; [lia|]. cbn [processTestCase].
    rewrite HP, HC. cbn [negb].
    assert (Hi : In (cNo d, l) (flat_map (processTestCase inh f) (inh c))).
    { apply in_flat_map. exists x. split; [exact Hx|]. apply Hf0. lia. }
    destruct (cAbstract c) eqn:HA; [exact Hi|].
    destruct (testCases c) as [|t ts] eqn:Ht; [exact Hi|]. exfalso. apply (HR (testCases c)). rewrite Ht.
    repeat split; auto; [|discriminate]. rewrite <- Ht. apply testMethods_cases.
Qed.
Lemma C54_sound_l fuel decls n l : In (n, l) (processContext inh fuel decls) ->
  exists c d, In c decls /\ cIsClass c = true /\ cAbstract c = false /\ cHasCtx c = true /\ cIsTest c = true /\
    reaches inh c d /\ runnable d l /\ cNo d = n.
Proof.
  intros H. apply in_flat_map in H as (c & Hc & H).
  destruct (cIsClass c) eqn:A; cbn [negb orb] in H; [|destruct H].
  destruct (cAbstract c) eqn:B; cbn [negb orb] in H; [destruct H|].
  destruct (cHasCtx c) eqn:C; cbn [negb orb] in H; [|destruct H].
  destruct (cIsTest c) eqn:D; [|destruct H].
  apply proc_sound in H as (d & R). exists c, d. intuition.
Qed.
Lemma C54_complete_l decls c d l : In c decls -> cIsClass c = true -> cAbstract c = false -> cHasCtx c = true -> cIsTest c = true ->
  reaches inh c d -> runnable d l ->
  exists f0, forall fuel, (f0 <= fuel)%nat -> In (cNo d, l) (processContext inh fuel decls).
Proof.
  intros Hc A B C D R1 R2. destruct (proc_complete _ _ R1 _ R2) as (f0 & Hf). exists f0. intros fuel H.
  apply in_flat_map. exists c. split; [exact Hc|]. rewrite A, B, C, D. cbn [negb orb]. auto.
Qed.
End S.

(** ** Results *)
Section R.
Variable cc : CharClass.
Lemma findMark_some line mark rest : findMark cc line = Some (mark, rest) ->
  exists before r, line = before ++ rest /\ rest = cLBRACKET :: mark :: cRBRACKET :: r /\ isMark cc mark /\
   (forall b1 x b2, line = b1 ++ cLBRACKET :: x :: cRBRACKET :: b2 -> isMark cc x -> (List.length before <= List.length b1)%nat).
Proof.
  induction line as [|a line IH]; [discriminate|]. cbn [findMark].
  destruct line as [|b [|c line]]; try discriminate.
  destruct ((a =? cLBRACKET) && ((b =? 120) || isSpace cc b) && (c =? cRBRACKET)) eqn:E.
  - intros X. injection X as <- <-. apply andb_true_iff in E as [E E3]. apply andb_true_iff in E as [E1 E2].
    apply N.eqb_eq in E1, E3. subst. exists [], line. split; [reflexivity|]. split; [reflexivity|]. split.
    + apply orb_true_iff in E2 as [E2|E2]; [left; apply N.eqb_eq; exact E2|right; exact E2].
    + intros; cbn; lia.
  - intros X. apply IH in X as (before & r & A & B & C & D). exists (a :: before), r.
    split; [cbn; f_equal; exact A|]. split; [exact B|]. split; [exact C|].
    intros b1 x b2 Hx M. destruct b1 as [|z b1].
    + cbn in Hx. injection Hx as -> -> -> ->. exfalso.
      assert (((cLBRACKET =? cLBRACKET) && ((x =? 120) || isSpace cc x) && (cRBRACKET =? cRBRACKET)) = true).
      { rewrite !N.eqb_refl. destruct M as [->|M]; [reflexivity|]. rewrite M, orb_true_r. reflexivity. }
      congruence.
    + cbn in Hx. injection Hx as -> Hx. specialize (D _ _ _ Hx M). cbn. lia.
Qed.
Lemma findMark_none line : findMark cc line = None ->
  forall b1 x b2, line = b1 ++ cLBRACKET :: x :: cRBRACKET :: b2 -> ~ isMark cc x.
Proof.
  induction line as [|a line IH]; intros H b1 x b2 E M; [destruct b1; discriminate|]. cbn [findMark] in H.
  destruct b1 as [|z b1].
  - cbn in E. injection E as -> ->. 
    rewrite !N.eqb_refl in H. destruct M as [->|M]; [discriminate|]. rewrite M, orb_true_r in H. discriminate.
  - cbn in E. injection E as -> E. 
    assert (H' : findMark cc line = None).
    { subst. destruct b1 as [|y [|w b1]]; cbn [app] in *;
      destruct (_ && _) in H; try discriminate; exact H. }
    exact (IH H' _ _ _ E M).
Qed.
Lemma marked_iff line mark title : marked cc line mark title <->
  exists rest, findMark cc line = Some (mark, rest) /\ title = skipn 4 rest.
Proof.
  split.
  - intros (before & r & -> & -> & M & F). destruct (findMark cc _) as [[m' rest]|] eqn:E.
    + destruct (findMark_some _ _ _ E) as (b' & r' & A & B & M' & F').
      assert (L : List.length before = List.length b').
      { apply Nat.le_antisymm; [eapply F|eapply F']; eauto. rewrite A, B. reflexivity. }
      rewrite B in A. 
      assert (before = b' /\ cLBRACKET :: mark :: cRBRACKET :: r = cLBRACKET :: m' :: cRBRACKET :: r') as [-> X].
      { clear -A L. revert b' A L. induction before as [|z b IH]; intros [|z' b'] A L; cbn in *; try lia; [auto|].
        injection A as -> A. destruct (IH b' A) as [-> X]; [lia|]. auto. }
      injection X as -> ->. subst rest. eexists. split; [reflexivity|]. reflexivity.
    + exfalso. eapply findMark_none; eauto.
  - intros (rest & E & ->). destruct (findMark_some _ _ _ E) as (b & r & A & B & M & F). exists b, r.
    subst rest. split; [exact A|]. split; [reflexivity|]. auto.
Qed.
Lemma existsb_ci cases t : existsb (fun c => eqsCI cc t c) cases = true <-> exists c, In c cases /\ eqsCI cc t c = true.
Proof. rewrite existsb_exists. reflexivity. Qed.
Lemma oneLine_reports cases m line name mark : reports cc cases line name mark ->
  oneLine cc cases m line = (name, if mark =? 120 then Passed else Failed) :: filter (fun e => negb (eqs (fst e) name)) m.
Proof.
  intros (title & M & -> & C). apply marked_iff in M as (rest & E & ->). unfold oneLine. rewrite E.
  unfold caseName. apply existsb_ci in C. unfold nameOf in C. rewrite C. reflexivity.
Qed.
Lemma oneLine_cases cases m line : (exists name mark, reports cc cases line name mark) \/
  (oneLine cc cases m line = m /\ forall name mark, ~ reports cc cases line name mark).
Proof.
  unfold oneLine. destruct (findMark cc line) as [[mark rest]|] eqn:E.
  - destruct (existsb _ cases) eqn:X.
    + left. exists (caseName cc rest), mark. exists (skipn 4 rest). split; [apply marked_iff; eauto|]. split; [reflexivity|].
      apply existsb_ci. exact X.
    + right. split; [reflexivity|]. intros name mk (title & M & -> & C). apply marked_iff in M as (rest' & E' & ->).
      rewrite E in E'. injection E' as -> ->. apply existsb_ci in C. unfold caseName in X. unfold nameOf in C. congruence.
  - right. split; [reflexivity|]. intros name mk (title & M & _). apply marked_iff in M as (rest' & E' & _). congruence.
Qed.
Lemma reports_fun cases line n1 k1 n2 k2 : reports cc cases line n1 k1 -> reports cc cases line n2 k2 -> n1 = n2 /\ k1 = k2.
Proof.
  intros (t1 & M1 & -> & _) (t2 & M2 & -> & _). apply marked_iff in M1 as (r1 & E1 & ->). apply marked_iff in M2 as (r2 & E2 & ->).
  rewrite E1 in E2. injection E2 as -> ->. auto.
Qed.
Lemma eqs_refl a : eqs a a = true. Proof. apply eqs_eq. reflexivity. Qed.
Lemma lookup_filter k n m : k <> n -> lookup k (filter (fun e => negb (eqs (fst e) n)) m) = lookup k m.
Proof.
  intros H. induction m as [|[a v] m IH]; [reflexivity|]. cbn [filter fst lookup].
  destruct (eqs a n) eqn:E; cbn [negb].
  - apply eqs_eq in E. subst. destruct (eqs k n) eqn:E'; [apply eqs_eq in E'; congruence|]. exact IH.
  - cbn [lookup]. destruct (eqs k a); [reflexivity|exact IH].
Qed.
Lemma rows_snoc cases m lines line : rowsInserted cc cases m (lines ++ [line]) = oneLine cc cases (rowsInserted cc cases m lines) line.
Proof. unfold rowsInserted. rewrite fold_left_app. reflexivity. Qed.
Definition resOf (mark : N) : Res := if mark =? 120 then Passed else Failed.
Lemma lastReport_snoc cases lines line name mark :
  lastReport cc cases (lines ++ [line]) name mark <->
  reports cc cases line name mark \/ (lastReport cc cases lines name mark /\ forall k, ~ reports cc cases line name k).
Proof.
  split.
  - intros (b & x & a & E & R & F). destruct (rev a) as [|y ra] eqn:Ea.
    + assert (a = []) by (rewrite <- (rev_involutive a), Ea; reflexivity). subst a.
      apply app_inj_tail in E as [_ ->]. auto.
    + assert (Ha : a = rev ra ++ [y]) by (rewrite <- (rev_involutive a), Ea; reflexivity). subst a.
      change (b ++ x :: rev ra ++ [y]) with (b ++ (x :: rev ra) ++ [y]) in E. rewrite app_assoc in E.
      apply app_inj_tail in E as [-> ->]. apply Forall_app in F as [F1 F2]. right. split.
      * exists b, x, (rev ra). auto.
      * inversion F2; auto.
  - intros [R|[(b & x & a & -> & R & F) N]].
    + exists lines, line, []. auto.
    + exists b, x, (a ++ [line]). split; [rewrite <- app_assoc; reflexivity|]. split; [exact R|].
      apply Forall_app. split; auto.
Qed.
Lemma lookup_last cases lines name r :
  lookup name (rowsInserted cc cases [] lines) = Some r <-> exists mark, lastReport cc cases lines name mark /\ r = resOf mark.
Proof.
  induction lines as [|line lines IH] using rev_ind.
  - cbn. split; [discriminate|]. intros (mk & (b & x & a & E & _) & _). destruct b; discriminate.
  - rewrite rows_snoc. destruct (oneLine_cases cases (rowsInserted cc cases [] lines) line) as [(n & k & R)|[E N]].
    + rewrite (oneLine_reports _ _ _ _ _ R). cbn [lookup]. destruct (eqs name n) eqn:En.
      * apply eqs_eq in En. subst n. split.
        { intros X. injection X as <-. exists k. split; [apply lastReport_snoc; auto|reflexivity]. }
        { intros (mk & L & ->). apply lastReport_snoc in L as [L|[_ L]].
          - destruct (reports_fun _ _ _ _ _ _ R L) as [_ ->]. reflexivity.
          - exfalso. eapply L; eauto. }
      * assert (Hn : name <> n) by (intros ->; rewrite eqs_refl in En; discriminate).
        rewrite lookup_filter by auto. rewrite IH. split; intros (mk & L & ->); exists mk; split; auto.
        { apply lastReport_snoc. right. split; [exact L|]. intros k' R'. destruct (reports_fun _ _ _ _ _ _ R R'). congruence. }
        { apply lastReport_snoc in L as [L|[L _]]; [|exact L]. destruct (reports_fun _ _ _ _ _ _ R L). congruence. }
    + rewrite E, IH. split; intros (mk & L & ->); exists mk; split; auto.
      * apply lastReport_snoc. right. split; auto.
      * apply lastReport_snoc in L as [L|[L _]]; [|exact L]. exfalso. eapply N; eauto.
Qed.
Lemma keys_nodup cases lines : NoDup (map fst (rowsInserted cc cases [] lines)).
Proof.
  induction lines as [|line lines IH] using rev_ind; [constructor|].
  rewrite rows_snoc. destruct (oneLine_cases cases (rowsInserted cc cases [] lines) line) as [(n & k & R)|[E N]]; [|rewrite E; exact IH].
  rewrite (oneLine_reports _ _ _ _ _ R). cbn [map fst].
  remember (rowsInserted cc cases [] lines) as m. clear -IH. constructor.
  - intros H. apply in_map_iff in H as (e & He & Hi). apply filter_In in Hi as [_ Hi]. rewrite He, eqs_refl in Hi. discriminate.
  - induction m as [|e m IHm]; [constructor|]. cbn [map] in IH. inversion IH as [|a b H1 H2]; subst. cbn [filter].
    destruct (negb (eqs (fst e) n)); [|auto]. cbn [map]. constructor; [|auto].
    intros H. apply H1. apply in_map_iff in H as (x & Hx & Hi). apply filter_In in Hi as [Hi _]. rewrite <- Hx. apply in_map. exact Hi.
Qed.
Lemma lookup_in m k r : NoDup (map fst m) -> In (k, r) m -> lookup k m = Some r.
Proof.
  induction m as [|[a v] m IH]; intros N H; [destruct H|]. cbn [map fst] in N. inversion N as [|x y N1 N2]; subst.
  cbn [lookup]. destruct H as [H|H].
  - injection H as -> ->. rewrite eqs_refl. reflexivity.
  - destruct (eqs k a) eqn:E; [|auto]. apply eqs_eq in E. subst. exfalso. apply N1.
    change a with (fst (a, r)). apply in_map. exact H.
Qed.
Lemma in_lookup m k r : lookup k m = Some r -> In (k, r) m.
Proof.
  induction m as [|[a v] m IH]; [discriminate|]. cbn [lookup]. destruct (eqs k a) eqn:E.
  - apply eqs_eq in E. intros X. injection X as ->. subst. left. reflexivity.
  - intros X. right. auto.
Qed.
Lemma C45_case_passed_l cases lines name :
  lookup name (rowsInserted cc cases [] lines) = Some Passed <-> lastReport cc cases lines name 120.
Proof.
  rewrite lookup_last. split.
  - intros (mk & L & E). unfold resOf in E. destruct (N.eqb_spec mk 120); [subst; exact L|discriminate].
  - intros L. exists 120. split; [exact L|reflexivity].
Qed.
Lemma C45_case_failed_l cases lines name :
  lookup name (rowsInserted cc cases [] lines) = Some Failed <-> exists mark, mark <> 120 /\ lastReport cc cases lines name mark.
Proof.
  rewrite lookup_last. split.
  - intros (mk & L & E). unfold resOf in E. destruct (N.eqb_spec mk 120); [discriminate|]. eauto.
  - intros (mk & N & L). exists mk. split; [exact L|]. unfold resOf. destruct (N.eqb_spec mk 120); [contradiction|reflexivity].
Qed.
Lemma C45_case_none_l cases lines name :
  lookup name (rowsInserted cc cases [] lines) = None <-> Forall (fun l => forall k, ~ reports cc cases l name k) lines.
Proof.
  split.
  - intros H. induction lines as [|line lines IH] using rev_ind; [constructor|].
    rewrite rows_snoc in H. apply Forall_app.
    destruct (oneLine_cases cases (rowsInserted cc cases [] lines) line) as [(n & k & R)|[E N]].
    + rewrite (oneLine_reports _ _ _ _ _ R) in H. cbn [lookup] in H. destruct (eqs name n) eqn:En; [discriminate|].
      assert (Hn : name <> n) by (intros ->; rewrite eqs_refl in En; discriminate).
      rewrite lookup_filter in H by auto. split; [auto|]. constructor; [|constructor].
      intros k' R'. destruct (reports_fun _ _ _ _ _ _ R R'). congruence.
    + rewrite E in H. split; [auto|]. constructor; [|constructor]. intros k. apply N.
  - intros F. destruct (lookup _ _) as [r|] eqn:E; [|reflexivity]. apply lookup_last in E as (mk & (b & x & a & -> & R & _) & _).
    apply Forall_app in F as [_ F]. inversion F as [|? ? F1 F2]; subst. exfalso. eapply F1; eauto.
Qed.
Lemma C45_suite_l cases lines error :
  let r := processFinished error (rowsInserted cc cases [] lines) in
  (r = Failed <-> error = 1%Z \/ (error = 0%Z /\ exists name mark, mark <> 120 /\ lastReport cc cases lines name mark)) /\
  (r = Error <-> error <> 0%Z /\ error <> 1%Z) /\
  (r = Passed <-> error = 0%Z /\ forall name mark, lastReport cc cases lines name mark -> mark = 120).
Proof.
  cbv zeta. unfold processFinished. destruct (Z.eqb_spec error 1) as [->|H1].
  - repeat split; try discriminate; try lia; auto.
  - destruct (Z.eqb_spec error 0) as [->|H0].
    + destruct (existsb _ _) eqn:E.
      * assert (X : exists name mark, mark <> 120 /\ lastReport cc cases lines name mark).
        { apply existsb_exists in E as ([k r] & Hi & Hr). cbn in Hr. destruct r; try discriminate.
          exists k. apply C45_case_failed_l. apply lookup_in; [apply keys_nodup|exact Hi]. }
        split; [split; auto|]. split; [split; [discriminate|lia]|]. split; [discriminate|].
        intros [_ F]. destruct X as (n & mk & N & L). exfalso. apply N. eapply F; eauto.
      * assert (X : forall name mark, lastReport cc cases lines name mark -> mark = 120).
        { intros name mark L. destruct (N.eq_dec mark 120) as [|N]; [assumption|].
          assert (lookup name (rowsInserted cc cases [] lines) = Some Failed) by (apply C45_case_failed_l; eauto).
          apply in_lookup in H. assert (existsb (fun e : qstring * Res => match snd e with Failed => true | _ => false end) (rowsInserted cc cases [] lines) = true).
          { apply existsb_exists. eexists. split; [exact H|reflexivity]. }
          congruence. }
        split; [split; [discriminate|]|]. 
        { intros [?|(_ & n & mk & N & L)]; [lia|]. exfalso. apply N. eapply X; eauto. }
        split; [split; [discriminate|lia]|]. split; auto.
    + split; [split; [discriminate|intros [?|[? _]]; lia]|]. split; [split; auto|]. split; [discriminate|intros [? _]; lia].
Qed.
End R.
