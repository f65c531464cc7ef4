(** Proofs for C18 (proof file). *)
From Verif Require Export CcmSpec.
Open Scope N_scope.

Definition find1 (l : list CItem) (id : N) : option CItem := find (fun i => N.eqb (ci_id i) id) l.
Definition ids (l : list CItem) : list N := map ci_id l.

Lemma valid_cons o s : valid (o :: s) = match o with Some i => [i] | None => [] end ++ valid s.
Proof. reflexivity. Qed.

Lemma find1_in l id i : NoDup (ids l) -> (find1 l id = Some i <-> In i l /\ ci_id i = id).
Proof.
  intros HN. split.
  - intros H. apply find_some in H as [H1 H2]. apply N.eqb_eq in H2. auto.
  - intros [Hin <-]. induction l as [|a l IH]; [destruct Hin|]. cbn. unfold ids in HN. cbn in HN. inversion HN as [|? ? Hn HN']; subst.
    destruct Hin as [->|Hin]; [now rewrite N.eqb_refl|].
    destruct (N.eqb_spec (ci_id a) (ci_id i)) as [E|E]; [exfalso; apply Hn; rewrite E; now apply in_map|]. now apply IH.
Qed.
Lemma find1_none l id : find1 l id = None <-> ~ In id (ids l).
Proof.
  unfold find1. split.
  - intros H Hin. apply in_map_iff in Hin as [i [<- Hin]]. eapply find_none in H; [|exact Hin]. cbn in H. rewrite N.eqb_refl in H. discriminate.
  - intros H. destruct (find _ l) eqn:E; auto. exfalso. apply find_some in E as [E1 E2]. apply N.eqb_eq in E2. apply H. rewrite <- E2. now apply in_map.
Qed.
Lemma find1_perm l l' id : NoDup (ids l) -> Permutation l l' -> find1 l' id = find1 l id.
Proof.
  intros HN HP. assert (HN' : NoDup (ids l')) by (unfold ids in *; eapply Permutation_NoDup; [apply Permutation_map; exact HP|exact HN]).
  destruct (find1 l id) as [i|] eqn:E.
  - apply find1_in in E; auto. apply find1_in; auto. destruct E as [E1 E2]. split; auto. eapply Permutation_in; eauto.
  - apply find1_none in E. apply find1_none. intros H. apply E. unfold ids in *. eapply Permutation_in; [|exact H].
    apply Permutation_map. now symmetry.
Qed.

(** Slots *)
Lemma indexOf_some s id n : indexOf s id = Some n -> exists i, nth_error s n = Some (Some i) /\ ci_id i = id /\ find1 (valid s) id = Some i.
Proof.
  revert n. induction s as [|[j|] s IH]; intros n; cbn [indexOf]; [discriminate| |].
  - destruct (N.eqb_spec (ci_id j) id) as [E|E].
    + intros H. injection H as <-. exists j. split; [reflexivity|]. split; auto. unfold find1. cbn. apply N.eqb_eq in E. now rewrite E.
    + destruct (indexOf s id) as [m|]; [|discriminate]. intros H. injection H as <-. destruct (IH m eq_refl) as (i & H1 & H2 & H3).
      exists i. split; auto. split; auto. unfold find1 in *. cbn. apply N.eqb_neq in E. now rewrite E.
  - destruct (indexOf s id) as [m|]; [|discriminate]. intros H. injection H as <-. destruct (IH m eq_refl) as (i & H1 & H2 & H3).
    exists i. split; auto.
Qed.
Lemma indexOf_none s id : indexOf s id = None -> find1 (valid s) id = None.
Proof.
  induction s as [|[j|] s IH]; cbn [indexOf]; [reflexivity| |].
  - destruct (N.eqb_spec (ci_id j) id) as [E|E]; [discriminate|]. destruct (indexOf s id); [discriminate|]. intros _.
    unfold find1 in *. cbn. apply N.eqb_neq in E. rewrite E. now apply IH.
  - destruct (indexOf s id); [discriminate|]. intros _. now apply IH.
Qed.

Lemma updSlot_valid s n f i : nth_error s n = Some (Some i) -> (forall j, ci_id (f j) = ci_id j) -> NoDup (ids (valid s)) ->
  ids (valid (updSlot s n f)) = ids (valid s) /\
  (forall id, find1 (valid (updSlot s n f)) id = if N.eqb id (ci_id i) then Some (f i) else find1 (valid s) id) /\
  nth_error (updSlot s n f) n = Some (Some (f i)).
Proof.
  intros Hn Hf. revert n Hn. induction s as [|o s IH]; intros n Hn HD; [destruct n; discriminate|].
  destruct n as [|n].
  - cbn in Hn. injection Hn as ->. cbn [updSlot option_map]. split; [|split].
    + unfold ids. rewrite !valid_cons. cbn. now rewrite Hf.
    + intros id. unfold find1. cbn. rewrite Hf, (N.eqb_sym (ci_id i) id); destruct (id =? ci_id i); reflexivity.
    + reflexivity.
  - cbn in Hn. cbn [updSlot].
    assert (HD' : NoDup (ids (valid s))).
    { unfold ids in HD. rewrite valid_cons, map_app in HD. destruct o; [cbn in HD; now inversion HD|exact HD]. }
    destruct (IH n Hn HD') as [I1 [I2 I3]]. split; [|split; [|exact I3]].
    + unfold ids in *. rewrite !valid_cons, !map_app. now rewrite I1.
    + intros id. rewrite !valid_cons. destruct o as [j|]; [|exact (I2 id)]. unfold find1 in *. cbn.
      destruct (N.eqb_spec (ci_id j) id) as [E|E]; [|exact (I2 id)].
      destruct (N.eqb_spec id (ci_id i)) as [E2|E2]; [|reflexivity]. exfalso.
      unfold ids in HD. rewrite valid_cons in HD. cbn in HD. inversion HD as [|? ? Hni _]; subst. apply Hni. rewrite E2.
      apply in_map. clear -Hn. revert n Hn. induction s as [|o s IH]; intros n Hn; [destruct n; discriminate|].
      rewrite valid_cons. apply in_or_app. destruct n; cbn in Hn; [injection Hn as ->; left; left; reflexivity|right; eauto].
Qed.

(** Repository *)
Definition fget (r : repo) (f : N) : option slots := findFile r f.
Lemma find_setFile_other r f s f' : f <> f' -> findFile (setFile r f s) f' = findFile r f'.
Proof.
  intros E. unfold findFile, setFile. induction r as [|[g t] r IH]; [reflexivity|]. cbn. destruct (N.eqb_spec g f) as [->|Hg]; cbn.
  - replace (f =? f') with false by (symmetry; now apply N.eqb_neq). exact IH.
  - destruct (N.eqb_spec g f'); [reflexivity|exact IH].
Qed.
Lemma find_setFile r f s f' : findFile r f <> None -> findFile (setFile r f s) f' = if N.eqb f f' then Some s else findFile r f'.
Proof.
  intros H. destruct (N.eqb_spec f f') as [<-|E]; [|now apply find_setFile_other].
  revert H. unfold findFile, setFile. induction r as [|[g t] r IH]; [cbn; congruence|]. cbn.
  destruct (N.eqb_spec g f) as [->|Hg]; cbn.
  - rewrite N.eqb_refl. reflexivity.
  - apply N.eqb_neq in Hg. rewrite Hg. exact IH.
Qed.
Lemma find_deleteFile r f f' : findFile (deleteFile r f) f' = if N.eqb f f' then None else findFile r f'.
Proof.
  unfold findFile, deleteFile. induction r as [|[g t] r IH]; [cbn; now destruct (f =? f')|]. cbn.
  destruct (N.eqb_spec g f) as [->|Hg]; cbn.
  - rewrite IH. destruct (N.eqb_spec f f'); reflexivity.
  - destruct (N.eqb_spec g f') as [->|E]; [destruct (N.eqb_spec f f'); [congruence|reflexivity]|exact IH].
Qed.
Lemma find_cons r f s f' : findFile ((f, s) :: r) f' = if N.eqb f f' then Some s else findFile r f'.
Proof. unfold findFile. cbn. destruct (f =? f'); reflexivity. Qed.

Section R.
Variable et : EmbTree.
Hypothesis ETOK : EmbTreeOk et.
Notation addItem := (addItem et).
Notation removeItem := (removeItem et).
Notation runOps := (runOps et).

Definition itemOf (f : CItem) := (ci_pretty f, ci_kind f, ci_ref f).
(** The state represents the map; counts are at most [b]. *)
Record Rep (r : repo) (m : cmap) (b : N) : Prop := {
  rep_nodup : forall f, NoDup (ids (listed r f));
  rep_map : forall f i, m f i = option_map itemOf (find1 (listed r f) i);
  rep_pos : forall f it, In it (listed r f) -> 0 < ci_ref it <= b /\ ci_id it <> 0
}.

Lemma rep_change r m b f s' v i r' :
  Rep r m b -> (forall f', findFile r' f' = if N.eqb f f' then s' else findFile r f') ->
  let l' := match s' with Some s => valid s | None => [] end in
  NoDup (ids l') -> (forall id, option_map itemOf (find1 l' id) = if N.eqb i id then v else option_map itemOf (find1 (listed r f) id)) ->
  (forall it, In it l' -> 0 < ci_ref it <= b + 1 /\ ci_id it <> 0) ->
  Rep r' (cput m f i v) (b + 1).
Proof.
  intros HR HF l' HN HM HP.
  assert (HL : forall f', listed r' f' = if N.eqb f f' then l' else listed r f').
  { intros f'. unfold listed. rewrite HF. destruct (f =? f'); reflexivity. }
  constructor.
  - intros f'. rewrite HL. destruct (f =? f'); [exact HN|apply (rep_nodup _ _ _ HR)].
  - intros f' id. rewrite HL. unfold cput. destruct (N.eqb_spec f f') as [<-|E]; cbn [andb].
    + rewrite HM. destruct (i =? id); [reflexivity|apply (rep_map _ _ _ HR)].
    + apply (rep_map _ _ _ HR).
  - intros f' it. rewrite HL. destruct (f =? f'); [apply HP|]. intros H. apply (rep_pos _ _ _ HR) in H. lia.
Qed.

Lemma rep_weak r m b : Rep r m b -> Rep r m (b + 1).
Proof. intros [A B C]. constructor; auto. intros f it H. apply C in H. lia. Qed.

Lemma uint32_id n : n < 2 ^ 32 -> uint32 n = n.
Proof. apply N.mod_small. Qed.
Lemma uint32_pred n : 0 < n -> n < 2 ^ 32 -> uint32 (n + (2 ^ 32 - 1)) = n - 1.
Proof.
  intros H1 H2. unfold uint32. replace (n + (2 ^ 32 - 1)) with ((n - 1) + 1 * 2 ^ 32) by lia.
  rewrite N.mod_add by discriminate. apply N.mod_small. lia.
Qed.

Lemma add_rep r m b f i p k : Rep r m b -> b + 1 < 2 ^ 32 -> Rep (addItem r f i p k) (mapOp m (Add f i p k)) (b + 1).
Proof.
  intros HR Hb. unfold CcmModel.addItem, mapOp. destruct (N.eqb_spec i 0) as [->|Hi]; [now apply rep_weak|].
  pose proof (rep_map _ _ _ HR f i) as HM. pose proof (rep_nodup _ _ _ HR f) as HN. pose proof (rep_pos _ _ _ HR f) as HP.
  unfold listed in HM, HN, HP. destruct (findFile r f) as [s|] eqn:EF.
  - destruct (indexOf s i) as [n|] eqn:EI.
    + destruct (indexOf_some _ _ _ EI) as (it & H1 & H2 & H3). rewrite H3 in HM. cbn in HM. rewrite HM.
      assert (Hin : In it (valid s)) by (apply find1_in in H3; tauto).
      set (g := fun i => _). destruct (updSlot_valid s n g it H1 ltac:(reflexivity) HN) as [U1 [U2 U3]].
      apply (rep_change r m b f (Some (updSlot s n g))); auto.
      * intros f'. apply find_setFile. congruence.
      * rewrite U1. exact HN.
      * intros id. rewrite U2, H2. unfold listed. rewrite EF, (N.eqb_sym i id). destruct (id =? i); [|reflexivity].
        cbn. unfold itemOf, g. cbn. rewrite uint32_id; [reflexivity|]. apply HP in Hin. lia.
      * intros j Hj.
        assert (Hj2 : find1 (valid (updSlot s n g)) (ci_id j) = Some j) by (apply find1_in; auto; rewrite U1; auto).
        rewrite U2 in Hj2. destruct (N.eqb_spec (ci_id j) (ci_id it)) as [E|E].
        -- injection Hj2 as <-. cbn. apply HP in Hin. rewrite uint32_id by lia. lia.
        -- apply find1_in in Hj2; auto. destruct Hj2 as [Hj2 _]. apply HP in Hj2. lia.
    + rewrite (indexOf_none _ _ EI) in HM. cbn in HM. rewrite HM.
      set (new := {| ci_id := i; ci_pretty := p; ci_ref := 1; ci_kind := k |}).
      set (s' := et_add et s new).
      pose proof (et_add_ok _ ETOK s new) as HPm. fold s' in HPm.
      assert (HN2 : NoDup (ids (new :: valid s))).
      { unfold ids. cbn. constructor; auto. apply find1_none. now apply indexOf_none. }
      assert (HR2 : forall r', (forall f', findFile r' f' = if f =? f' then Some s' else findFile r f') -> Rep r' (cput m f i (Some (p, k, 1))) (b + 1)).
      { intros r' Hr'. apply (rep_change r m b f (Some s')); auto.
        - unfold ids in *. eapply Permutation_NoDup; [apply Permutation_map; symmetry; exact HPm|exact HN2].
        - intros id. rewrite (find1_perm (new :: valid s) (valid s') id HN2 (Permutation_sym HPm)). unfold find1 at 1. cbn [find ci_id new].
          destruct (N.eqb_spec i id) as [<-|E]; [reflexivity|]. unfold listed. now rewrite EF.
        - intros it Hit. apply (Permutation_in _ HPm) in Hit. destruct Hit as [<-|Hit]; [cbn; split; [lia|auto]|]. apply HP in Hit. lia. }
      destruct (Nat.eqb (length s') (length s)).
      * apply HR2. intros f'. apply find_setFile. congruence.
      * apply HR2. intros f'. rewrite find_cons, find_deleteFile. destruct (f =? f'); reflexivity.
  - cbn in HM. rewrite HM. apply (rep_change r m b f (Some [Some {| ci_id := i; ci_pretty := p; ci_ref := 1; ci_kind := k |}])); auto.
    + intros f'. apply find_cons.
    + cbn. repeat constructor; auto.
    + intros id. unfold listed. rewrite EF. unfold find1. cbn. destruct (i =? id); reflexivity.
    + intros it [<-|[]]. cbn. split; [lia|auto].
Qed.

Lemma update_rep r m b f i p k : Rep r m b -> (i <> 0 -> m f i <> None) ->
  exists r', updateItem r f i p k = Some r' /\ Rep r' (mapOp m (Update f i p k)) (b + 1).
Proof.
  intros HR Hex. unfold updateItem, mapOp. 
  pose proof (rep_map _ _ _ HR f i) as HM. pose proof (rep_nodup _ _ _ HR f) as HN. pose proof (rep_pos _ _ _ HR f) as HP.
  destruct (N.eqb_spec i 0) as [->|Hi].
  { exists r. split; auto. destruct (find1 (listed r f) 0) as [it|] eqn:E.
    - apply find1_in in E; auto. destruct E as [E1 E2]. apply HP in E1. tauto.
    - cbn in HM. rewrite HM. now apply rep_weak. }
  specialize (Hex Hi). unfold listed in HM, HN, HP. destruct (findFile r f) as [s|] eqn:EF; [|cbn in HM; congruence].
  destruct (indexOf s i) as [n|] eqn:EI; [|rewrite (indexOf_none _ _ EI) in HM; cbn in HM; congruence].
  eexists. split; [reflexivity|].
  destruct (indexOf_some _ _ _ EI) as (it & H1 & H2 & H3). rewrite H3 in HM. cbn in HM. rewrite HM.
  assert (Hin : In it (valid s)) by (apply find1_in in H3; tauto).
  set (g := fun i => _). destruct (updSlot_valid s n g it H1 ltac:(reflexivity) HN) as [U1 [U2 U3]].
  apply (rep_change r m b f (Some (updSlot s n g))); auto.
  - intros f'. apply find_setFile. congruence.
  - rewrite U1. exact HN.
  - intros id. rewrite U2, H2. unfold listed. rewrite EF, (N.eqb_sym i id). destruct (id =? i); reflexivity.
  - intros j Hj.
    assert (Hj2 : find1 (valid (updSlot s n g)) (ci_id j) = Some j) by (apply find1_in; auto; rewrite U1; auto).
    rewrite U2 in Hj2. destruct (N.eqb_spec (ci_id j) (ci_id it)) as [E|E].
    + injection Hj2 as <-. cbn. apply HP in Hin. lia.
    + apply find1_in in Hj2; auto. destruct Hj2 as [Hj2 _]. apply HP in Hj2. lia.
Qed.

Lemma remove_rep r m b f i : Rep r m b -> b < 2 ^ 32 -> Rep (removeItem r f i) (mapOp m (Remove f i)) (b + 1).
Proof.
  intros HR Hb. unfold CcmModel.removeItem, mapOp.
  pose proof (rep_map _ _ _ HR f i) as HM. pose proof (rep_nodup _ _ _ HR f) as HN. pose proof (rep_pos _ _ _ HR f) as HP.
  destruct (N.eqb_spec i 0) as [->|Hi].
  { destruct (find1 (listed r f) 0) as [it|] eqn:E.
    - apply find1_in in E; auto. destruct E as [E1 E2]. apply HP in E1. tauto.
    - cbn in HM. rewrite HM. now apply rep_weak. }
  unfold listed in HM, HN, HP. destruct (findFile r f) as [s|] eqn:EF; [|cbn in HM; rewrite HM; now apply rep_weak].
  destruct (indexOf s i) as [n|] eqn:EI; [|rewrite (indexOf_none _ _ EI) in HM; cbn in HM; rewrite HM; now apply rep_weak].
  destruct (indexOf_some _ _ _ EI) as (it & H1 & H2 & H3). rewrite H3 in HM. cbn in HM. rewrite HM.
  assert (Hin : In it (valid s)) by (apply find1_in in H3; tauto). pose proof (HP _ Hin) as [Hpos _].
  set (g := fun i => _). destruct (updSlot_valid s n g it H1 ltac:(reflexivity) HN) as [U1 [U2 U3]].
  set (s1 := updSlot s n g) in *.
  assert (HRef : refAt s1 n = ci_ref it - 1).
  { unfold refAt. rewrite U3. cbn. apply uint32_pred; lia. }
  unfold itemOf. rewrite HRef. destruct (N.eqb_spec (ci_ref it) 1) as [E1|E1].
  - rewrite E1. change (1 - 1 =? 0) with true. cbv iota.
    pose proof (et_remove_ok _ ETOK s1 i) as HPm. set (s2 := et_remove et s1 i) in *.
    assert (HN1 : NoDup (ids (valid s1))) by (rewrite U1; exact HN).
    assert (HNf : NoDup (ids (filter (fun j => negb (ci_id j =? i)) (valid s1)))).
    { clear -HN1. induction (valid s1) as [|a l IH]; [constructor|]. unfold ids in HN1. cbn in *. inversion HN1 as [|? ? Hn HN']; subst.
      destruct (negb (ci_id a =? i)); [|now apply IH]. unfold ids. cbn. constructor; [|now apply IH].
      intros Hin. apply Hn. apply in_map_iff in Hin as [x [<- Hx]]. apply filter_In in Hx. apply in_map. tauto. }
    assert (HFf : forall id, find1 (filter (fun j => negb (ci_id j =? i)) (valid s1)) id = if i =? id then None else find1 (valid s) id).
    { intros id. destruct (N.eqb_spec i id) as [<-|E].
      - apply find1_none. intros H. apply in_map_iff in H as [x [Hx Hin']]. apply filter_In in Hin' as [_ Hin']. rewrite Hx, N.eqb_refl in Hin'. discriminate.
      - assert (F1 : find1 (filter (fun j => negb (ci_id j =? i)) (valid s1)) id = find1 (valid s1) id).
        { clear -E. unfold find1. induction (valid s1) as [|a l IH]; [reflexivity|]. cbn. destruct (N.eqb_spec (ci_id a) i) as [Ea|Ea]; cbn.
          - replace (ci_id a =? id) with false by (symmetry; apply N.eqb_neq; congruence). exact IH.
          - destruct (ci_id a =? id); [reflexivity|exact IH]. }
        rewrite F1, U2, H2. replace (id =? i) with false by (symmetry; apply N.eqb_neq; congruence). reflexivity. }
    assert (HPf : forall j, In j (filter (fun j => negb (ci_id j =? i)) (valid s1)) -> 0 < ci_ref j <= b + 1 /\ ci_id j <> 0).
    { intros j Hj. apply filter_In in Hj as [Hj Hne]. apply negb_true_iff, N.eqb_neq in Hne.
      assert (Hj2 : find1 (valid s1) (ci_id j) = Some j) by (apply find1_in; auto).
      rewrite U2, H2 in Hj2. replace (ci_id j =? i) with false in Hj2 by (symmetry; now apply N.eqb_neq).
      apply find1_in in Hj2; auto. destruct Hj2 as [Hj2 _]. apply HP in Hj2. lia. }
    assert (HR2 : forall r', (forall f', findFile r' f' = if f =? f' then Some s2 else findFile r f') -> Rep r' (cput m f i None) (b + 1)).
    { intros r' Hr'. apply (rep_change r m b f (Some s2)); auto.
      - unfold ids in *. eapply Permutation_NoDup; [apply Permutation_map; symmetry; exact HPm|exact HNf].
      - intros id. rewrite (find1_perm _ (valid s2) id HNf (Permutation_sym HPm)), HFf. unfold listed. rewrite EF. destruct (i =? id); reflexivity.
      - intros j Hj. apply (Permutation_in _ HPm) in Hj. now apply HPf. }
    destruct (Nat.eqb (length s2) (length s1)); [apply HR2; intros f'; apply find_setFile; congruence|].
    destruct (Nat.eqb_spec (length s2) 0) as [E0|E0].
    + assert (Es2 : s2 = []) by (destruct s2; [reflexivity|discriminate]).
      apply (rep_change r m b f None); auto.
      * intros f'. apply find_deleteFile.
      * constructor.
      * intros id. rewrite Es2 in HPm. cbn in HPm. apply Permutation_nil in HPm. specialize (HFf id). rewrite HPm in HFf.
        cbn [find1] in HFf. unfold find1 at 1. unfold listed. rewrite EF. cbn [find option_map]. unfold find1 at 1 in HFf. cbn [find] in HFf.
        destruct (i =? id); [reflexivity|]. rewrite <- HFf. reflexivity.
      * intros j [].
    + apply HR2. intros f'. rewrite find_cons, find_deleteFile. destruct (f =? f'); reflexivity.
  - replace (ci_ref it - 1 =? 0) with false by (symmetry; apply N.eqb_neq; lia).
    apply (rep_change r m b f (Some s1)); auto.
    + intros f'. apply find_setFile. congruence.
    + rewrite U1. exact HN.
    + intros id. rewrite U2, H2. unfold listed. rewrite EF, (N.eqb_sym i id). destruct (id =? i); [|reflexivity].
      cbn. unfold itemOf, g. cbn. rewrite uint32_pred by lia. reflexivity.
    + intros j Hj.
      assert (Hj2 : find1 (valid s1) (ci_id j) = Some j) by (apply find1_in; auto; rewrite U1; auto).
      rewrite U2 in Hj2. destruct (N.eqb_spec (ci_id j) (ci_id it)) as [E|E].
      * injection Hj2 as <-. cbn. rewrite uint32_pred by lia. pose proof (HP _ Hin). lia.
      * apply find1_in in Hj2; auto. destruct Hj2 as [Hj2 _]. apply HP in Hj2. lia.
Qed.

Lemma run_rep h : forall r m b, Rep r m b -> b + N.of_nat (length h) < 2 ^ 32 -> updatesListed m h ->
  exists r', runOps r h = Some r' /\ Rep r' (mapOps m h) (b + N.of_nat (length h)).
Proof.
  induction h as [|o h IH]; intros r m b HR Hb HU.
  - exists r. cbn. rewrite N.add_0_r. auto.
  - cbn [length] in Hb. rewrite Nat2N.inj_succ in Hb. destruct HU as [HU1 HU2]. cbn [CcmModel.runOps mapOps].
    assert (HS : exists r', runOp et r o = Some r' /\ Rep r' (mapOp m o) (b + 1)).
    { destruct o as [f i p k|f i p k|f i]; cbn [runOp].
      - eexists. split; [reflexivity|]. apply add_rep; auto. lia.
      - now apply update_rep.
      - eexists. split; [reflexivity|]. apply remove_rep; auto. lia. }
    destruct HS as [r' [-> HR']]. destruct (IH r' _ (b + 1) HR' ltac:(lia) HU2) as [r'' [E1 E2]].
    exists r''. split; auto. cbn [length]. rewrite Nat2N.inj_succ. replace (b + N.succ (N.of_nat (length h))) with (b + 1 + N.of_nat (length h)) by lia. exact E2.
Qed.

Lemma rep_init : Rep [] cempty 0.
Proof. constructor; [intros; constructor|reflexivity|intros f it []]. Qed.

Lemma index_map h : N.of_nat (length h) < 2 ^ 32 -> updatesListed cempty h ->
  exists r, runOps [] h = Some r /\ (forall f, NoDup (map ci_id (listed r f))) /\
    forall f i p k n, (In {| ci_id := i; ci_pretty := p; ci_ref := n; ci_kind := k |} (listed r f) <-> mapOps cempty h f i = Some (p, k, n)).
Proof.
  intros Hl HU. destruct (run_rep h [] cempty 0 rep_init ltac:(lia) HU) as [r [E HR]]. exists r. split; auto.
  split; [exact (rep_nodup _ _ _ HR)|]. intros f i p k n. rewrite (rep_map _ _ _ HR).
  pose proof (find1_in (listed r f) i {| ci_id := i; ci_pretty := p; ci_ref := n; ci_kind := k |} (rep_nodup _ _ _ HR f)) as HF.
  split.
  - intros H. rewrite (proj2 HF (conj H eq_refl)). reflexivity.
  - intros H. destruct (find1 (listed r f) i) as [[i' p' n' k']|] eqn:EF; [|discriminate]. injection H as -> -> ->.
    assert (i' = i) by (apply find1_in in EF; [cbn in EF; tauto|apply (rep_nodup _ _ _ HR)]). subst i'.
    now apply HF.
Qed.
End R.

Lemma map_balance h : forall m f i n, i <> 0 -> (match m f i with Some (_, _, c) => n = c /\ 0 < c | None => n = 0 end) ->
  match mapOps m h f i with Some (_, _, c) => balance f i n h = c /\ 0 < c | None => balance f i n h = 0 end.
Proof.
  induction h as [|o h IH]; intros m f i n Hi H; [exact H|]. cbn [mapOps balance].
  destruct o as [f' i' p k|f' i' p k|f' i']; cbn [mapOp]; apply IH; auto.
  - destruct (N.eqb_spec i' 0) as [->|Hi'].
    + replace (i =? 0) with false by (symmetry; now apply N.eqb_neq). rewrite andb_false_r. exact H.
    + destruct (N.eqb_spec f f') as [<-|Ef]; [destruct (N.eqb_spec i i') as [<-|Ei]|]; cbn [andb].
      * destruct (m f i) as [[[a b] c]|]; unfold cput; rewrite !N.eqb_refl; cbn; lia.
      * assert (E : (i' =? i) = false) by (apply N.eqb_neq; congruence).
        destruct (m f i') as [[[a b] c]|]; unfold cput; rewrite N.eqb_refl, E; exact H.
      * assert (E : (f' =? f) = false) by (apply N.eqb_neq; congruence).
        destruct (m f' i') as [[[a b] c]|]; unfold cput; rewrite E; exact H.
  - destruct (m f' i') as [[[a b] c]|] eqn:Em; [|exact H]. unfold cput.
    destruct (N.eqb_spec f' f) as [->|Ef]; [destruct (N.eqb_spec i' i) as [->|Ei]|]; cbn [andb]; try exact H. rewrite Em in H. exact H.
  - destruct (N.eqb_spec f f') as [<-|Ef]; [destruct (N.eqb_spec i i') as [<-|Ei]|]; cbn [andb].
    + destruct (m f i) as [[[a b] c]|] eqn:Em; [|rewrite Em; lia]. unfold cput. rewrite !N.eqb_refl. cbn [andb].
      destruct (N.eqb_spec c 1); cbn; lia.
    + assert (E : (i' =? i) = false) by (apply N.eqb_neq; congruence).
      destruct (m f i') as [[[a b] c]|]; [|exact H]; unfold cput; rewrite N.eqb_refl, E; exact H.
    + assert (E : (f' =? f) = false) by (apply N.eqb_neq; congruence).
      destruct (m f' i') as [[[a b] c]|]; [|exact H]; unfold cput; rewrite E; exact H.
Qed.

Lemma map_frame m o f i : ~ (match o with Add f' i' _ _ | Update f' i' _ _ | Remove f' i' => f' = f /\ i' = i end) -> mapOp m o f i = m f i.
Proof.
  intros H.
  assert (HC : forall f' i' v, ~ (f' = f /\ i' = i) -> cput m f' i' v f i = m f i).
  { intros f' i' v H'. unfold cput. destruct (N.eqb_spec f' f); destruct (N.eqb_spec i' i); cbn; tauto. }
  destruct o as [f' i' p k|f' i' p k|f' i']; cbn [mapOp].
  - destruct (i' =? 0); [reflexivity|]. destruct (m f' i') as [[[a b] c]|]; now apply HC.
  - destruct (m f' i') as [[[a b] c]|]; [now apply HC|reflexivity].
  - destruct (m f' i') as [[[a b] c]|]; [now apply HC|reflexivity].
Qed.

Lemma et0_ok_lemma : EmbTreeOk {|
  et_add := fun s i => s ++ [Some i];
  et_remove := fun s id => map (fun o => match o with Some i => if N.eqb (ci_id i) id then None else Some i | None => None end) s |}.
Proof.
  constructor; cbn [et_add et_remove].
  - intros s i. unfold valid. rewrite flat_map_app. cbn. symmetry. apply Permutation_cons_append.
  - intros s id. induction s as [|[i|] s IH]; cbn; auto. destruct (ci_id i =? id); cbn; auto.
Qed.
