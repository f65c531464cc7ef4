From Verif Require Import JobModel.

Lemma has_lor_r f g : has (N.lor f g) g = negb (N.eqb g 0).
Proof.
  unfold has. f_equal. destruct (N.eqb_spec g 0) as [->|H].
  - now rewrite N.land_0_r.
  - apply N.eqb_neq. intros X. apply H. apply N.bits_inj. intros i. rewrite N.bits_0.
    assert (Y := f_equal (fun x => N.testbit x i) X). cbn beta in Y. rewrite N.land_spec, N.lor_spec, N.bits_0 in Y.
    destruct (N.testbit f i), (N.testbit g i); cbn in Y; auto; discriminate.
Qed.
Lemma has_lor f g k : has (N.lor f g) k = has f k || has g k.
Proof.
  unfold has. rewrite N.land_lor_distr_l. rewrite <- negb_andb. f_equal.
  destruct (N.eqb_spec (N.land f k) 0) as [E|E], (N.eqb_spec (N.land g k) 0) as [E'|E']; cbn; try (rewrite E, E'; reflexivity);
    apply N.eqb_neq; intros X; apply N.lor_eq_0_iff in X; tauto.
Qed.

Lemma run_flagged f p m : has f Rescheduled = true -> requeued (run f p m) = None.
Proof.
  intros H. unfold run. rewrite H. cbn [negb andb].
  repeat match goal with |- context [if ?b then _ else _] => destruct b; auto end.
Qed.
Lemma run_requeued f p m f' p' : requeued (run f p m) = Some (f', p') ->
  has f Rescheduled = false /\ f' = N.lor (N.lor f VisibleDeclarationsAndContexts) Rescheduled /\
  p' = Z.min (p + 100) WorstPriority /\ parses m = true /\ (declUnresolved m = true \/ useUnresolved m = true).
Proof.
  intros H. assert (HF : has f Rescheduled = false).
  { destruct (has f Rescheduled) eqn:E; auto. now rewrite (run_flagged f p m E) in H. }
  split; auto. unfold run in H. rewrite HF in H. cbn [negb andb] in H.
  destruct (updateRequired m); cbn [negb] in H; [|discriminate].
  destruct (readable m); cbn [negb] in H; [|discriminate].
  destruct (abort1 m); [discriminate|]. destruct (parses m); [|discriminate].
  destruct (abort2 m); [discriminate|]. destruct (abort3 m); [discriminate|].
  match type of H with context [if ?b then Some _ else None] => destruct b eqn:U end.
  - assert (X : Some (N.lor (N.lor f VisibleDeclarationsAndContexts) Rescheduled, Z.min (p + 100) WorstPriority) = Some (f', p'))
      by (destruct (abort4 m); exact H).
    injection X as <- <-. split; auto. split; auto. split; auto.
    destruct (declUnresolved m); auto. right. destruct (useUnresolved m); auto. rewrite andb_false_r in U. discriminate.
  - destruct (abort4 m); discriminate.
Qed.
Theorem requeue_once f p m f' p' m' : requeued (run f p m) = Some (f', p') -> requeued (run f' p' m') = None.
Proof. intros H. apply run_requeued in H. destruct H as (_ & -> & _). apply run_flagged. now rewrite has_lor_r. Qed.

Theorem requeue_exact f p m : (exists q, requeued (run f p m) = Some q) <->
  has f Rescheduled = false /\ updateRequired m = true /\ readable m = true /\ parses m = true /\
  abort1 m = false /\ abort2 m = false /\ abort3 m = false /\
  (declUnresolved m = true \/
   (useUnresolved m = true /\ internal m = false /\
    (has f AllDeclarationsContextsAndUses = true \/ exists g, old m = Some g /\ has g AllDeclarationsContextsAndUses = true))).
Proof.
  assert (HM : forall g, has (N.land g AllDeclarationsContextsUsesAndAST) AllDeclarationsContextsAndUses = has g AllDeclarationsContextsAndUses).
  { intros g. unfold has. now rewrite <- N.land_assoc. }
  unfold run. destruct (has f Rescheduled); cbn [negb andb].
  { split; [|intros (H & _); discriminate]. intros (q & H). revert H.
    repeat match goal with |- context [if ?b then _ else _] => destruct b; try discriminate end. }
  destruct (updateRequired m); cbn [negb]; [|split; [intros (q & H); discriminate|intros (_ & H & _); discriminate]].
  destruct (readable m); cbn [negb]; [|split; [intros (q & H); discriminate|intros (_ & _ & H & _); discriminate]].
  destruct (abort1 m); [split; [intros (q & H); discriminate|intros (_ & _ & _ & _ & H & _); discriminate]|].
  destruct (parses m); [|split; [intros (q & H); discriminate|intros (_ & _ & _ & H & _); discriminate]].
  destruct (abort2 m); [split; [intros (q & H); discriminate|intros (_ & _ & _ & _ & _ & H & _); discriminate]|].
  destruct (abort3 m); [split; [intros (q & H); discriminate|intros (_ & _ & _ & _ & _ & _ & H & _); discriminate]|].
  rewrite HM.
  set (U := declUnresolved m || _).
  assert (HU : U = true <-> declUnresolved m = true \/ (useUnresolved m = true /\ internal m = false /\
    (has f AllDeclarationsContextsAndUses = true \/ exists g, old m = Some g /\ has g AllDeclarationsContextsAndUses = true))).
  { unfold U. destruct (old m) as [g|].
    - assert (G : (exists g', Some g = Some g' /\ has g' AllDeclarationsContextsAndUses = true) <-> has g AllDeclarationsContextsAndUses = true).
      { split; [intros (g' & E & X); now injection E as ->|eauto]. }
      rewrite G, has_lor. destruct (declUnresolved m), (internal m), (useUnresolved m), (has f AllDeclarationsContextsAndUses), (has g AllDeclarationsContextsAndUses);
        cbn; intuition discriminate.
    - assert (G : (exists g', @None N = Some g' /\ has g' AllDeclarationsContextsAndUses = true) <-> False).
      { split; [intros (g' & E & X); discriminate|tauto]. }
      rewrite G. destruct (declUnresolved m), (internal m), (useUnresolved m), (has f AllDeclarationsContextsAndUses); cbn; intuition discriminate. }
  destruct U.
  - split; [intros _; repeat split; auto; now apply HU|]. intros _. destruct (abort4 m); eexists; reflexivity.
  - split; [intros (q & H); destruct (abort4 m); discriminate|]. intros (_ & _ & _ & _ & _ & _ & _ & H). apply HU in H. discriminate.
Qed.

Theorem stored_spec f p m s i : stored (run f p m) = Some s ->
  N.testbit s i = N.testbit AllDeclarationsContextsUsesAndAST i &&
    (N.testbit f i || match old m with Some g => N.testbit g i | None => false end).
Proof.
  unfold run.
  repeat match goal with |- context [if ?b then _ else _] => destruct b; try discriminate end;
  cbn [stored]; intros H; injection H as <-; rewrite N.land_spec, andb_comm; f_equal; destruct (old m); rewrite ?N.lor_spec, ?orb_false_r; auto.
Qed.
Theorem stored_no_flags f p m s : stored (run f p m) = Some s -> N.land s (N.lnot AllDeclarationsContextsUsesAndAST 64) = 0%N /\ has s Rescheduled = false.
Proof.
  unfold run.
  repeat match goal with |- context [if ?b then _ else _] => destruct b; try discriminate end;
  cbn [stored]; intros H; injection H as <-; unfold has; rewrite <- !N.land_assoc; cbn; rewrite !N.land_0_r; auto.
Qed.

(** ** Histories *)
Definition flagged (o : option (N * Z)) : bool := match o with Some (f, _) => has f Rescheduled | None => true end.
Definition credit (o : option (N * Z)) : nat := if flagged o then 0 else 1.
Definition isRequest (e : Event) : bool := match e with Request _ _ => true | _ => false end.
Definition count (l : list bool) : nat := length (filter (fun b => b) l).

Lemma add_credit q f p : flagged (Some (f, p)) = true -> (credit (waiting (addDocument q f p)) <= credit (waiting q))%nat.
Proof.
  cbn [flagged]. intros H. unfold credit, flagged, addDocument. cbn [waiting]. destruct (waiting q) as [[f0 p0]|].
  - rewrite has_lor, H, orb_true_r. lia.
  - rewrite H. lia.
Qed.
Lemma add_any q f p : (credit (waiting (addDocument q f p)) <= S (credit (waiting q)))%nat.
Proof. unfold credit at 1. destruct (flagged _); lia. Qed.
Lemma step_credit q e q' b : step q e = (q', b) ->
  ((if b then 1 else 0) + credit (waiting q') + credit (running q') <=
   (if isRequest e then 1 else 0) + credit (waiting q) + credit (running q))%nat.
Proof.
  destruct e as [f p| |m]; cbn [step isRequest]; intros H.
  - injection H as <- <-. assert (X := add_any q f p). cbn [addDocument running]. lia.
  - destruct (waiting q) as [j|] eqn:Wq; [destruct (running q) as [k|] eqn:R|]; injection H as <- <-; cbn [waiting running]; rewrite ?Wq, ?R; change (credit None) with 0%nat; lia.
  - destruct (running q) as [[f p]|] eqn:R.
    + destruct (requeued (run f p m)) as [[f' p']|] eqn:Q.
      * injection H as <- <-. destruct (run_requeued _ _ _ _ _ Q) as (HF & -> & _).
        set (q0 := {| waiting := waiting q; running := None |}).
        assert (X := add_credit q0 (N.lor (N.lor f VisibleDeclarationsAndContexts) Rescheduled) p').
        assert (HC : credit (Some (f, p)) = 1%nat) by (unfold credit, flagged; now rewrite HF).
        specialize (X ltac:(cbn [flagged]; now rewrite has_lor_r)). cbn [addDocument running q0] in *.
        change (credit None) with 0%nat. rewrite HC. change (waiting q0) with (waiting q) in X. lia.
      * injection H as <- <-. cbn [waiting running]. change (credit None) with 0%nat. lia.
    + injection H as <- <-. rewrite R. change (credit None) with 0%nat. lia.
Qed.
Lemma history_credit l q q' bs : history q l = (q', bs) ->
  (count bs + credit (waiting q') + credit (running q') <= length (filter isRequest l) + credit (waiting q) + credit (running q))%nat.
Proof.
  revert q q' bs. induction l as [|e l IH]; intros q q' bs H; cbn [history] in H.
  - injection H as <- <-. cbn. lia.
  - destruct (step q e) as [q1 b] eqn:S. destruct (history q1 l) as [q2 bs'] eqn:Hh. injection H as <- <-.
    specialize (IH _ _ _ Hh). assert (X := step_credit _ _ _ _ S). unfold count in *. cbn [filter].
    destruct b, (isRequest e); cbn [length]; lia.
Qed.
Theorem requeues_bounded l q' bs : history idle l = (q', bs) -> (count bs <= length (filter isRequest l))%nat.
Proof. intros H. apply history_credit in H. cbn in H. lia. Qed.
Theorem quiet_without_requests l q q' bs : history q l = (q', bs) -> filter isRequest l = [] -> (count bs <= 2)%nat.
Proof.
  intros H E. apply history_credit in H. rewrite E in H. cbn [length] in H. unfold credit in H.
  destruct (flagged (waiting q)), (flagged (running q)); lia.
Qed.

Lemma stored_exact f p m : (exists s, stored (run f p m) = Some s) <->
  (has f Rescheduled = true \/ updateRequired m = true) /\ readable m = true /\ parses m = true /\
  abort1 m = false /\ abort2 m = false /\ abort3 m = false /\ abort4 m = false.
Proof.
  unfold run. destruct (has f Rescheduled), (updateRequired m), (readable m), (abort1 m), (parses m), (abort2 m), (abort3 m), (abort4 m); cbn;
  (split; [intros [s H]; try discriminate; intuition|intros H; try (eexists; reflexivity); exfalso; intuition discriminate]).
Qed.
Lemma ready_exact f p m : ready (run f p m) = true <->
  (has f Rescheduled = true \/ updateRequired m = true) /\ readable m = true /\ abort1 m = false /\
  (parses m = true -> abort2 m = false /\ abort3 m = false /\ abort4 m = false).
Proof.
  unfold run. destruct (has f Rescheduled), (updateRequired m), (readable m), (abort1 m), (parses m), (abort2 m), (abort3 m), (abort4 m); cbn;
  (split; [intros H; try discriminate; intuition discriminate|intros H; try reflexivity; exfalso; intuition discriminate]).
Qed.
