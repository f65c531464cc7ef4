From Coq Require Import List Bool Arith Lia.
From Verif Require Import NamedModel NamedSpec NamedProofs NamedProofs2 NamedProofs3 NamedProofs4.
Import ListNotations.
Open Scope nat_scope.

Lemma walk_only known n x : In (asUse x) (walk known n) -> In x (written n).
Proof. exact (proj2 (only_names known (S n)) x). Qed.
Lemma walk_found known n x : In x (written n) -> ~ Missed n x -> In (asUse x) (walk known n).
Proof. intros I M. destruct (found_all known (S n) x I) as [H|H]; [exact H|contradiction]. Qed.
Lemma walk_null known n : In Null (walk known n) -> exists m, Within (S n) (E m) /\
  ((exists i a, m = NewStatic None i a) \/ (exists e i, m = InstanceOfStatic e None i)).
Proof.
  intros H. destruct (proj2 (nulls known (S n)) H) as [(i & a & W)|(e & i & W)]; eexists; (split; [exact W|]); eauto.
Qed.
Lemma walk_once known n : NoDup (written n) -> single known n -> NoDup (walk known n).
Proof.
  intros N P. apply (NoDup_count_occ event_dec). intros e. destruct e as [p k|].
  - pose proof (once_all known (S n) P (p, k)) as H. eapply Nat.le_trans; [exact H|].
    unfold noted, times. apply NoDup_count_occ. clear - N. induction N; [constructor|]. cbn [map]. constructor; [|assumption].
    intros K. apply in_map_iff in K. destruct K as (y & K & J). apply H. rewrite <- (used_inj _ _ K). exact J.
  - assert (Z : ~ In Null (walk known n)).
    { intros H. destruct P as [_ B C _ _ _]. destruct (walk_null known n H) as (m & W & [(i & a & ->)|(e & i & ->)]); [exact (B _ _ _ W)|exact (C _ _ _ W)]. }
    apply (count_occ_not_In event_dec) in Z. rewrite Z. lia.
Qed.
Lemma within_inv n m : Within n m -> n = m \/ exists k, In k (children n) /\ Within k m.
Proof. intros H. destruct H as [n|n k m I W]; [left; reflexivity|right; exists k; split; assumption]. Qed.
Lemma direct_inv n m : Direct n m -> n = m \/ exists k, In (S k) (children (S n)) /\ Direct k m.
Proof. intros H. destruct H as [n|n k m I W]; [left; reflexivity|right; exists k; split; assumption]. Qed.
