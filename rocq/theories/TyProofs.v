(** Proofs for C50. *)
From Verif Require Import Chars TyModel TySpec.

Lemma sameFrom_eq a b : sameFrom a b = true <-> a = b.
Proof.
  revert b. induction a as [|x a IH]; intros [|y b]; cbn; try (split; [discriminate|discriminate]); [tauto|].
  destruct (N.eqb_spec y x) as [->|H]; cbn [negb].
  - rewrite IH. split; [intros ->; reflexivity|intros X; injection X; auto].
  - split; [discriminate|]. intros X. injection X as X _. congruence.
Qed.
Lemma equals_same a b : equals a b = true <-> same a b.
Proof.
  split.
  - intros H. destruct a as [m d|m k i p|m k i p v], b as [m' d'|m' k' i' p'|m' k' i' p' v']; cbn in H; try discriminate.
    + unfold abstractEquals in H. cbn in H. destruct (N.eqb_spec d d'), (N.eqb_spec m m'); cbn in H; try discriminate. subst. constructor.
    + unfold structEquals, abstractEquals in H. cbn in H.
      destruct (N.eqb_spec k k'), (N.eqb_spec i i'), (N.eqb_spec m m'); cbn in H; try discriminate. subst. constructor.
    + unfold structEquals, abstractEquals in H. cbn in H. rewrite ?andb_false_r in H. discriminate.
    + unfold structEquals, abstractEquals in H. cbn in H. rewrite ?andb_false_r in H. discriminate.
    + unfold structEquals, abstractEquals in H. cbn in H.
      destruct (N.eqb_spec k k'), (N.eqb_spec i i'), (N.eqb_spec m m'); cbn in H; try discriminate. subst.
      destruct (List.length v =? List.length v')%nat; cbn in H; [|discriminate]. apply sameFrom_eq in H. subst. constructor.
  - intros H. destruct H; cbn; unfold structEquals, abstractEquals; cbn; rewrite ?N.eqb_refl; cbn; rewrite ?N.eqb_refl; [reflexivity|reflexivity|].
    rewrite Nat.eqb_refl. cbn. apply sameFrom_eq. reflexivity.
Qed.
Lemma setNth_spec l n x k : (n < List.length l)%nat -> nth_error (setNth l n x) k = if (k =? n)%nat then Some x else nth_error l k.
Proof.
  revert n k. induction l as [|y l IH]; intros n k H; [cbn in H; lia|]. destruct n as [|n], k as [|k]; cbn; try reflexivity.
  cbn in H. rewrite IH by lia. reflexivity.
Qed.
Lemma setNth_length l n x : List.length (setNth l n x) = List.length l.
Proof. revert n. induction l as [|y l IH]; intros [|n]; cbn; auto. Qed.
Lemma shown_spec nameOf l i : shown nameOf i l =
  map nameOf (firstn (5 - i) l) ++ (if (5 - i <? List.length l)%nat then [str "..."] else []).
Proof.
  revert i. induction l as [|v l IH]; intros i; [rewrite firstn_nil; cbn; destruct (5 - i)%nat; reflexivity|]. cbn [shown].
  destruct (Nat.leb_spec 5 i).
  - replace (5 - i)%nat with O by lia. reflexivity.
  - destruct (5 - i)%nat as [|m] eqn:E; [lia|]. cbn [firstn map List.length app]. rewrite IH. replace (5 - S i)%nat with m by lia. reflexivity.
Qed.
