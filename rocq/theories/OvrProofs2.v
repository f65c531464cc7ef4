(** C71: where the typed modifiers start. *)
From Verif Require Import OvrSpec ComplModel ClsProofs HelpProofs HelpProofs2 HelpProofs3 HelpProofs4 OvrProofs.
Open Scope nat_scope.

(** ** All lists of different modifiers *)
Definition eqW (a b : Word) : bool := Nat.eqb (wordNum a) (wordNum b).
Lemma eqW_eq a b : eqW a b = true <-> a = b.
Proof. destruct a, b; cbn; split; intros H; try discriminate; reflexivity. Qed.
Fixpoint lists (fuel : nat) (avail : list Word) : list (list Word) :=
  match fuel with
  | 0 => [[]]
  | S f => [] :: flat_map (fun k => map (cons k) (lists f (filter (fun x => negb (eqW k x)) avail))) avail
  end.
Lemma in_lists fuel : forall ms avail, List.length ms <= fuel -> NoDup ms -> incl ms avail -> In ms (lists fuel avail).
Proof.
  induction fuel as [|f IH]; intros ms avail L ND I.
  - destruct ms; [left; reflexivity|cbn in L; lia].
  - destruct ms as [|k ms]; [left; reflexivity|]. right. apply in_flat_map. exists k. split; [apply I; left; reflexivity|].
    apply in_map. apply IH; [cbn in L; lia|now inversion ND|]. intros x Hx. apply filter_In. split; [apply I; right; exact Hx|].
    destruct (eqW k x) eqn:E; [|reflexivity]. apply eqW_eq in E. subst x. inversion ND; subst; contradiction.
Qed.
Fixpoint occurs (p s : qstring) : bool :=
  match s with [] => false | _ :: r => isPrefix p s || occurs p r end.
Definition together (mods : list Word) : qstring := flat_map wordText (rev mods).
Definition startsOnce (mods : list Word) : bool :=
  match rev mods with [] => true | k :: _ => negb (occurs (wordText k) (tl (together mods))) end.
Lemma all_once : forallb (fun ms => startsOnce ms && startsOnce (WFunction :: ms)) (lists 6 possibleTokens) = true.
Proof. vm_compute. reflexivity. Qed.
Lemma modifier_once ms : NoDup ms -> (forall k, In k ms -> isModifier k) -> startsOnce ms = true /\ startsOnce (WFunction :: ms) = true.
Proof.
  intros ND I. pose proof all_once as A. rewrite forallb_forall in A. specialize (A ms).
  assert (X : incl ms possibleTokens). { intros k Hk. apply I in Hk. unfold isModifier in Hk. cbn. intuition. }
  apply andb_true_iff, A, in_lists; [|exact ND|exact X].
  change 6 with (List.length possibleTokens). apply NoDup_incl_length; assumption.
Qed.

Section W.
Variable cc : CharClass.
Hypothesis OK : ascii_ok cc.
Hypothesis SP : spacesAreNoLetters cc.

Definition clean (s : qstring) : qstring := map (foldCase cc) (filter (fun c => negb (isSpace cc c)) s).
Lemma clean_app a b : clean (a ++ b) = clean a ++ clean b.
Proof using. unfold clean. rewrite filter_app, map_app. reflexivity. Qed.
Lemma clean_blank s : blank cc s -> clean s = [].
Proof using.
  intros B. unfold clean. induction s as [|c s IH]; [reflexivity|]. cbn. rewrite (B c (or_introl eq_refl)). cbn. apply IH. intros x Hx. apply B. now right.
Qed.
Lemma clean_word s k : spells cc s k -> clean s = wordText k.
Proof using OK SP.
  intros H. pose proof (proj1 (spells_lower cc OK s k) H) as E. rewrite <- E. unfold clean. f_equal.
  assert (N : forall c, In c s -> isSpace cc c = false) by (intros c; apply (spells_nospace cc OK SP s k c H)).
  clear - N. induction s as [|c s IH]; [reflexivity|]. cbn. rewrite (N c (or_introl eq_refl)). cbn. f_equal. apply IH. intros x Hx. apply N. now right.
Qed.
Lemma ends_clean text mods kept : endsIn cc text mods kept -> exists X, text = kept ++ X /\ clean X = together mods.
Proof using OK SP.
  induction 1 as [text|before s sp k ks rest HS HB _ (X & E & C)].
  - exists []. rewrite app_nil_r. auto.
  - exists (X ++ s ++ sp). split; [rewrite E at 1; now rewrite <- app_assoc|].
    rewrite !clean_app, C, (clean_word s k HS), (clean_blank sp HB), app_nil_r. unfold together. cbn [rev]. rewrite flat_map_app. cbn. now rewrite app_nil_r.
Qed.
Lemma ends_first text mods kept k ks : endsIn cc text mods kept -> rev mods = k :: ks ->
  exists s tail, text = kept ++ s ++ tail /\ spells cc s k.
Proof using.
  intros H. revert k ks. induction H as [text|before s sp k' ks' rest HS HB HE IH]; intros k ks E; [discriminate|].
  cbn in E. destruct (rev ks') as [|k0 ks0] eqn:R.
  - cbn in E. injection E as -> _. assert (ks' = []) by (rewrite <- (rev_involutive ks'), R; reflexivity). subst ks'.
    inversion HE; subst. exists s, sp. auto.
  - cbn in E. injection E as -> _. destruct (IH k ks0 eq_refl) as (s1 & tail & E1 & H1). exists s1, (tail ++ s ++ sp). split; [rewrite E1; now rewrite <- !app_assoc|exact H1].
Qed.
Lemma prefixCI_word s k r : spells cc s k -> isPrefixCI cc (wordText k) (s ++ r) = true.
Proof using.
  unfold spells. generalize (wordText k) as p. intros p. revert p. induction s as [|c s IH]; intros p H; destruct p as [|a p]; cbn in *; try discriminate; [destruct r; reflexivity|].
  injection H as H1 H2. rewrite H1, N.eqb_refl. cbn. apply IH. exact H2.
Qed.
Lemma prefixCI_clean p b : lowers p = true -> isPrefixCI cc p b = true -> isPrefix p (clean b) = true.
Proof using OK SP.
  revert b. induction p as [|a p IH]; intros b L H; [destruct (clean b); reflexivity|].
  destruct b as [|c b]; [discriminate|]. cbn in H, L. apply andb_true_iff in H. apply andb_true_iff in L. destruct H as [H1 H2], L as [L1 L2].
  apply N.eqb_eq in H1.
  assert (FA : foldCase cc a = a). { pose proof (lower_fold cc OK [a]) as F. cbn in F. rewrite L1 in F. specialize (F eq_refl). congruence. }
  rewrite FA in H1. assert (NS : isSpace cc c = false).
  { destruct (isSpace cc c) eqn:E; [|reflexivity]. apply SP in E. rewrite <- H1 in E. congruence. }
  unfold clean. cbn. rewrite NS. cbn. rewrite <- H1, N.eqb_refl. cbn. apply IH; assumption.
Qed.
Lemma occurs_app p a b : isPrefix p b = true -> p <> [] -> occurs p (a ++ b) = true.
Proof using.
  intros H N. induction a as [|c a IH]; cbn [app].
  - destruct b as [|c b]; [destruct p; [congruence|discriminate]|]. cbn [occurs]. rewrite H. reflexivity.
  - cbn [occurs]. rewrite IH. apply orb_true_r.
Qed.
Lemma last_at p a b : isPrefixCI cc p b = true -> b <> [] ->
  (forall a' b', tl b = a' ++ b' -> isPrefixCI cc p b' = false) -> lastIndexCI cc p (a ++ b) = Some (List.length a).
Proof using.
  intros H NE N. assert (Z : forall s, (forall a' b', s = a' ++ b' -> isPrefixCI cc p b' = false) -> lastIndexCI cc p s = None).
  { induction s as [|c s IH]; intros X; [reflexivity|]. cbn [lastIndexCI]. rewrite IH.
    - rewrite (X [] (c :: s) eq_refl). reflexivity.
    - intros a' b' ->. apply (X (c :: a') b'). reflexivity. }
  induction a as [|c a IH]; cbn [app List.length].
  - destruct b as [|c b]; [congruence|]. cbn [lastIndexCI]. rewrite (Z b N), H. reflexivity.
  - cbn [lastIndexCI]. rewrite IH. reflexivity.
Qed.

Lemma first_modifier pre mods kept k ks : typedBehind cc pre mods kept -> rev mods = k :: ks ->
  lastIndexCI cc (wordText k) pre = Some (List.length kept).
Proof using OK SP.
  intros [(ms & rest & _ & EM & I & ND & _) HE] R.
  assert (O : startsOnce mods = true). { destruct (modifier_once ms ND I) as [O1 O2]. destruct EM as [->|[-> _]]; assumption. }
  destruct (ends_clean _ _ _ HE) as (X & EX & CX). destruct (ends_first _ _ _ _ _ HE R) as (s & tail & EX2 & HS).
  rewrite EX in EX2. apply app_inv_head in EX2. subst X. rewrite EX. apply last_at.
  - apply prefixCI_word. exact HS.
  - destruct s; [exfalso; exact (spells_ne cc _ _ HS eq_refl)|discriminate].
  - intros a' b' E. destruct (isPrefixCI cc (wordText k) b') eqn:P; [exfalso|reflexivity].
    apply prefixCI_clean in P; [|apply word_lower]. unfold startsOnce in O. rewrite R in O.
    destruct s as [|c s]; [exact (spells_ne cc _ _ HS eq_refl)|].
    assert (NS : isSpace cc c = false) by (apply (spells_nospace cc OK SP _ _ c HS); now left).
    rewrite <- CX in O. cbn [app] in O, E. unfold clean in O at 1. cbn [filter] in O. rewrite NS in O. cbn [negb map tl] in O.
    cbn [tl] in E. change (map (foldCase cc) (filter (fun c => negb (isSpace cc c)) (s ++ tail))) with (clean (s ++ tail)) in O.
    rewrite E, clean_app, (occurs_app _ _ _ P (word_ne k)) in O. discriminate.
Qed.
End W.
