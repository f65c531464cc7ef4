From Verif Require Import HelpSpec ComplModel ClsProofs.
Open Scope nat_scope.

(** ** C39 *)
Section Words.
Variable cc : CharClass.
Hypothesis OK : ascii_ok cc.
Hypothesis SP : spacesAreNoLetters cc.

Definition lowers (w : qstring) : bool := forallb asciiLowerLetter w.
Lemma word_lower k : lowers (wordText k) = true.
Proof using. destruct k; reflexivity. Qed.
Lemma lower_fold w : lowers w = true -> map (foldCase cc) w = w.
Proof using OK.
  induction w as [|c w IH]; [reflexivity|]. cbn. intros H. apply andb_true_iff in H. destruct H as [H1 H2].
  rewrite (IH H2). f_equal. unfold asciiLowerLetter in H1. rewrite (ok_fold cc OK) by lia.
  unfold asciiToLower, asciiUpper. replace ((65 <=? c)%N && (c <=? 90)%N) with false by lia. reflexivity.
Qed.
Lemma spells_lower s k : spells cc s k <-> map (foldCase cc) s = wordText k.
Proof using OK. unfold spells. rewrite (lower_fold (wordText k) (word_lower k)). reflexivity. Qed.
Lemma spells_len s k : spells cc s k -> List.length s = List.length (wordText k).
Proof using. intros H. apply (f_equal (@List.length N)) in H. rewrite !map_length in H. exact H. Qed.
Lemma spells_nospace s k c : spells cc s k -> In c s -> isSpace cc c = false.
Proof using OK SP.
  intros H Hc. apply spells_lower in H. destruct (isSpace cc c) eqn:E; [|reflexivity]. apply SP in E.
  assert (In (foldCase cc c) (wordText k)) by (rewrite <- H; apply in_map; exact Hc).
  pose proof (word_lower k) as L. unfold lowers in L. rewrite forallb_forall in L. rewrite (L _ H0) in E. discriminate.
Qed.
Lemma word_ne k : wordText k <> [].
Proof using. destruct k; discriminate. Qed.
Lemma spells_ne s k : spells cc s k -> s <> [].
Proof using. intros H ->. unfold spells in H. cbn in H. destruct k; discriminate H. Qed.

Lemma trimLeft_split s : exists l, s = l ++ trimLeft cc s /\ blank cc l.
Proof using.
  induction s as [|c s IH]; [exists []; split; [reflexivity|intros ? []]|]. cbn.
  destruct (isSpace cc c) eqn:E.
  - destruct IH as (l & H1 & H2). exists (c :: l). cbn. (split; [congruence|]). intros x [<-|Hx]; auto.
  - exists []. (split; [reflexivity|]). intros ? [].
Qed.
Lemma trimLeft_blank l s : blank cc l -> trimLeft cc (l ++ s) = trimLeft cc s.
Proof using.
  induction l as [|c l IH]; intros B; [reflexivity|]. cbn. rewrite (B c (or_introl eq_refl)). apply IH.
  intros x Hx. apply B. now right.
Qed.
Lemma trimLeft_stop c s : isSpace cc c = false -> trimLeft cc (c :: s) = c :: s.
Proof using. intros H. cbn. rewrite H. reflexivity. Qed.
Lemma trimLeft_app a c s : isSpace cc c = false -> trimLeft cc (a ++ c :: s) = trimLeft cc a ++ c :: s.
Proof using.
  intros H. induction a as [|x a IH]; cbn [app]; [rewrite trimLeft_stop by exact H; reflexivity|].
  cbn. destruct (isSpace cc x); [exact IH|reflexivity].
Qed.
Lemma blank_rev s : blank cc s -> blank cc (rev s).
Proof using. intros B c H. apply B. apply in_rev. exact H. Qed.

(** Trimming a text that ends in a word leaves the word. *)
Lemma trimmed_word before s sp k : spells cc s k -> blank cc sp ->
  trimmed cc (before ++ s ++ sp) = trimLeft cc before ++ s.
Proof using OK SP.
  intros H B. unfold trimmed.
  assert (E : trimLeft cc (before ++ s ++ sp) = trimLeft cc before ++ s ++ sp).
  { destruct s as [|c s']; [exfalso; exact (spells_ne _ _ H eq_refl)|]. cbn [app].
    apply trimLeft_app. apply (spells_nospace _ _ _ H). now left. }
  rewrite E, !rev_app_distr, <- app_assoc, trimLeft_blank by (apply blank_rev; exact B).
  destruct (rev s) as [|c r] eqn:ER.
  { exfalso. apply (spells_ne _ _ H). rewrite <- (rev_involutive s), ER. reflexivity. }
  cbn [app]. rewrite trimLeft_stop.
  - cbn [rev]. change (rev ((c :: r) ++ rev (trimLeft cc before)) = trimLeft cc before ++ s).
    rewrite rev_app_distr, rev_involutive, <- ER, rev_involutive. reflexivity.
  - apply (spells_nospace s k); [exact H|]. apply in_rev. rewrite ER. now left.
Qed.
Lemma trimmed_split s : exists l r, s = l ++ trimmed cc s ++ r /\ blank cc l /\ blank cc r.
Proof using.
  destruct (trimLeft_split s) as (l & H1 & B1). destruct (trimLeft_split (rev (trimLeft cc s))) as (r & H2 & B2).
  exists l, (rev r). split; [|split; [exact B1|apply blank_rev; exact B2]].
  unfold trimmed. rewrite <- rev_app_distr, <- H2, rev_involutive. exact H1.
Qed.

Lemma endsWithCI_iff text k : endsWithCI cc text (wordText k) = true <->
  exists s, spells cc s k /\ text = chop text (List.length (wordText k)) ++ s.
Proof using.
  unfold endsWithCI, chop. rewrite andb_true_iff, Nat.leb_le, eqs_eq. split.
  - intros [L E]. exists (skipn (List.length text - List.length (wordText k)) text). (split; [exact E|]).
    symmetry. apply firstn_skipn.
  - intros (s & H & E). pose proof (spells_len s k H) as L.
    assert (L2 : List.length text = List.length text - List.length (wordText k) + List.length s).
    { apply (f_equal (@List.length N)) in E. rewrite app_length, firstn_length in E. lia. }
    assert (L3 : List.length (wordText k) <= List.length text) by lia. (split; [exact L3|]).
    assert (E2 : skipn (List.length text - List.length (wordText k)) text = s).
    { apply (app_inv_head (firstn (List.length text - List.length (wordText k)) text)).
      rewrite firstn_skipn. exact E. }
    rewrite E2. exact H.
Qed.

Definition ends (text : qstring) (k : Word) : Prop := exists r, endsIn cc text [k] r.
Lemma ends_iff text k : ends text k <-> exists before s sp, text = before ++ s ++ sp /\ spells cc s k /\ blank cc sp.
Proof using.
  split.
  - intros (r & H). inversion H; subst. eauto 8.
  - intros (before & s & sp & -> & H & B). exists before. econstructor; eauto. constructor.
Qed.
Lemma trimmed_ends text k : endsWithCI cc (trimmed cc text) (wordText k) = true <-> ends text k.
Proof using OK SP.
  rewrite endsWithCI_iff, ends_iff. split.
  - intros (s & H & E). destruct (trimmed_split text) as (l & r & ET & B1 & B2).
    exists (l ++ chop (trimmed cc text) (List.length (wordText k))), s, r.
    split; [|split; [exact H|exact B2]].
    rewrite ET at 1. rewrite E at 1. rewrite <- !app_assoc. reflexivity.
  - intros (before & s & sp & -> & H & B). rewrite (trimmed_word before s sp k H B). exists s. (split; [exact H|]).
    f_equal. unfold chop. rewrite <- (spells_len s k H), app_length, Nat.add_sub. 
    rewrite firstn_app, Nat.sub_diag, firstn_all. cbn. rewrite app_nil_r. reflexivity.
Qed.
Lemma trimmed_chop before s sp k : spells cc s k -> blank cc sp ->
  chop (trimmed cc (before ++ s ++ sp)) (List.length (wordText k)) = trimLeft cc before.
Proof using OK SP.
  intros H B. rewrite (trimmed_word before s sp k H B). unfold chop.
  rewrite <- (spells_len s k H), app_length, Nat.add_sub, firstn_app, Nat.sub_diag, firstn_all. cbn.
  apply app_nil_r.
Qed.

(** Which word a text ends in is determined. *)
Fixpoint compat (a b : qstring) : bool :=
  match a, b with x :: a, y :: b => N.eqb x y && compat a b | _, _ => true end.
Lemma compat_app a b x y : a ++ x = b ++ y -> compat a b = true.
Proof using.
  revert b. induction a as [|c a IH]; intros [|d b] H; try reflexivity. cbn in *. injection H as -> H.
  rewrite N.eqb_refl. exact (IH b H).
Qed.
Lemma words_distinct k1 k2 : compat (rev (wordText k1)) (rev (wordText k2)) = true -> k1 = k2.
Proof using. destruct k1, k2; vm_compute; intros H; try reflexivity; discriminate H. Qed.
Lemma ends_unique b1 s1 sp1 k1 b2 s2 sp2 k2 : b1 ++ s1 ++ sp1 = b2 ++ s2 ++ sp2 ->
  spells cc s1 k1 -> spells cc s2 k2 -> blank cc sp1 -> blank cc sp2 -> k1 = k2 /\ b1 = b2.
Proof using OK SP.
  intros E H1 H2 B1 B2. apply (f_equal (@rev N)) in E. rewrite !rev_app_distr, <- !app_assoc in E.
  apply (f_equal (trimLeft cc)) in E. rewrite (trimLeft_blank (rev sp1)), (trimLeft_blank (rev sp2)) in E by (apply blank_rev; assumption).
  assert (G : forall s k b, spells cc s k -> trimLeft cc (rev s ++ b) = rev s ++ b).
  { intros s k b H. destruct (rev s) as [|c r] eqn:ER.
    - exfalso. apply (spells_ne _ _ H). rewrite <- (rev_involutive s), ER. reflexivity.
    - cbn [app]. apply trimLeft_stop. apply (spells_nospace s k); [exact H|]. apply in_rev. rewrite ER. now left. }
  rewrite (G s1 k1), (G s2 k2) in E by assumption.
  assert (K : k1 = k2).
  { apply words_distinct. apply spells_lower in H1, H2. rewrite <- H1, <- H2, <- !map_rev.
    apply (compat_app _ _ (map (foldCase cc) (rev b1)) (map (foldCase cc) (rev b2))). rewrite <- !map_app, E. reflexivity. }
  (split; [exact K|]). subst k2. apply spells_len in H1, H2.
  assert (L : List.length (rev s1) = List.length (rev s2)) by (rewrite !rev_length; congruence).
  assert (E2 : rev b1 = rev b2).
  { revert E L. clear. generalize (rev s1), (rev s2). intros u. induction u as [|c u IH]; intros [|d v] E L; cbn in *; try discriminate; auto.
    injection E as _ E. injection L as L. eauto. }
  rewrite <- (rev_involutive b1), E2. apply rev_involutive.
Qed.

(** Leading white space does not matter. *)
Lemma ends_blank l text k : blank cc l -> (ends (l ++ text) k <-> ends text k).
Proof using OK SP.
  intros B. rewrite <- !trimmed_ends. unfold trimmed. rewrite trimLeft_blank by exact B. reflexivity.
Qed.
Lemma endsIn_prefix l text ks rest : endsIn cc text ks rest -> endsIn cc (l ++ text) ks (l ++ rest).
Proof using.
  intros H. revert l. induction H; intros l; [constructor|]. rewrite app_assoc. econstructor; eauto.
Qed.

Lemma removeWord_in k x l : In x (removeWord k l) <-> In x l /\ x <> k.
Proof using.
  unfold removeWord. rewrite filter_In, negb_true_iff, Nat.eqb_neq. split.
  - intros [H1 H2]. split; [exact H1|]. intros ->. congruence.
  - intros [H1 H2]. split; [exact H1|]. intros E. apply H2. destruct k, x; try discriminate E; reflexivity.
Qed.
Lemma filter_le {A} (p : A -> bool) l : List.length (filter p l) <= List.length l.
Proof using. clear. induction l as [|x l IH]; cbn; [lia|]. destruct (p x); cbn; lia. Qed.
Lemma removeWord_len k l : In k l -> S (List.length (removeWord k l)) <= List.length l.
Proof using.
  clear OK SP. unfold removeWord. induction l as [|x l IH]; intros H; [contradiction|]. cbn.
  destruct H as [->|H].
  - rewrite Nat.eqb_refl. cbn. pose proof (filter_le (fun x => negb (Nat.eqb (wordNum k) (wordNum x))) l). lia.
  - specialize (IH H). destruct (negb _); cbn; lia.
Qed.

(** The loop: what it returns is at the end of the text, and no other possible word is. *)
Lemma loop_spec : forall fuel text possible, List.length possible <= fuel ->
  exists rest, endsIn cc text (modifierLoop cc fuel text possible) rest /\
    NoDup (modifierLoop cc fuel text possible) /\ incl (modifierLoop cc fuel text possible) possible /\
    forall k, In k possible -> ~ In k (modifierLoop cc fuel text possible) -> ~ ends rest k.
Proof using OK SP.
  induction fuel as [|fuel IH]; intros text possible L.
  - destruct possible; [|cbn in L; lia]. exists text. (split; [constructor|]). (split; [constructor|]).
    split; [intros ? []|intros ? []].
  - cbn [modifierLoop]. destruct (find _ possible) as [k|] eqn:F.
    + apply find_some in F. destruct F as [Hk He]. apply trimmed_ends in He. apply ends_iff in He.
      destruct He as (before & s & sp & -> & H & B). rewrite (trimmed_chop before s sp k H B).
      destruct (IH (trimLeft cc before) (removeWord k possible)) as (rest & E & ND & I & M).
      { pose proof (removeWord_len k possible Hk). lia. }
      destruct (trimLeft_split before) as (l & EB & BL).
      exists (l ++ rest). split; [|split; [|split]].
      * econstructor; [exact H|exact B|]. rewrite EB at 1. apply endsIn_prefix. exact E.
      * constructor; [|exact ND]. intros X. apply I in X. apply removeWord_in in X. destruct X as [_ X]. congruence.
      * intros x [<-|Hx]; [exact Hk|]. apply I in Hx. apply removeWord_in in Hx. apply Hx.
      * intros x Hx Hn. rewrite ends_blank by exact BL. apply M.
        -- apply removeWord_in. (split; [exact Hx|]). intros ->. apply Hn. now left.
        -- intros X. apply Hn. now right.
    + exists text. (split; [constructor|]). (split; [constructor|]). (split; [intros ? []|]).
      intros k Hk _ He. apply trimmed_ends in He. pose proof (find_none _ _ F k Hk) as X. cbn in X. congruence.
Qed.

Lemma possible_iff k : In k possibleTokens <-> isModifier k.
Proof using. unfold possibleTokens, isModifier. cbn. intuition (subst; auto). Qed.

Lemma tokens_sound text : modifiersBefore cc text (getMethodTokens cc text).
Proof using OK SP.
  unfold getMethodTokens. destruct (endsWithCI cc (trimmed cc text) (wordText WFunction)) eqn:EF.
  - apply trimmed_ends, ends_iff in EF. destruct EF as (before & s & sp & -> & H & B).
    change 8 with (List.length (wordText WFunction)). rewrite (trimmed_chop before s sp _ H B).
    destruct (loop_spec 6 (trimLeft cc before) possibleTokens) as (rest & E & ND & I & M); [cbn; lia|].
    destruct (trimLeft_split before) as (l & EB & BL).
    exists (modifierLoop cc 6 (trimLeft cc before) possibleTokens), (l ++ rest). split; [|split; [|split; [|split]]].
    + econstructor; [exact H|exact B|]. rewrite EB at 1. apply endsIn_prefix. exact E.
    + left. reflexivity.
    + intros k Hk. apply possible_iff, I. exact Hk.
    + exact ND.
    + intros k Hk Hn. change (~ ends (l ++ rest) k). rewrite ends_blank by exact BL. apply M; [apply possible_iff; exact Hk|exact Hn].
  - assert (ET : modifierLoop cc 6 (trimmed cc text) possibleTokens = modifierLoop cc 6 text possibleTokens).
    { assert (TT : trimmed cc (trimmed cc text) = trimmed cc text).
      { clear EF. unfold trimmed. set (t := trimLeft cc text).
        assert (Ht : trimLeft cc t = t).
        { unfold t. clear t. induction text as [|c s IH]; [reflexivity|]. cbn. destruct (isSpace cc c) eqn:E; [exact IH|].
          cbn. rewrite E. reflexivity. }
        assert (Hi : forall u, trimLeft cc (trimLeft cc u) = trimLeft cc u).
        { induction u as [|c u IH]; [reflexivity|]. cbn. destruct (isSpace cc c) eqn:E; [exact IH|].
          cbn. rewrite E. reflexivity. }
        assert (HL : trimLeft cc (rev (trimLeft cc (rev t))) = rev (trimLeft cc (rev t))).
        { destruct (trimLeft_split (rev t)) as (l & E1 & B1). apply (f_equal (@rev N)) in E1.
          rewrite rev_involutive, rev_app_distr in E1.
          destruct (rev (trimLeft cc (rev t))) as [|c u] eqn:E2; [reflexivity|].
          rewrite E1 in Ht. cbn in Ht |- *. destruct (isSpace cc c) eqn:E3; [|reflexivity]. exfalso.
          assert (LL : forall v, List.length (trimLeft cc v) <= List.length v).
          { clear. induction v as [|d v IH]; cbn; [lia|]. destruct (isSpace cc d); cbn; lia. }
          pose proof (LL (u ++ rev l)) as X. rewrite Ht in X. cbn in X. lia. }
        rewrite HL. rewrite rev_involutive, Hi. reflexivity. }
      cbn [modifierLoop]. rewrite TT. reflexivity. }
    rewrite ET. destruct (loop_spec 6 text possibleTokens) as (rest & E & ND & I & M); [cbn; lia|].
    exists (modifierLoop cc 6 text possibleTokens), rest. (split; [exact E|]). split; [|split; [|split; [exact ND|]]].
    + right. (split; [reflexivity|]). intros X. apply trimmed_ends in X. congruence.
    + intros k Hk. apply possible_iff, I. exact Hk.
    + intros k Hk Hn. apply M; [apply possible_iff; exact Hk|exact Hn].
Qed.

Lemma mods_unique : forall ms1 text ms2 r1 r2 (avail : Word -> Prop),
  endsIn cc text ms1 r1 -> endsIn cc text ms2 r2 -> NoDup ms1 -> NoDup ms2 ->
  (forall k, In k ms1 -> avail k) -> (forall k, In k ms2 -> avail k) ->
  (forall k, avail k -> ~ In k ms1 -> ~ ends r1 k) -> (forall k, avail k -> ~ In k ms2 -> ~ ends r2 k) ->
  ms1 = ms2.
Proof using OK SP.
  induction ms1 as [|k1 ms1 IH]; intros text ms2 r1 r2 avail E1 E2 N1 N2 A1 A2 M1 M2.
  - destruct ms2 as [|k2 ms2]; [reflexivity|]. inversion E1; subst. inversion E2; subst. exfalso.
    apply (M1 k2); [apply A2; now left|intros []|]. apply ends_iff. eauto 8.
  - destruct ms2 as [|k2 ms2].
    + inversion E2; subst. inversion E1; subst. exfalso. apply (M2 k1); [apply A1; now left|intros []|].
      apply ends_iff. eauto 8.
    + inversion E1 as [|b1 s1 sp1 ? ? ? S1 B1 R1]; subst. inversion E2 as [|b2 s2 sp2 ? ? ? S2 B2 R2 EQ]; subst.
      destruct (ends_unique _ _ _ _ _ _ _ _ EQ S2 S1 B2 B1) as [-> ->]. f_equal.
      inversion N1 as [|? ? X1 Y1]; subst. inversion N2 as [|? ? X2 Y2]; subst.
      apply (IH b1 ms2 r1 r2 (fun k => avail k /\ k <> k1)); auto.
      * intros k Hk. (split; [apply A1; now right|]). intros ->. contradiction.
      * intros k Hk. (split; [apply A2; now right|]). intros ->. contradiction.
      * intros k [Ha Hn] Hk. apply M1; [exact Ha|]. intros [X|X]; [congruence|contradiction].
      * intros k [Ha Hn] Hk. apply M2; [exact Ha|]. intros [X|X]; [congruence|contradiction].
Qed.

Lemma fun_no_mod : ~ isModifier WFunction.
Proof using. unfold isModifier. intuition discriminate. Qed.
Lemma before_unique text ks1 ks2 : modifiersBefore cc text ks1 -> modifiersBefore cc text ks2 -> ks1 = ks2.
Proof using OK SP.
  intros (m1 & r1 & E1 & F1 & I1 & N1 & M1) (m2 & r2 & E2 & F2 & I2 & N2 & M2).
  destruct F1 as [->|[-> F1]], F2 as [->|[-> F2]].
  - f_equal. inversion E1 as [|b1 s1 sp1 ? ? ? S1 B1 R1]; subst. inversion E2 as [|b2 s2 sp2 ? ? ? S2 B2 R2 EQ]; subst.
    destruct (ends_unique _ _ _ _ _ _ _ _ EQ S2 S1 B2 B1) as [_ ->].
    exact (mods_unique m1 b1 m2 r1 r2 isModifier R1 R2 N1 N2 I1 I2 M1 M2).
  - exfalso. apply F2. inversion E1; subst. apply ends_iff. eauto 8.
  - exfalso. apply F1. inversion E2; subst. apply ends_iff. eauto 8.
  - exact (mods_unique m1 text m2 r1 r2 isModifier E1 E2 N1 N2 I1 I2 M1 M2).
Qed.
End Words.

(** ** C40 *)
Inductive B := Ch (c : N) | Mk (m : Marker).
Definition pat (m : Marker) : qstring := cPERCENT :: markerName m ++ [cPERCENT].
Definition flat1 (b : B) : qstring := match b with Ch c => [c] | Mk m => pat m end.
Definition flat (l : list B) : qstring := flat_map flat1 l.
Definition okc (l : list B) : Prop := forall c, In (Ch c) l -> c <> cPERCENT.
Definition meq (a b : Marker) : bool :=
  match a, b with MIndent, MIndent | MCursor, MCursor | MSelect, MSelect | MEndSelect, MEndSelect => true | _, _ => false end.
Lemma meq_eq a b : meq a b = true <-> a = b.
Proof. destruct a, b; cbn; intuition congruence. Qed.
(** A closing % of another marker never starts marker [m]. *)
Definition quiet (m : Marker) (l : list B) : Prop :=
  forall pre m1 m2 post, l = pre ++ Mk m1 :: map Ch (markerName m) ++ Mk m2 :: post -> m1 = m.
Lemma quiet_tl m b l : quiet m (b :: l) -> quiet m l.
Proof. intros Q pre m1 m2 post ->. apply (Q (b :: pre) m1 m2 post). reflexivity. Qed.

Lemma isPrefix_app p a b : List.length p <= List.length a -> isPrefix p (a ++ b) = isPrefix p a.
Proof.
  revert a. induction p as [|x p IH]; intros [|y a] H; cbn in *; try reflexivity; try lia.
  rewrite IH by lia. reflexivity.
Qed.
Lemma isPrefix_self p b : isPrefix p (p ++ b) = true.
Proof. induction p as [|x p IH]; cbn; [reflexivity|]. rewrite N.eqb_refl. exact IH. Qed.
Lemma pat_diff m m' rest : m <> m' -> isPrefix (pat m) (pat m' ++ rest) = false.
Proof. destruct m, m'; intros H; try congruence; reflexivity. Qed.
Lemma name_pat n l : (forall c, In c n -> c <> cPERCENT) -> okc l -> isPrefix (n ++ [cPERCENT]) (flat l) = true ->
  exists m2 post, l = map Ch n ++ Mk m2 :: post.
Proof.
  revert l. induction n as [|c n IH]; intros l Hn Ho H.
  - destruct l as [|[d|m2] l]; cbn [isPrefix app flat flat_map flat1 pat] in H; [discriminate| |exists m2, l; reflexivity].
    rewrite ?andb_true_r in H. apply N.eqb_eq in H. subst d. exfalso. apply (Ho 37%N); [now left|reflexivity].
  - destruct l as [|[d|m2] l]; cbn [isPrefix app flat flat_map flat1 pat] in H; [discriminate| |].
    + apply andb_true_iff in H. destruct H as [H1 H2]. apply N.eqb_eq in H1. subst d.
      destruct (IH l) as (m2 & post & ->); [intros x Hx; apply Hn; now right|intros x Hx; apply Ho; now right|exact H2|].
      exists m2, post. reflexivity.
    + apply andb_true_iff in H. destruct H as [H1 _]. apply N.eqb_eq in H1. subst c.
      exfalso. apply (Hn 37%N); [now left|reflexivity].
Qed.
Lemma name_ok m c : In c (markerName m) -> c <> cPERCENT.
Proof. destruct m; cbn; intuition (subst; discriminate). Qed.
Lemma quiet_pat m m' l : m <> m' -> okc l -> quiet m (Mk m' :: l) -> isPrefix (pat m) (cPERCENT :: flat l) = false.
Proof.
  intros N Ho Q. destruct (isPrefix (pat m) (37%N :: flat l)) eqn:E; [|reflexivity]. exfalso.
  unfold pat in E. cbn [isPrefix] in E. apply andb_true_iff in E. destruct E as [_ E].
  destruct (name_pat (markerName m) l (name_ok m) Ho E) as (m2 & post & ->).
  apply N. symmetry. apply (Q [] m' m2 post). reflexivity.
Qed.

Lemma replace_skip p by_ u v : replaceAll p by_ (u ++ v) (List.length u) = replaceAll p by_ v 0.
Proof. induction u as [|c u IH]; [reflexivity|]. exact IH. Qed.
(** Characters that do not start the pattern are copied. *)
Lemma replace_copy p by_ n v : (forall c, In c n -> c <> cPERCENT) ->
  replaceAll (cPERCENT :: p) by_ (n ++ v) 0 = n ++ replaceAll (cPERCENT :: p) by_ v 0.
Proof.
  induction n as [|c n IH]; intros H; [reflexivity|]. cbn [app replaceAll isPrefix].
  replace (N.eqb 37 c) with false by (symmetry; apply N.eqb_neq; intros E; apply (H c (or_introl eq_refl)); congruence).
  cbn [andb]. f_equal. apply IH. intros x Hx. apply H. now right.
Qed.

Definition subst1 (m : Marker) (by_ : qstring) (b : B) : qstring :=
  match b with Mk m' => if meq m m' then by_ else pat m' | Ch c => [c] end.
Lemma replace_flat m by_ l : okc l -> quiet m l ->
  replaceAll (pat m) by_ (flat l) 0 = flat_map (subst1 m by_) l.
Proof.
  induction l as [|b l IH]; intros Ho Q; [reflexivity|].
  assert (Ho' : okc l) by (intros x Hx; apply Ho; now right). specialize (IH Ho' (quiet_tl m b l Q)).
  destruct b as [c|m']; cbn [flat flat_map flat1 subst1].
  - unfold pat. rewrite (replace_copy _ by_ [c]).
    + fold (pat m). fold (flat l). rewrite IH. reflexivity.
    + intros x [<-|[]]. apply Ho. now left.
  - fold (flat l). destruct (meq m m') eqn:E.
    + apply meq_eq in E. subst m'. destruct (pat m ++ flat l) as [|x r] eqn:EP; [discriminate|].
      cbn [replaceAll]. rewrite <- EP, isPrefix_self, <- IH. f_equal.
      assert (ER : r = markerName m ++ [37%N] ++ flat l).
      { unfold pat in EP. cbn [app] in EP. injection EP as _ <-. rewrite <- app_assoc. reflexivity. }
      rewrite ER, app_assoc. replace (List.length (pat m) - 1) with (List.length (markerName m ++ [37%N]))
        by (unfold pat; cbn [List.length]; lia). apply replace_skip.
    + assert (N : m <> m') by (intros ->; destruct m'; discriminate E).
      assert (H1 : replaceAll (pat m) by_ (pat m' ++ flat l) 0 = 37%N :: replaceAll (pat m) by_ (markerName m' ++ 37%N :: flat l) 0).
      { pose proof (pat_diff m m' (flat l) N) as D.
        assert (E0 : pat m' ++ flat l = 37%N :: markerName m' ++ 37%N :: flat l).
        { unfold pat. cbn [app]. rewrite <- app_assoc. reflexivity. }
        rewrite E0 in D |- *. cbn [replaceAll]. rewrite D. reflexivity. }
      rewrite H1. unfold pat at 1. rewrite replace_copy by apply name_ok. fold (pat m).
      cbn [replaceAll]. rewrite (quiet_pat m m' l N Ho' Q), IH. unfold pat. cbn [app]. rewrite <- app_assoc. reflexivity.
Qed.

Lemma index_copy p n v i : (forall c, In c n -> c <> cPERCENT) ->
  indexFrom (cPERCENT :: p) (n ++ v) i = indexFrom (cPERCENT :: p) v (i + List.length n).
Proof.
  revert i. induction n as [|c n IH]; intros i H; [rewrite Nat.add_0_r; reflexivity|]. cbn [app indexFrom isPrefix].
  replace (N.eqb 37 c) with false by (symmetry; apply N.eqb_neq; intros E; apply (H c (or_introl eq_refl)); congruence).
  cbn [andb]. rewrite IH by (intros x Hx; apply H; now right). f_equal. cbn. lia.
Qed.
Lemma index_flat m l : okc l -> quiet m l -> ~ In (Mk m) l -> forall v i,
  (v = [] \/ exists l', v = flat (Mk m :: l') /\ okc l' /\ quiet m (l ++ Mk m :: l')) ->
  indexFrom (pat m) (flat l ++ v) i = if match v with [] => true | _ => false end then None else Some (i + List.length (flat l)).
Proof.
  induction l as [|b l IH]; intros Ho Q NI v i HV.
  - cbn [flat flat_map app List.length]. rewrite Nat.add_0_r. destruct HV as [->|(l' & -> & _)]; [reflexivity|].
    cbn [flat flat_map flat1]. destruct (pat m ++ flat_map flat1 l') as [|x r] eqn:E; [discriminate|].
    cbn [indexFrom]. rewrite <- E, isPrefix_self. reflexivity.
  - assert (Ho' : okc l) by (intros x Hx; apply Ho; now right).
    assert (NI' : ~ In (Mk m) l) by (intros X; apply NI; now right).
    assert (HV' : v = [] \/ exists l', v = flat (Mk m :: l') /\ okc l' /\ quiet m (l ++ Mk m :: l')).
    { destruct HV as [->|(l' & H1 & H2 & H3)]; [auto|]. right. exists l'. (split; [exact H1|]). (split; [exact H2|]).
      exact (quiet_tl _ _ _ H3). }
    specialize (IH Ho' (quiet_tl _ _ _ Q) NI' v).
    cbn [flat flat_map]. fold (flat l). destruct b as [c|m']; cbn [flat1].
    + rewrite <- app_assoc. unfold pat. rewrite index_copy by (intros x [<-|[]]; apply Ho; now left). fold (pat m).
      rewrite IH by exact HV'. destruct v; [reflexivity|]. rewrite app_length. f_equal. lia.
    + assert (N : m <> m') by (intros ->; apply NI; now left).
      assert (QP : isPrefix (pat m) (37%N :: flat l ++ v) = false).
      { destruct HV as [->|(l' & -> & H2 & H3)].
        - rewrite app_nil_r. exact (quiet_pat m m' l N Ho' Q).
        - unfold flat at 1 2. rewrite <- flat_map_app. apply (quiet_pat m m' (l ++ Mk m :: l') N); [|exact H3].
          intros x Hx. apply in_app_or in Hx. destruct Hx as [Hx|[Hx|Hx]]; [apply Ho'; exact Hx|discriminate|apply H2; exact Hx]. }
      pose proof (pat_diff m m' (flat l ++ v) N) as D.
      assert (E1 : (pat m' ++ flat l) ++ v = 37%N :: markerName m' ++ 37%N :: flat l ++ v).
      { unfold pat. cbn [app]. rewrite <- !app_assoc. reflexivity. }
      assert (E2 : pat m' ++ flat l ++ v = 37%N :: markerName m' ++ 37%N :: flat l ++ v).
      { unfold pat. cbn [app]. rewrite <- !app_assoc. reflexivity. }
      rewrite E1. rewrite E2 in D. cbn [indexFrom]. rewrite D.
      unfold pat at 1. rewrite index_copy by apply name_ok. fold (pat m). cbn [indexFrom]. rewrite QP.
      rewrite IH by exact HV'. destruct v; [reflexivity|]. f_equal. unfold pat. rewrite app_length. cbn [List.length].
      rewrite app_length. cbn. lia.
Qed.
