(** Proofs for C24 (proof file). *)
From Verif Require Export DocSpec.
Open Scope nat_scope.

Lemma at_skipn d i : at_ d i = match skipn i d with [] => None | c :: _ => Some c end.
Proof. unfold at_. revert d. induction i as [|i IH]; intros [|c d]; cbn; auto. Qed.
Lemma skipn_S_cons {A} i (d : list A) c t : skipn i d = c :: t -> skipn (S i) d = t.
Proof. revert d. induction i as [|i IH]; intros [|x d]; cbn; intros H; try discriminate; [congruence|]. now apply IH in H. Qed.
Lemma ltb_skipn {A} i (d : list A) : Nat.ltb i (List.length d) = match skipn i d with [] => false | _ => true end.
Proof. revert i. induction d as [|x d IH]; intros [|i]; cbn; auto. exact (IH i). Qed.

Lemma skipn_skipn {A} a b (l : list A) : skipn a (skipn b l) = skipn (b + a) l.
Proof. revert l. induction b as [|b IH]; intros [|x l]; cbn; auto. now rewrite skipn_nil. Qed.

(** indexOf and lines *)
Lemma indexFrom_spec c d b : match indexFrom c d b with
  | None => ~ In c d
  | Some k => exists l t, d = l ++ c :: t /\ ~ In c l /\ k = b + List.length l end.
Proof.
  revert b. induction d as [|x d IH]; intros b; cbn; [tauto|].
  destruct (N.eqb_spec x c) as [->|E].
  - exists [], d. cbn. repeat split; auto; lia.
  - specialize (IH (S b)). destruct (indexFrom c d (S b)).
    + destruct IH as (l & t & -> & H1 & H2). exists (x :: l), t. cbn. repeat split; auto; [intros [H|H]; [congruence|tauto]|lia].
    + intros [H|H]; [congruence|tauto].
Qed.
Lemma indexOf_spec d c i : match indexOf d c i with
  | None => ~ In c (skipn i d)
  | Some k => exists l t, skipn i d = l ++ c :: t /\ ~ In c l /\ skipn (S k) d = t end.
Proof.
  unfold indexOf. pose proof (indexFrom_spec c (skipn i d) i) as H. destruct (indexFrom _ _ _) as [k|]; auto.
  destruct H as (l & t & H1 & H2 & ->). exists l, t. split; auto. split; auto.
  replace (S (i + List.length l)) with (i + (List.length l + 1)) by lia.
  rewrite <- skipn_skipn, H1. rewrite skipn_app. replace (List.length l + 1 - List.length l) with 1 by lia.
  rewrite skipn_all2 by lia. reflexivity.
Qed.

Lemma lines_nonl s : ~ In cNL s -> lines s = [s].
Proof.
  induction s as [|c s IH]; intros H; cbn; auto. destruct (N.eqb_spec c cNL) as [->|E]; [exfalso; apply H; now left|].
  rewrite IH; auto. intros H'. apply H. now right.
Qed.
Lemma lines_ne s : lines s <> [].
Proof. destruct s as [|c s]; cbn; [discriminate|]. destruct (N.eqb c cNL); [discriminate|]. destruct (lines s); discriminate. Qed.
Lemma lines_app l t : ~ In cNL l -> lines (l ++ cNL :: t) = l :: lines t.
Proof.
  induction l as [|c l IH]; intros H; cbn [app lines].
  - reflexivity.
  - destruct (N.eqb_spec c cNL) as [->|E]; [exfalso; apply H; now left|]. rewrite IH; auto. intros H'. apply H. now right.
Qed.
Lemma lines_join s : exists l r, lines s = l :: r /\ ~ In cNL l /\
  (r = [] /\ s = l \/ exists t, s = l ++ cNL :: t /\ r = lines t).
Proof.
  induction s as [|c s IH]; cbn.
  - exists [], []. cbn. repeat split; auto.
  - destruct (N.eqb_spec c cNL) as [->|E].
    + exists [], (lines s). cbn. repeat split; auto. right. exists s. auto.
    + destruct IH as (l & r & -> & H1 & H2). exists (c :: l), r. split; auto. split; [intros [H|H]; [congruence|tauto]|].
      destruct H2 as [[-> ->]|[t [-> ->]]]; [left; auto|right; exists t; auto].
Qed.

Section P.
Variable cc : CharClass.
Hypothesis nlSpace : isSpace cc cNL = true.
Notation lead := (lead cc).
Notation lineValue := (lineValue cc).
Notation values := (values cc).

Lemma whileSpace_spec want d : forall i fuel, List.length (skipn i d) < fuel ->
  exists j, whileSpace cc fuel want d i = Ret j /\ i <= j /\
   List.length (firstn (j - i) (skipn i d)) = j - i /\
   skipn i d = firstn (j - i) (skipn i d) ++ skipn j d /\
   Forall (fun c => isSpace cc c = want) (firstn (j - i) (skipn i d)) /\
   match skipn j d with [] => True | c :: _ => isSpace cc c = negb want end.
Proof.
  clear nlSpace. intros i fuel. revert i. induction fuel as [|fuel IH]; intros i Hf; [lia|]. cbn [whileSpace].
  rewrite ltb_skipn, at_skipn. destruct (skipn i d) as [|c t] eqn:E.
  - exists i. rewrite E, Nat.sub_diag. cbn. auto 7.
  - destruct (Bool.eqb (isSpace cc c) want) eqn:Ew.
    + apply eqb_prop in Ew. pose proof (skipn_S_cons _ _ _ _ E) as E'.
      destruct (IH (S i)) as (j & H1 & H2 & H2b & H3 & H4 & H5). { rewrite E'. cbn in Hf. lia. }
      exists j. split; auto. split; [lia|]. rewrite E' in H2b, H3, H4. replace (j - i) with (S (j - S i)) by lia. cbn [firstn].
      split; [cbn; now rewrite H2b|].
      split; [cbn; now rewrite <- H3|]. split; auto.
    + exists i. rewrite Nat.sub_diag, E. cbn. repeat split; auto. apply eqb_false_iff in Ew. destruct (isSpace cc c), want; cbn; congruence.
Qed.

Lemma takeWhile_app p a b : Forall (fun c => p c = true) a -> match b with [] => True | c :: _ => p c = false end -> takeWhile p (a ++ b) = a.
Proof.
  induction a as [|c a IH]; cbn; intros H1 H2; [destruct b as [|x b]; cbn; auto; now rewrite H2|].
  inversion H1; subst. rewrite H3. f_equal. auto.
Qed.
Lemma dropWhile_app p a b : Forall (fun c => p c = true) a -> match b with [] => True | c :: _ => p c = false end -> dropWhile p (a ++ b) = b.
Proof.
  induction a as [|c a IH]; cbn; intros H1 H2; [destruct b as [|x b]; cbn; auto; now rewrite H2|].
  inversion H1; subst. rewrite H3. auto.
Qed.

Definition only1 (b : bool) (prev : list qstring) (l : list qstring) : list qstring :=
  if b then firstn 1 (prev ++ l) else prev ++ l.

(** What is left to find from a position at which a line begins or its lead goes on. *)
Lemma values_lead name c t : lead c = true -> values name (lines (c :: t)) = values name (lines t).
Proof.
  intros Hl. cbn. destruct (N.eqb_spec c cNL) as [->|E].
  - cbn. unfold DocSpec.lineValue, afterTag. reflexivity.
  - pose proof (lines_ne t). destruct (lines t) as [|l ls]; [congruence|]. cbn. unfold DocSpec.lineValue, afterTag. cbn [dropWhile]. now rewrite Hl.
Qed.

Lemma cut s : exists line rest, s = line ++ rest /\ ~ In cNL line /\
  lines s = line :: (match rest with [] => [] | _ :: t => lines t end) /\ (rest = [] \/ exists t, rest = cNL :: t).
Proof.
  destruct (lines_join s) as (l & r & H1 & H2 & H3). destruct H3 as [[-> ->]|[t [-> ->]]].
  - exists l, []. rewrite app_nil_r. auto.
  - exists l, (cNL :: t). repeat split; eauto.
Qed.
Lemma indexOf_line d j q rest : skipn j d = q ++ rest -> ~ In cNL q ->
  (rest = [] -> indexOf d cNL j = None) /\ (forall t, rest = cNL :: t -> exists k, indexOf d cNL j = Some k /\ skipn (S k) d = t).
Proof.
  intros E Hq. pose proof (indexOf_spec d cNL j) as H. split.
  - intros ->. rewrite app_nil_r in E. destruct (indexOf d cNL j); auto. destruct H as (l & t & H & _). exfalso. apply Hq. rewrite <- E, H. apply in_or_app. right. now left.
  - intros t ->. destruct (indexOf d cNL j) as [k|].
    + exists k. split; auto. destruct H as (l & t' & H1 & H2 & H3). rewrite H3. rewrite E in H1. clear -H1 H2 Hq.
      revert l H1 H2. induction q as [|x q IH]; intros l H1 H2; destruct l as [|y l]; cbn in H1.
      * congruence.
      * exfalso. injection H1 as <- _. apply H2. now left.
      * exfalso. injection H1 as -> _. apply Hq. now left.
      * injection H1 as _ H1. apply (IH (fun h => Hq (or_intror h)) l H1 (fun h => H2 (or_intror h))).
    + exfalso. apply H. rewrite E. apply in_or_app. right. now left.
Qed.
Lemma eqs_firstn name t : eqs (firstn (List.length name) t) name = startsWith name t.
Proof.
  revert t. induction name as [|x name IH]; intros t; cbn; [reflexivity|]. destruct t as [|y t]; cbn; [reflexivity|].
  rewrite IH, N.eqb_sym. reflexivity.
Qed.
Lemma startsWith_line name l rest : ~ In cNL name -> (rest = [] \/ exists t, rest = cNL :: t) -> startsWith name (l ++ rest) = startsWith name l.
Proof.
  intros Hn Hr. revert l. induction name as [|x name IH]; intros l; cbn; [reflexivity|].
  destruct l as [|y l]; cbn.
  - destruct Hr as [->|[t ->]]; [reflexivity|]. destruct (N.eqb_spec x cNL) as [->|]; [exfalso; apply Hn; now left|reflexivity].
  - rewrite IH; auto. intros H. apply Hn. now right.
Qed.
Lemma split_space x rest a u : x ++ rest = a ++ u -> Forall (fun c => isSpace cc c = true) a ->
  (rest = [] \/ ~ Forall (fun c => isSpace cc c = true) x) -> exists b, x = a ++ b /\ u = b ++ rest.
Proof.
  revert x. induction a as [|c a IH]; intros x E Ha Hx; [exists x; auto|].
  destruct x as [|y x].
  - destruct Hx as [->|Hx]; [discriminate|]. exfalso. apply Hx. constructor.
  - injection E as -> E. inversion Ha; subst. destruct (IH x E H2) as (b & -> & ->).
    { destruct Hx as [Hx|Hx]; [now left|]. right. intros H. apply Hx. now constructor. }
    exists b. auto.
Qed.
Lemma split_word x rest w u : x ++ rest = w ++ u -> Forall (fun c => isSpace cc c = false) w ->
  (rest = [] \/ exists t, rest = cNL :: t) -> exists b, x = w ++ b /\ u = b ++ rest.
Proof.
  intros E Hw Hr. revert x E. induction w as [|c w IH]; intros x E; [exists x; auto|].
  inversion Hw; subst. destruct x as [|y x].
  - destruct Hr as [->|[t ->]]; [discriminate|]. injection E as <- _. congruence.
  - injection E as -> E. destruct (IH H2 x E) as (b & -> & ->). exists b. auto.
Qed.
Lemma skipn_app_len {A} (a b : list A) : skipn (List.length a) (a ++ b) = b.
Proof. induction a; cbn; auto. Qed.

Lemma find_spec d name onlyOne : ~ In cNL name -> forall fuel i ms, List.length (skipn i d) < fuel ->
  Forall (fun l => ~ blankTag cc name l) (removelast (lines (skipn i d))) ->
  (onlyOne = true -> ms = []) ->
  findLoop cc fuel d name onlyOne i ms =
    Ret (if onlyOne then firstn 1 (values name (lines (skipn i d))) else ms ++ values name (lines (skipn i d))).
Proof.
  intros Hname. induction fuel as [|fuel IH]; intros i ms Hf HB Hms; [lia|]. cbn [findLoop].
  rewrite ltb_skipn, at_skipn.
  assert (Hend : Ret ms = Ret (if onlyOne then [] else ms ++ [])).
  { destruct onlyOne; [now rewrite Hms|now rewrite app_nil_r]. }
  destruct (skipn i d) as [|c t] eqn:Es; [exact Hend|]. cbn [negb].
  destruct (isSpace cc c || N.eqb c cSTAR || N.eqb c cSLASH) eqn:Elead.
  { fold (lead c) in Elead. rewrite (values_lead name c t Elead). pose proof (skipn_S_cons _ _ _ _ Es) as E'.
    rewrite <- E'. apply IH; auto; rewrite E'.
    - cbn in Hf. lia.
    - cbn [lines] in HB. pose proof (lines_ne t) as Hne. destruct (N.eqb c cNL).
      + cbn in HB. destruct (lines t); [constructor|]. now inversion HB.
      + destruct (lines t) as [|l ls]; [congruence|]. destruct ls as [|l2 ls]; [constructor|].
        change (removelast ((c :: l) :: l2 :: ls)) with ((c :: l) :: removelast (l2 :: ls)) in HB.
        change (removelast (l :: l2 :: ls)) with (l :: removelast (l2 :: ls)).
        inversion HB as [|? ? HB1 HB2]; subst. constructor; auto. intros (r & R1 & R2). apply HB1. exists r. split; auto.
        unfold afterTag in *. cbn [dropWhile]. now rewrite Elead. }
  destruct (cut (c :: t)) as (line & rest & Hs & Hline & Hlines & Hrest).
  rewrite Hlines in HB.
  assert (Hc : N.eqb c cNL = false).
  { apply orb_false_iff in Elead as [Elead _]. apply orb_false_iff in Elead as [Elead _]. destruct (N.eqb_spec c cNL); congruence. }
  destruct line as [|c' line].
  { exfalso. destruct Hrest as [->|[t' ->]]; [discriminate|]. injection Hs as -> _. discriminate. }
  injection Hs as <- Hs.
  (* what happens after the current line *)
  set (tl := match rest with [] => [] | _ :: t0 => lines t0 end) in *.
  assert (Hval : values name (lines (c :: t)) = (match lineValue name (c :: line) with Some w => [w] | None => [] end) ++ values name tl) by (rewrite Hlines; reflexivity).
  rewrite Hval.
  assert (HNL : forall j q ms', skipn j d = q ++ rest -> ~ In cNL q -> (onlyOne = true -> ms' = []) ->
     match indexOf d cNL j with None => Ret ms' | Some k => findLoop cc fuel d name onlyOne (S k) ms' end =
     Ret (if onlyOne then firstn 1 (values name tl) else ms' ++ values name tl)).
  { intros j q ms' Hj Hq Hms'. destruct (indexOf_line d j q rest Hj Hq) as [I1 I2]. destruct Hrest as [->|[t' ->]].
    - rewrite I1; auto. cbn. destruct onlyOne; [now rewrite Hms'|now rewrite app_nil_r].
    - destruct (I2 _ eq_refl) as (k & -> & Hk). unfold tl. rewrite <- Hk. apply IH; auto; rewrite Hk.
      + rewrite Hs in Hf. cbn in Hf. rewrite app_length in Hf. cbn in Hf. lia.
      + unfold tl in HB. pose proof (lines_ne t'). destruct (lines t') as [|l l0]; [congruence|].
        change (removelast ((c :: line) :: l :: l0)) with ((c :: line) :: removelast (l :: l0)) in HB. now inversion HB. }
  assert (Hdrop : dropWhile lead (c :: line) = c :: line) by (cbn; unfold DocSpec.lead; now rewrite Elead).
  assert (HnoVal : lineValue name (c :: line) = None -> forall j q, skipn j d = q ++ rest -> ~ In cNL q ->
     match indexOf d cNL j with None => Ret ms | Some k => findLoop cc fuel d name onlyOne (S k) ms end =
     Ret (if onlyOne then firstn 1 ((match lineValue name (c :: line) with Some w => [w] | None => [] end) ++ values name tl) else ms ++ (match lineValue name (c :: line) with Some w => [w] | None => [] end) ++ values name tl)).
  { intros Hv j q Hj Hq. rewrite Hv. cbn [app]. now apply (HNL j q). }
  assert (Hmid : mid d (i + 1) (List.length name) = firstn (List.length name) t).
  { unfold mid. rewrite Nat.add_1_r, (skipn_S_cons _ _ _ _ Es). reflexivity. }
  rewrite Hmid, eqs_firstn, Hs, startsWith_line by auto.
  destruct (N.eqb c cAT && startsWith name line) eqn:Etag.
  2:{ assert (Hnt : lineValue name (c :: line) = None).
      { unfold DocSpec.lineValue, afterTag. rewrite Hdrop. cbn [startsWith]. rewrite N.eqb_sym, Etag. reflexivity. }
      apply (HnoVal Hnt i (c :: line)); auto. rewrite Es, Hs. reflexivity. }
  pose proof Etag as Etag'. apply andb_true_iff in Etag as [Eat Etag]. apply startsWith_spec in Etag as [rl ->].
  assert (Hafter : afterTag cc name (c :: name ++ rl) = Some rl).
  { unfold afterTag. rewrite Hdrop. cbn [startsWith]. rewrite N.eqb_sym, Etag'. cbn [skipn]. now rewrite skipn_app_len. }
  assert (Hi1 : skipn (i + (List.length name + 1)) d = rl ++ rest).
  { replace (i + (List.length name + 1)) with (S i + List.length name) by lia. rewrite <- skipn_skipn, (skipn_S_cons _ _ _ _ Es), Hs, <- app_assoc.
    apply skipn_app_len. }
  set (i1 := i + (List.length name + 1)) in *.
  assert (Hrl : ~ In cNL rl). { intros H. apply Hline. right. apply in_or_app. now right. }
  rewrite ltb_skipn, at_skipn, Hi1.
  destruct rl as [|ch rl'].
  { assert (Hnt : lineValue name (c :: name ++ []) = None) by (unfold DocSpec.lineValue; now rewrite Hafter).
    rewrite Hnt. destruct Hrest as [->|[t' ->]]; cbn [app negb].
    - apply (HNL i1 []); auto.
    - rewrite nlSpace. cbn [negb]. rewrite N.eqb_refl.
      unfold tl. rewrite <- (skipn_S_cons _ _ _ _ Hi1). apply IH; auto; rewrite (skipn_S_cons _ _ _ _ Hi1).
      + rewrite Hs in Hf. cbn in Hf. rewrite !app_length in Hf. cbn in Hf. lia.
      + unfold tl in HB. pose proof (lines_ne t'). destruct (lines t') as [|l l0]; [congruence|].
        change (removelast ((c :: name ++ []) :: l :: l0)) with ((c :: name ++ []) :: removelast (l :: l0)) in HB. now inversion HB. }
  cbn [app negb].
  destruct (isSpace cc ch) eqn:Ech; cbn [negb].
  2:{ assert (Hnt : lineValue name (c :: name ++ ch :: rl') = None) by (unfold DocSpec.lineValue; now rewrite Hafter, Ech).
      apply (HnoVal Hnt i1 (ch :: rl')); auto. }
  destruct (N.eqb_spec ch cNL) as [->|Ench]; [exfalso; apply Hrl; now left|].
  assert (Hi1' : skipn (S i1) d = rl' ++ rest) by (now apply skipn_S_cons in Hi1).
  assert (Hlen : forall j, List.length (skipn j d) < S (List.length d)) by (intros j; rewrite skipn_length; lia).
  destruct (whileSpace_spec true d (S i1) _ (Hlen _)) as (i2 & -> & L2 & _ & W1 & W2 & W3).
  destruct (whileSpace_spec false d i2 _ (Hlen _)) as (pos & -> & L3 & Hwlen & V1 & V2 & V3).
  set (a := firstn (i2 - S i1) (skipn (S i1) d)) in *. set (w := firstn (pos - i2) (skipn i2 d)) in *.
  rewrite Hi1' in W1.
  assert (Hb : exists b, rl' = a ++ b /\ skipn i2 d = b ++ rest).
  { apply split_space; auto. destruct Hrest as [->|[t' ->]]; auto. right. intros Hall.
    unfold tl in HB. pose proof (lines_ne t'). destruct (lines t') as [|l l0]; [congruence|].
    change (removelast ((c :: name ++ ch :: rl') :: l :: l0)) with ((c :: name ++ ch :: rl') :: removelast (l :: l0)) in HB.
    inversion HB as [|? ? HB1 _]; subst. apply HB1. exists (ch :: rl'). split; auto. split; [discriminate|]. constructor; auto. }
  destruct Hb as (b & Erl & Hi2). rewrite Hi2 in V1, W3.
  destruct (split_word b rest w _ V1 V2 Hrest) as (b2 & Eb & Hpos).
  assert (Hdw : dropWhile (isSpace cc) rl' = b).
  { rewrite Erl. apply dropWhile_app; auto. destruct b as [|x b]; auto. }
  assert (Htw : takeWhile (fun x => negb (isSpace cc x)) b = w).
  { rewrite Eb. apply takeWhile_app.
    - eapply Forall_impl; [|exact V2]. cbn. intros x ->. reflexivity.
    - destruct b2 as [|x b2]; auto. rewrite Hpos in V3. cbn in V3. now rewrite V3. }
  assert (HLV : lineValue name (c :: name ++ ch :: rl') = match w with [] => None | _ => Some w end).
  { unfold DocSpec.lineValue. rewrite Hafter, Ech, Hdw, Htw. destruct w; reflexivity. }
  rewrite HLV.
  assert (Hmid2 : mid d i2 (pos - i2) = w) by reflexivity.
  assert (Hb2 : ~ In cNL b2).
  { intros H. apply Hrl. rewrite Erl, Eb. right. apply in_or_app. right. apply in_or_app. now right. }
  destruct w as [|x w'] eqn:Ew.
  - cbn in Hwlen. replace (Nat.ltb i2 pos) with false by (symmetry; apply Nat.ltb_ge; lia).
    cbn in Eb. subst b. cbn [app]. apply (HNL i2 b2); auto.
  - cbn in Hwlen. replace (Nat.ltb i2 pos) with true by (symmetry; apply Nat.ltb_lt; lia).
    rewrite Hmid2. destruct onlyOne.
    + rewrite Hms by reflexivity. reflexivity.
    + rewrite (HNL pos b2); auto; [|discriminate]. now rewrite <- app_assoc.
Qed.
End P.

(** Safety for every comment and tag. *)
Lemma find_safe cc d name onlyOne : forall fuel i ms, List.length (skipn i d) < fuel ->
  exists r, findLoop cc fuel d name onlyOne i ms = Ret r.
Proof.
  induction fuel as [|fuel IH]; intros i ms Hf; [lia|]. cbn [findLoop].
  rewrite ltb_skipn, at_skipn. destruct (skipn i d) as [|c t] eqn:Es; [cbn; eauto|]. cbn [negb].
  assert (HNL : forall j ms', i <= j -> exists r, match indexOf d cNL j with None => Ret ms' | Some k => findLoop cc fuel d name onlyOne (S k) ms' end = Ret r).
  { intros j ms' Hj. pose proof (indexOf_spec d cNL j) as H. destruct (indexOf d cNL j) as [k|]; [|eauto].
    destruct H as (l & t' & H1 & H2 & H3). apply IH. rewrite H3.
    assert (L : List.length (skipn j d) <= List.length (c :: t)) by (rewrite <- Es, !skipn_length; lia).
    rewrite H1, app_length in L. cbn in *. lia. }
  assert (HS : forall j ms', i <= j -> exists r, findLoop cc fuel d name onlyOne (S j) ms' = Ret r).
  { intros j ms' Hj. apply IH. assert (L : List.length (skipn i d) = S (List.length t)) by (rewrite Es; reflexivity). cbn in Hf.
    rewrite skipn_length in *. lia. }
  destruct (isSpace cc c || N.eqb c cSTAR || N.eqb c cSLASH); [apply HS; lia|].
  destruct (N.eqb c cAT && eqs (mid d (i + 1) (List.length name)) name); [|apply HNL; lia].
  rewrite ltb_skipn, at_skipn. destruct (skipn (i + (List.length name + 1)) d) as [|ch t1]; [cbn; apply HNL; lia|]. cbn [negb].
  destruct (negb (isSpace cc ch)); [apply HNL; lia|]. destruct (N.eqb ch cNL); [apply HS; lia|].
  assert (Hlen : forall j, List.length (skipn j d) < S (List.length d)) by (intros j; rewrite skipn_length; lia).
  destruct (whileSpace_spec cc true d (S (i + (List.length name + 1))) _ (Hlen _)) as (i2 & -> & L2 & _).
  destruct (whileSpace_spec cc false d i2 _ (Hlen _)) as (pos & -> & L3 & _).
  destruct (Nat.ltb i2 pos); [|apply HNL; lia]. destruct onlyOne; [eauto|apply HNL; lia].
Qed.
