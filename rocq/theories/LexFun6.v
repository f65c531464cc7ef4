(** Proofs about single tokens, part 6: numbers (proof file). *)
From Verif Require Export LexFun5.
Open Scope nat_scope.

Section F.
Variable cc : CharClass.
Hypothesis OK : ascii_ok cc.
Variable content : qstring.

Lemma dec_ascii c d : decDigit c = Some d -> (48 <= c <= 57)%N /\ d = (c - 48)%N.
Proof.
  unfold decDigit. destruct ((48 <=? c) && (c <=? 57))%N eqn:E; [|discriminate].
  intros H. injection H as <-. apply andb_true_iff in E. rewrite !N.leb_le in E. auto.
Qed.
Lemma dec_isDigit c d : decDigit c = Some d -> isDigit cc c = true /\ c <> 46%N /\ digitVal c = Some d /\ (d < 10)%N /\ toLower cc c = c.
Proof.
  intros H. apply dec_ascii in H as [H ->].
  assert (E : asciiDigit c = true) by (unfold asciiDigit; rewrite andb_true_iff, !N.leb_le; auto).
  rewrite (ok_digit _ OK), (ok_lower _ OK) by lia. split; [exact E|]. split; [lia|]. unfold digitVal. rewrite E. split; auto.
  split; [lia|]. unfold asciiToLower, asciiUpper. replace (65 <=? c)%N with false by (symmetry; apply N.leb_gt; lia). reflexivity.
Qed.
Lemma hex_val c d : hexDigit c = Some d -> digitVal c = Some d /\ (d < 16)%N /\ c <> 46%N /\ numChar cc true false false c = true.
Proof.
  unfold hexDigit, digitVal, asciiDigit, numChar.
  destruct ((48 <=? c) && (c <=? 57))%N eqn:E1.
  - intros H. injection H as <-. apply andb_true_iff in E1. rewrite !N.leb_le in E1.
    rewrite (ok_digit _ OK) by lia. unfold asciiDigit. replace ((48 <=? c) && (c <=? 57))%N with true by (symmetry; rewrite andb_true_iff, !N.leb_le; auto).
    repeat split; auto; lia.
  - destruct ((97 <=? c) && (c <=? 102))%N eqn:E2.
    + intros H. injection H as <-. apply andb_true_iff in E2. rewrite !N.leb_le in E2.
      split; [f_equal; lia|]. split; [lia|]. split; [lia|]. rewrite (ok_lower _ OK) by lia.
      assert (H : (c = 97 \/ c = 98 \/ c = 99 \/ c = 100 \/ c = 101 \/ c = 102)%N) by lia.
      destruct H as [->|[->|[->|[->|[->| ->]]]]]; cbn; rewrite orb_true_r; reflexivity.
    + destruct ((65 <=? c) && (c <=? 70))%N eqn:E3; [|discriminate].
      intros H. injection H as <-. apply andb_true_iff in E3. rewrite !N.leb_le in E3.
      split; [f_equal; lia|]. split; [lia|]. split; [lia|]. rewrite (ok_lower _ OK) by lia.
      assert (H : (c = 65 \/ c = 66 \/ c = 67 \/ c = 68 \/ c = 69 \/ c = 70)%N) by lia.
      destruct H as [->|[->|[->|[->|[->| ->]]]]]; cbn; rewrite orb_true_r; reflexivity.
Qed.

Lemma numVal_value base s : forall ds acc, map digitVal s = map Some ds -> Forall (fun d => d < base)%N ds ->
  numVal base acc s = Some (acc * base ^ N.of_nat (List.length ds) + value base ds)%N.
Proof.
  induction s as [|c s IH]; intros ds acc H HF; destruct ds as [|d ds]; try discriminate.
  - cbn. f_equal. lia.
  - cbn [map] in H. injection H as H1 H2. cbn [numVal]. rewrite H1.
    pose proof (Forall_inv HF) as Hd. apply N.ltb_lt in Hd. rewrite Hd.
    rewrite (IH ds) by (auto; eapply Forall_inv_tail; eauto). f_equal. cbn [value List.length].
    rewrite Nat2N.inj_succ, N.pow_succ_r'. lia.
Qed.

Lemma toLong_value base s ds : s <> [] -> map digitVal s = map Some ds -> Forall (fun d => d < base)%N ds ->
  toLongOk s base = (value base ds <=? phpIntMax)%N.
Proof.
  intros Hne H HF. unfold toLongOk. destruct s; [congruence|]. rewrite (numVal_value base _ ds 0) by auto.
  rewrite N.mul_0_l, N.add_0_l. reflexivity.
Qed.

Lemma dec_props s ds : decDigits s ds -> Forall (fun c => isDigit cc c = true /\ c <> 46%N /\ toLower cc c = c /\ (48 <= c <= 57)%N) s /\
  map digitVal s = map Some ds /\ Forall (fun d => d < 10)%N ds.
Proof.
  unfold decDigits. revert ds. induction s as [|c s IH]; intros [|d ds] H; try discriminate.
  - repeat split; constructor.
  - injection H as H1 H2. destruct (IH ds H2) as [A [B C]]. pose proof (dec_ascii _ _ H1) as [HA _]. apply dec_isDigit in H1 as [D1 [D2 [D3 [D4 D5]]]].
    split; [constructor; auto|]. split; [cbn; now rewrite D3, B|constructor; auto].
Qed.

Lemma num_digits hex bin hp s : Forall (fun c => numChar cc hex bin hp c = true /\ c <> 46%N) s -> forall r i num,
  numLoop cc hex bin hp (s ++ r) i num = numLoop cc hex bin hp r (i + List.length s) (num ++ s).
Proof.
  induction 1 as [|c s [H1 H2] HF IH]; intros r i num.
  - cbn. rewrite Nat.add_0_r, app_nil_r. reflexivity.
  - cbn [app numLoop]. rewrite H1. apply N.eqb_neq in H2. rewrite H2, IH. cbn [List.length].
    rewrite <- app_assoc, <- Nat.add_succ_comm. reflexivity.
Qed.
Lemma num_stop hex bin hp r i num : (forall c s, r = c :: s -> numChar cc hex bin hp c = false) ->
  numLoop cc hex bin hp r i num = (i, r, hp, num).
Proof. intros H. destruct r as [|c r]; [reflexivity|]. cbn. rewrite (H c r eq_refl). reflexivity. Qed.

Lemma digit_numChar bin hp c : isDigit cc c = true -> numChar cc false bin hp c = true.
Proof. intros H. unfold numChar. rewrite H. reflexivity. Qed.
Lemma stop_numChar r hp : noDigit cc r -> (hp = true \/ noDot r) -> forall c s, r = c :: s -> numChar cc false false hp c = false.
Proof.
  intros H1 H2 c s E. unfold numChar. rewrite (H1 c s E). cbn. destruct H2 as [->|H2]; [reflexivity|].
  destruct (N.eqb_spec c 46) as [->|]; [exfalso; apply (H2 s E)|]. rewrite andb_false_r. reflexivity.
Qed.

(** The exponent test. *)
Lemma exp_test r : exists b, test r 0 (fun c => toLower cc c =? 101)%N
           &&& (test r 1 (isDigit cc) ||| ((isC r 1 45%N ||| isC r 1 43%N) &&& test r 2 (isDigit cc))) = Some b /\
  (b = true <-> expStart cc r).
Proof.
  assert (D0 : isDigit cc 0%N = false) by (rewrite (ok_digit _ OK) by lia; reflexivity).
  assert (L0 : (toLower cc 0 =? 101)%N = false) by (rewrite (lower_nul cc OK); reflexivity).
  unfold test, isC, test. destruct r as [|e x]; cbn [peek option_map].
  { rewrite L0. exists false. split; [reflexivity|]. split; [discriminate|]. intros (?&?&?&_). discriminate. }
  destruct (N.eqb_spec (toLower cc e) 101) as [He|He]; cbn [mAnd].
  2:{ exists false. split; [reflexivity|]. split; [discriminate|]. intros (?&?&E&E2&_). injection E as <- <-. congruence. }
  destruct x as [|d y]; cbn [peek option_map].
  { rewrite D0. cbn. exists false. split; [reflexivity|]. split; [discriminate|]. intros (?&?&E&_&[(?&?&E2&_)|(?&?&?&E2&_)]); injection E as <- <-; discriminate. }
  destruct (isDigit cc d) eqn:Hd; cbn [mOr].
  { exists true. split; [reflexivity|]. split; [|auto]. intros _. exists e, (d :: y). split; auto. split; auto. left. eauto. }
  destruct (N.eqb_spec d 45) as [->|H1]; [|destruct (N.eqb_spec d 43) as [->|H2]]; cbn [mOr mAnd].
  - destruct y as [|z y]; cbn [peek option_map]; [rewrite D0; exists false|exists (isDigit cc z)]; split; try reflexivity.
    + split; [discriminate|]. intros (?&?&E&_&[(?&?&E2&H)|(?&?&?&E2&_)]); injection E as <- <-; [injection E2 as <- _; congruence|discriminate].
    + split.
      * intros H. exists e, (45 :: z :: y)%N. split; auto. split; auto. right. exists 45%N, z, y. auto.
      * intros (?&?&E&_&[(?&?&E2&H)|(?&?&?&E2&_&H)]); injection E as <- <-; [injection E2 as <- _; congruence|injection E2 as <- <- <-; auto].
  - destruct y as [|z y]; cbn [peek option_map]; [rewrite D0; exists false|exists (isDigit cc z)]; split; try reflexivity.
    + split; [discriminate|]. intros (?&?&E&_&[(?&?&E2&H)|(?&?&?&E2&_)]); injection E as <- <-; [injection E2 as <- _; congruence|discriminate].
    + split.
      * intros H. exists e, (43 :: z :: y)%N. split; auto. split; auto. right. exists 43%N, z, y. auto.
      * intros (?&?&E&_&[(?&?&E2&H)|(?&?&?&E2&_&H)]); injection E as <- <-; [injection E2 as <- _; congruence|injection E2 as <- <- <-; auto].
  - exists false. split; [reflexivity|]. split; [discriminate|].
    intros (?&?&E&_&[(?&?&E2&H)|(?&?&?&E2&H&_)]); injection E as <- <-; [injection E2 as <- _; congruence|injection E2 as <- _].
    destruct H; congruence.
Qed.

(** No prefix. *)
Definition noPrefix (it : qstring) : Prop :=
  forall x, it = 48%N :: x -> noLetter cc 120 x /\ noLetter cc 98 x.
Lemma prefix_tests it : noPrefix it ->
  isC it 0 48%N &&& test it 1 (fun c => toLower cc c =? 120)%N = Some false /\
  isC it 0 48%N &&& test it 1 (fun c => toLower cc c =? 98)%N = Some false.
Proof.
  intros H. unfold isC, test. destruct it as [|c x]; [split; reflexivity|]. cbn [peek option_map].
  destruct (N.eqb_spec c 48) as [->|]; [|split; reflexivity]. cbn [mAnd]. destruct (H x eq_refl) as [H1 H2].
  destruct x as [|d x]; cbn [peek option_map].
  - rewrite (lower_nul cc OK). split; reflexivity.
  - specialize (H1 d x eq_refl). specialize (H2 d x eq_refl). apply N.eqb_neq in H1, H2. rewrite H1, H2. split; reflexivity.
Qed.

Lemma lexNumber_plain st id it i3 it3 hp num : noPrefix it ->
  numLoop cc false false false it 0 [] = (i3, it3, hp, num) -> ~ expStart cc it3 ->
  lexNumber cc st id it = if hp then simple st id T_DNUMBER i3
     else simple st id (if toLongOk num 10 then T_LNUMBER else T_DNUMBER) i3.
Proof.
  intros HP HL HE. destruct (prefix_tests it HP) as [E1 E2]. unfold lexNumber. rewrite E1. cbv iota. rewrite E2. cbv iota.
  rewrite HL. destruct (exp_test it3) as [b [Eb Hb]]. cbn [negb andb mAnd]. unfold test, isC, test in Eb |- *. rewrite Eb.
  replace b with false by (destruct b; auto; exfalso; apply HE, Hb; auto). reflexivity.
Qed.

Lemma lexNumber_exp st id it i3 e sg ds r hp num : noPrefix it ->
  numLoop cc false false false it 0 [] = (i3, e :: sg ++ ds ++ r, hp, num) -> toLower cc e = 101%N ->
  (sg = [] \/ sg = [45%N] \/ sg = [43%N]) -> ds <> [] -> Forall (fun c => isDigit cc c = true /\ c <> 45 /\ c <> 43)%N ds -> noDigit cc r ->
  lexNumber cc st id it = simple st id T_DNUMBER (i3 + S (List.length sg + List.length ds)).
Proof.
  intros HP HL He Hsg Hne Hds Hr. destruct (prefix_tests it HP) as [E1 E2]. unfold lexNumber. rewrite E1. cbv iota. rewrite E2. cbv iota.
  rewrite HL. destruct (exp_test (e :: sg ++ ds ++ r)) as [b [Eb Hb]]. cbn [negb andb mAnd]. unfold test, isC, test in Eb |- *. rewrite Eb.
  destruct ds as [|d ds]; [congruence|]. pose proof (Forall_inv Hds) as [Hd1 [Hd2 Hd3]].
  assert (Hb' : b = true).
  { apply Hb. exists e, (sg ++ (d :: ds) ++ r). split; auto. split; auto. destruct Hsg as [->|[-> | ->]].
    - left. exists d, (ds ++ r). auto.
    - right. exists 45%N, d, (ds ++ r). auto.
    - right. exists 43%N, d, (ds ++ r). auto. }
  rewrite Hb'. cbn [skipn].
  assert (HS : forall i, skipWhile (isDigit cc) ((d :: ds) ++ r) i = (i + List.length (d :: ds), r)).
  { intros i. apply skipWhile_app; [eapply Forall_impl; [|exact Hds]; cbn; tauto|exact Hr]. }
  apply N.eqb_neq in Hd2, Hd3.
  destruct Hsg as [->|[-> | ->]]; cbn [app peek option_map].
  - rewrite Hd2, Hd3. cbn [mOr]. change (d :: ds ++ r) with ((d :: ds) ++ r). rewrite HS. f_equal. cbn. lia.
  - change (45 =? 45)%N with true. cbn [mOr skipn]. change (d :: ds ++ r) with ((d :: ds) ++ r). rewrite HS. f_equal. cbn. lia.
  - change (43 =? 45)%N with false. change (43 =? 43)%N with true. cbn [mOr skipn]. change (d :: ds ++ r) with ((d :: ds) ++ r). rewrite HS. f_equal. cbn. lia.
Qed.

(** lexDefault at a digit or ".digit" *)
Lemma at_number s q id before it : (s = DefaultState \/ s = StringVariableCurly) ->
  (exists c x, it = c :: x /\ (48 <= c <= 57)%N) \/ (exists c x, it = 46%N :: c :: x /\ (48 <= c <= 57)%N) ->
  lexDefault cc (s :: q) id before it = lexNumber cc (s :: q) id it.
Proof.
  intros _ H. unfold lexDefault.
  assert (SP : forall c, (48 <= c <= 57)%N -> isSpace cc c = false /\ isDigit cc c = true).
  { intros c Hc. rewrite (ok_space _ OK), (ok_digit _ OK) by lia. unfold asciiSpace, asciiDigit.
    split; [rewrite orb_false_iff, andb_false_iff, N.eqb_neq, N.leb_gt, (N.leb_gt c); lia|rewrite andb_true_iff, !N.leb_le; auto]. }
  destruct H as [(c & x & -> & Hc)|(c & x & -> & Hc)]; cbn [peek stateAt nth_error]; destruct (SP c Hc) as [S1 S2].
  - rewrite S1, S2. reflexivity.
  - rewrite (ok_space _ OK), (ok_digit _ OK) by lia. change (asciiSpace 46) with false. cbv iota. change (asciiDigit 46) with false.
    cbn [mOr]. change (46 =? 46)%N with true. unfold test. cbn [mAnd peek option_map]. rewrite S2. reflexivity.
Qed.

Lemma number_yields l text r k : inPhp cc content l (text ++ r) -> text <> [] ->
  (exists c x, text ++ r = c :: x /\ (48 <= c <= 57)%N) \/ (exists c x, text ++ r = 46%N :: c :: x /\ (48 <= c <= 57)%N) ->
  (forall st id, lexNumber cc st id (text ++ r) = simple st id k (List.length text)) ->
  exists l', yields cc content l k text r l' /\ lx_st l' = lx_st l.
Proof.
  intros Hp Hne H1 H2. destruct (inPhp_state _ OK _ _ _ Hp) as [s [q [Hs Hm]]].
  edestruct (php_split cc OK content l text r) as [l' [HY [Hst _]]]; [exact Hp|exact Hne| |left; reflexivity|].
  - rewrite Hs, at_number, H2 by auto. reflexivity.
  - exists l'. split; [exact HY|congruence].
Qed.

Lemma dec_noPrefix s ds r : decDigits s ds -> s <> [] -> (s = [48%N] -> noLetter cc 120 r /\ noLetter cc 98 r) -> noPrefix (s ++ r).
Proof.
  intros H Hne H0 x E. destruct (dec_props _ _ H) as [HF _]. destruct s as [|c s]; [congruence|]. injection E as -> <-.
  destruct s as [|d s]; [cbn; apply H0; reflexivity|].
  pose proof (Forall_inv (Forall_inv_tail HF)) as [_ [_ [Hl Hd]]].
  split; intros c' s' E; injection E as <- _; rewrite Hl; lia.
Qed.

Lemma dec_chars s ds hp : decDigits s ds -> Forall (fun c => numChar cc false false hp c = true /\ c <> 46%N) s.
Proof.
  intros H. destruct (dec_props _ _ H) as [HF _]. eapply Forall_impl; [|exact HF]. cbn. intros a (H1&H2&_).
  split; auto. now apply digit_numChar.
Qed.

Lemma integer_token l s ds r : inPhp cc content l (s ++ r) -> s <> [] -> decDigits s ds ->
  (s = [48%N] -> noLetter cc 120 r /\ noLetter cc 98 r) -> noDigit cc r -> noDot r -> ~ expStart cc r ->
  exists l', yields cc content l (if (value 10 ds <=? phpIntMax)%N then T_LNUMBER else T_DNUMBER) s r l' /\ lx_st l' = lx_st l.
Proof.
  intros Hp Hne Hd H0 H1 H2 H3. destruct (dec_props _ _ Hd) as [HF [HV H10]].
  apply number_yields; auto.
  - left. destruct s as [|c s]; [congruence|]. exists c, (s ++ r). split; auto. exact (proj2 (proj2 (proj2 (Forall_inv HF)))).
  - intros st id. rewrite (lexNumber_plain st id (s ++ r) (List.length s) r false s).
    + rewrite (toLong_value 10 s ds) by auto. reflexivity.
    + eapply dec_noPrefix; eauto.
    + rewrite num_digits by (eapply dec_chars; eauto). apply num_stop. now apply stop_numChar; auto.
    + auto.
Qed.

Lemma float_point_loop s1 ds1 s2 ds2 r : decDigits s1 ds1 -> decDigits s2 ds2 -> noDigit cc r ->
  exists num, numLoop cc false false false (s1 ++ 46%N :: s2 ++ r) 0 [] = (List.length (s1 ++ 46%N :: s2), r, true, num).
Proof.
  intros H1 H2 Hr. rewrite num_digits by (eapply dec_chars; eauto). cbn [numLoop].
  replace (numChar cc false false false 46) with true by (unfold numChar; cbn; rewrite orb_true_r; reflexivity).
  change (46 =? 46)%N with true. cbv iota. rewrite num_digits by (eapply dec_chars; eauto).
  rewrite num_stop by (apply stop_numChar; auto). eexists. rewrite app_length. cbn [List.length]. rewrite Nat.add_0_l, Nat.add_succ_l, Nat.add_succ_r. reflexivity.
Qed.

Lemma point_start s1 ds1 s2 ds2 r : decDigits s1 ds1 -> decDigits s2 ds2 -> s1 ++ s2 <> [] ->
  (exists c x, (s1 ++ 46%N :: s2) ++ r = c :: x /\ (48 <= c <= 57)%N) \/ (exists c x, (s1 ++ 46%N :: s2) ++ r = 46%N :: c :: x /\ (48 <= c <= 57)%N).
Proof.
  intros H1 H2 Hne. destruct (dec_props _ _ H1) as [F1 _]. destruct (dec_props _ _ H2) as [F2 _].
  destruct s1 as [|c s1].
  - destruct s2 as [|d s2]; [cbn in Hne; congruence|]. right. exists d, (s2 ++ r). split; auto. exact (proj2 (proj2 (proj2 (Forall_inv F2)))).
  - left. exists c, ((s1 ++ 46%N :: s2) ++ r). split; auto. exact (proj2 (proj2 (proj2 (Forall_inv F1)))).
Qed.
Lemma point_noPrefix s1 ds1 x : decDigits s1 ds1 -> noPrefix (s1 ++ 46%N :: x).
Proof.
  intros H. destruct s1 as [|c s1]; [intros y E; discriminate|]. eapply dec_noPrefix; [exact H|discriminate|].
  intros _. split; intros c' s' E; injection E as <- _; rewrite (ok_lower _ OK) by lia; discriminate.
Qed.

Lemma float_token l s1 ds1 s2 ds2 r : inPhp cc content l ((s1 ++ 46%N :: s2) ++ r) -> decDigits s1 ds1 -> decDigits s2 ds2 ->
  s1 ++ s2 <> [] -> noDigit cc r -> ~ expStart cc r ->
  exists l', yields cc content l T_DNUMBER (s1 ++ 46%N :: s2) r l' /\ lx_st l' = lx_st l.
Proof.
  intros Hp H1 H2 Hne Hr He. apply number_yields; auto.
  - destruct s1; discriminate.
  - eapply point_start; eauto.
  - intros st id. rewrite <- app_assoc. cbn [app]. destruct (float_point_loop s1 ds1 s2 ds2 r H1 H2 Hr) as [num EN].
    rewrite (lexNumber_plain st id _ _ _ _ _ (point_noPrefix _ _ _ H1) EN He). reflexivity.
Qed.

Lemma float_exp_token l (s1 : qstring) ds1 (s2 : qstring) ds2 (pt : bool) e (sg s3 : qstring) ds3 (r : qstring) :
  inPhp cc content l ((s1 ++ (if pt then 46%N :: s2 else []) ++ e :: sg ++ s3) ++ r) -> decDigits s1 ds1 -> decDigits s2 ds2 -> decDigits s3 ds3 ->
  (if pt then s1 ++ s2 <> [] else s1 <> []) -> (e = 101 \/ e = 69)%N -> (sg = [] \/ sg = [45%N] \/ sg = [43%N]) -> s3 <> [] -> noDigit cc r ->
  exists l', yields cc content l T_DNUMBER (s1 ++ (if pt then 46%N :: s2 else []) ++ e :: sg ++ s3) r l' /\ lx_st l' = lx_st l.
Proof.
  intros Hp H1 H2 H3 Hne He Hsg Hne3 Hr.
  assert (Hel : toLower cc e = 101%N) by (destruct He as [-> | ->]; rewrite (ok_lower _ OK) by lia; reflexivity).
  assert (Hed : isDigit cc e = false) by (destruct He as [-> | ->]; rewrite (ok_digit _ OK) by lia; reflexivity).
  assert (F3 : Forall (fun c => isDigit cc c = true /\ c <> 45 /\ c <> 43)%N s3).
  { destruct (dec_props _ _ H3) as [F _]. eapply Forall_impl; [|exact F]. cbn. intros a (?&?&?&?). repeat split; auto; lia. }
  assert (Htail : noDigit cc (e :: sg ++ s3 ++ r)) by (intros c s E; injection E as <- _; auto).
  apply number_yields; auto.
  - destruct s1; [|discriminate]. destruct pt; discriminate.
  - destruct pt.
    + pose proof (point_start s1 ds1 s2 ds2 ((e :: sg ++ s3) ++ r) H1 H2 Hne) as H.
      rewrite <- !app_assoc in *. cbn [app] in *. rewrite <- ?app_assoc in *. exact H.
    + left. destruct (dec_props _ _ H1) as [F1 _]. destruct s1 as [|c s1]; [congruence|].
      do 2 eexists. split; [reflexivity|]. exact (proj2 (proj2 (proj2 (Forall_inv F1)))).
  - intros st id. rewrite <- !app_assoc. cbn [app]. rewrite <- app_assoc. destruct pt.
    + cbn [app]. destruct (float_point_loop s1 ds1 s2 ds2 (e :: sg ++ s3 ++ r) H1 H2 Htail) as [num EN].
      rewrite (lexNumber_exp st id _ _ e sg s3 r _ _ (point_noPrefix _ _ _ H1) EN Hel Hsg Hne3 F3 Hr). f_equal.
      rewrite !app_length. cbn [List.length]. rewrite !app_length. cbn [List.length]. rewrite !app_length. lia.
    + cbn [app].
      assert (HP : noPrefix (s1 ++ e :: sg ++ s3 ++ r)).
      { eapply dec_noPrefix; [exact H1|exact Hne|]. intros _. split; intros c' s' E; injection E as <- _; rewrite Hel; discriminate. }
      rewrite (lexNumber_exp st id _ (List.length s1) e sg s3 r false s1 HP); auto.
      * f_equal. rewrite !app_length. cbn [List.length]. rewrite !app_length. lia.
      * rewrite num_digits by (eapply dec_chars; eauto). apply num_stop. apply stop_numChar; [auto|right].
        intros s E; injection E as E _. destruct He; congruence.
Qed.

(** Hexadecimal *)
Lemma hex_props s ds : hexDigits s ds -> Forall (fun c => numChar cc true false false c = true /\ c <> 46%N) s /\
  map digitVal s = map Some ds /\ Forall (fun d => d < 16)%N ds.
Proof.
  unfold hexDigits. revert ds. induction s as [|c s IH]; intros [|d ds] H; try discriminate.
  - repeat split; constructor.
  - injection H as H1 H2. destruct (IH ds H2) as [A [B C]]. apply hex_val in H1 as [D1 [D2 [D3 D4]]].
    split; [constructor; auto|]. split; [cbn; now rewrite D1, B|constructor; auto].
Qed.

Lemma hex_token l x s ds r : inPhp cc content l ((48%N :: x :: s) ++ r) -> (x = 120 \/ x = 88)%N -> s <> [] -> hexDigits s ds ->
  (forall b y, s = 48%N :: b :: y -> b <> 98%N /\ b <> 66%N) -> (s = [48%N] -> noLetter cc 98 r) ->
  noDigit cc r -> noHexDigit cc r ->
  exists l', yields cc content l (if (value 16 ds <=? phpIntMax)%N then T_LNUMBER else T_DNUMBER) (48%N :: x :: s) r l' /\ lx_st l' = lx_st l.
Proof.
  intros Hp Hx Hne Hd Hnb Hnb2 Hr1 Hr2. destruct (hex_props _ _ Hd) as [HF [HV H16]].
  assert (Hxl : toLower cc x = 120%N) by (destruct Hx as [-> | ->]; rewrite (ok_lower _ OK) by lia; reflexivity).
  apply number_yields; auto; [discriminate| |].
  - left. do 2 eexists. split; [reflexivity|lia].
  - intros st id. unfold lexNumber. cbn [app].
    assert (E1 : isC (48%N :: x :: s ++ r) 0 48%N &&& test (48%N :: x :: s ++ r) 1 (fun c => toLower cc c =? 120)%N = Some true).
    { unfold isC, test. cbn [peek option_map]. change (48 =? 48)%N with true. cbn [mAnd]. now rewrite Hxl. }
    rewrite E1. cbv iota. cbn [skipn].
    assert (E2 : isC (s ++ r) 0 48%N &&& test (s ++ r) 1 (fun c => toLower cc c =? 98)%N = Some false).
    { unfold isC, test. destruct s as [|c s]; [congruence|]. cbn [app peek option_map].
      destruct (N.eqb_spec c 48) as [->|]; [|reflexivity]. cbn [mAnd].
      destruct s as [|b s]; cbn [app].
      - specialize (Hnb2 eq_refl). destruct r as [|b r]; cbn [peek option_map].
        + rewrite (lower_nul cc OK). reflexivity.
        + specialize (Hnb2 b r eq_refl). apply N.eqb_neq in Hnb2. now rewrite Hnb2.
      - cbn [peek option_map]. specialize (Hnb b s eq_refl). f_equal. apply N.eqb_neq.
        assert (Hb : (b < 128)%N).
        { unfold hexDigits in Hd. destruct ds as [|d0 [|d1 ds]]; try discriminate. cbn [map] in Hd. injection Hd as _ Hd _.
          unfold hexDigit in Hd. destruct ((48 <=? b) && (b <=? 57))%N eqn:X1; [apply andb_true_iff in X1; rewrite !N.leb_le in X1; lia|].
          destruct ((97 <=? b) && (b <=? 102))%N eqn:X2; [apply andb_true_iff in X2; rewrite !N.leb_le in X2; lia|].
          destruct ((65 <=? b) && (b <=? 70))%N eqn:X3; [apply andb_true_iff in X3; rewrite !N.leb_le in X3; lia|discriminate]. }
        rewrite (ok_lower _ OK) by auto. unfold asciiToLower, asciiUpper.
        destruct ((65 <=? b) && (b <=? 90))%N; lia. }
    rewrite E2. cbv iota.
    assert (EN : numLoop cc true false false (s ++ r) 2 [] = (2 + List.length s, r, false, s)).
    { rewrite num_digits by auto. apply num_stop. intros c y E. unfold numChar. rewrite (Hr1 c y E). cbn [negb andb orb].
      specialize (Hr2 c y E). unfold hexDigit in Hr2. 
      destruct ((48 <=? toLower cc c) && (toLower cc c <=? 57))%N; [discriminate|].
      destruct ((97 <=? toLower cc c) && (toLower cc c <=? 102))%N eqn:X; [discriminate|].
      rewrite andb_false_iff, !N.leb_gt in X.
      rewrite !orb_false_iff, !N.eqb_neq. lia. }
    rewrite EN. cbn [negb andb mAnd]. rewrite (toLong_value 16 s ds) by auto. reflexivity.
Qed.

(** Binary: what the code does is read the digits as a decimal number. *)
Lemma bin_token l b s ds r : inPhp cc content l ((48%N :: b :: s) ++ r) -> (b = 98 \/ b = 66)%N -> s <> [] -> binDigits s ds ->
  noDigit cc r -> noDot r ->
  exists l', yields cc content l (if (value 10 ds <=? phpIntMax)%N then T_LNUMBER else T_DNUMBER) (48%N :: b :: s) r l' /\ lx_st l' = lx_st l.
Proof.
  intros Hp Hb Hne [Hd _] Hr1 Hr2. destruct (dec_props s ds Hd) as [HF [HV H10]].
  assert (Hbl : toLower cc b = 98%N) by (destruct Hb as [-> | ->]; rewrite (ok_lower _ OK) by lia; reflexivity).
  apply number_yields; auto; [discriminate| |].
  - left. do 2 eexists. split; [reflexivity|lia].
  - intros st id. unfold lexNumber. cbn [app].
    assert (E1 : isC (48%N :: b :: s ++ r) 0 48%N &&& test (48%N :: b :: s ++ r) 1 (fun c => toLower cc c =? 120)%N = Some false).
    { unfold isC, test. cbn [peek option_map]. change (48 =? 48)%N with true. cbn [mAnd]. now rewrite Hbl. }
    assert (E2 : isC (48%N :: b :: s ++ r) 0 48%N &&& test (48%N :: b :: s ++ r) 1 (fun c => toLower cc c =? 98)%N = Some true).
    { unfold isC, test. cbn [peek option_map]. change (48 =? 48)%N with true. cbn [mAnd]. now rewrite Hbl. }
    rewrite E1. cbv iota. rewrite E2. cbv iota. cbn [skipn].
    assert (EN : numLoop cc false true false (s ++ r) (0 + 2) [] = (2 + List.length s, r, false, s)).
    { rewrite num_digits by (eapply Forall_impl; [|exact HF]; cbn; intros a (A&B&_); split; auto; now apply digit_numChar).
      apply num_stop. intros c y E. unfold numChar. rewrite (Hr1 c y E). cbn [negb andb orb].
      destruct (N.eqb_spec c 46) as [->|]; [exfalso; apply (Hr2 y E)|]. cbn [orb].
      assert (D : isDigit cc c = false) by eauto.
      rewrite orb_false_r, orb_false_iff, !N.eqb_neq. split; intros ->; rewrite (ok_digit _ OK) in D by lia; discriminate. }
    rewrite EN. cbn [negb andb mAnd]. rewrite (toLong_value 10 s ds) by auto. reflexivity.
Qed.

Lemma value_bound ds : Forall (fun d => d < 2)%N ds -> (value 10 ds <= (10 ^ N.of_nat (List.length ds) - 1) / 9)%N /\ (value 2 ds < 2 ^ N.of_nat (List.length ds))%N.
Proof.
  induction 1 as [|d ds Hd _ [IH1 IH2]]; [split; cbn; lia|].
  cbn [value List.length]. rewrite Nat2N.inj_succ, !N.pow_succ_r'. split.
  - set (p := (10 ^ N.of_nat (List.length ds))%N) in *. assert (1 <= p)%N by (unfold p; pose proof (N.pow_nonzero 10 (N.of_nat (List.length ds))); lia).
    apply N.div_le_lower_bound; [lia|].
    assert (9 * value 10 ds <= p - 1)%N. { etransitivity; [apply N.mul_le_mono_l; exact IH1|]. apply N.mul_div_le. lia. }
    assert (d * p <= p)%N by (destruct d as [|[| |]]; lia). lia.
  - set (p := (2 ^ N.of_nat (List.length ds))%N) in *. assert (d * p <= p)%N by (destruct d as [|[| |]]; lia). lia.
Qed.

Lemma bin_small ds : Forall (fun d => d < 2)%N ds -> List.length ds <= 19 -> (value 10 ds <=? phpIntMax)%N = true /\ (value 2 ds <= phpIntMax)%N.
Proof.
  intros HF HL. destruct (value_bound ds HF) as [H1 H2].
  assert (HN : (N.of_nat (List.length ds) <= 19)%N) by lia.
  split.
  - apply N.leb_le. etransitivity; [exact H1|]. etransitivity.
    + apply N.div_le_mono; [lia|]. apply N.sub_le_mono_r. apply N.pow_le_mono_r; [lia|exact HN].
    + vm_compute. discriminate.
  - assert (2 ^ N.of_nat (List.length ds) <= 2 ^ 19)%N by (apply N.pow_le_mono_r; [lia|exact HN]).
    apply N.lt_le_incl. eapply N.lt_le_trans; [exact H2|]. etransitivity; [exact H|]. vm_compute. discriminate.
Qed.
End F.
