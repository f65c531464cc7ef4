From Verif Require Import Chars HoverModel HoverSpec.

Section Word.
Variable cc : CharClass.
Hypothesis OK : ascii_ok cc.

Lemma nul_no_word : inWord cc 0%N = false.
Proof. unfold inWord. rewrite (ok_letter cc OK) by lia. reflexivity. Qed.
Lemma charAt_word line i : inWord cc (charAt line (Z.of_nat i)) = true <-> wordAt cc line i.
Proof.
  unfold charAt, wordAt. rewrite Nat2Z.id. destruct (nth_error line i) as [c|] eqn:E.
  - rewrite (nth_error_nth line i 0%N E). split; [eauto|]. intros (c' & H & W). now injection H as ->.
  - assert (L := proj1 (nth_error_None line i) E). rewrite nth_overflow by auto. rewrite nul_no_word.
    split; [discriminate|]. intros (c' & H & _). discriminate.
Qed.
Lemma charAt_noword line i : inWord cc (charAt line (Z.of_nat i)) = false <-> ~ wordAt cc line i.
Proof. rewrite <- charAt_word. destruct (inWord cc (charAt line (Z.of_nat i))); split; congruence. Qed.

Lemma start_inside line col k a : (a <= k)%nat -> (forall i, (a <= i <= k)%nat -> wordAt cc line i) ->
  (forall i, S i = a -> ~ wordAt cc line i) -> (k <= col)%nat ->
  fst (startLoop cc line (Z.of_nat col) k) = (if (a =? 0)%nat then -1 else Z.of_nat a)%Z.
Proof.
  revert a. induction k as [|k IH]; intros a Ha HW HB Hk.
  - assert (a = 0%nat) by lia. subst a. cbn [startLoop]. rewrite (proj2 (charAt_word line 0)) by (apply HW; lia). reflexivity.
  - cbn [startLoop]. rewrite (proj2 (charAt_word line (S k))) by (apply HW; lia). cbn [negb].
    destruct (startLoop cc line (Z.of_nat col) k) as [r l] eqn:E. cbn [fst].
    destruct (Nat.eq_dec a (S k)) as [->|Hne].
    + assert (X := HB k eq_refl). apply charAt_noword in X.
      assert (r = Z.of_nat (S k)).
      { destruct k; cbn [startLoop] in E; rewrite X in E; cbn [negb] in E;
        (destruct (Z.of_nat _ =? Z.of_nat col)%Z eqn:C; [lia|]); injection E as <- <-; lia. }
      subst r. reflexivity.
    + specialize (IH a ltac:(lia) ltac:(intros; apply HW; lia) HB ltac:(lia)). exact IH.
Qed.
Lemma start_outside line col : ~ wordAt cc line col -> startLoop cc line (Z.of_nat col) col = (Z.of_nat col, [Z.of_nat col]).
Proof. intros H. apply charAt_noword in H. destruct col; cbn [startLoop]; rewrite H; cbn [negb]; now rewrite Z.eqb_refl. Qed.
Lemma start_reads line col k i : In i (snd (startLoop cc line col k)) -> (0 <= i <= Z.of_nat k)%Z.
Proof.
  revert i. induction k as [|k IH]; intros i; cbn [startLoop].
  - destruct (negb _); cbn; lia.
  - destruct (negb _); cbn [snd]; [cbn; lia|]. destruct (startLoop cc line col k) as [r l]. cbn [snd] in *.
    intros [<-|H]; [lia|]. specialize (IH i H). lia.
Qed.
Lemma end_inside line e b fuel : (e <= b)%nat -> (forall i, (e <= i < b)%nat -> wordAt cc line i) -> ~ wordAt cc line b ->
  (b - e < fuel)%nat -> fst (endLoop cc line (Z.of_nat e) fuel) = Z.of_nat b.
Proof.
  revert e. induction fuel as [|fuel IH]; intros e He HW HB Hf; [lia|]. cbn [endLoop].
  destruct (Nat.eq_dec e b) as [->|Hne].
  - apply charAt_noword in HB. rewrite HB. reflexivity.
  - rewrite (proj2 (charAt_word line e)) by (apply HW; lia). cbn [negb].
    specialize (IH (S e) ltac:(lia) ltac:(intros; apply HW; lia) HB ltac:(lia)).
    replace (Z.of_nat e + 1)%Z with (Z.of_nat (S e)) by lia.
    destruct (endLoop cc line (Z.of_nat (S e)) fuel) as [r l]. exact IH.
Qed.
Lemma end_reads line e fuel i : In i (snd (endLoop cc line e fuel)) -> (e <= i < e + Z.of_nat fuel)%Z.
Proof.
  revert e. induction fuel as [|fuel IH]; intros e; cbn [endLoop]; [cbn; tauto|].
  destruct (negb _); cbn [snd]; [cbn; lia|]. specialize (IH (e + 1)%Z).
  destruct (endLoop cc line (e + 1)%Z fuel) as [r l]. cbn [snd] in *. intros [<-|H]; [lia|]. specialize (IH H). lia.
Qed.

Lemma wordAt_lt line i : wordAt cc line i -> (i < List.length line)%nat.
Proof. intros (c & H & _). apply nth_error_Some. congruence. Qed.

Lemma found_parts line col a b : maximalWord cc line a b -> (a <= col < b)%nat ->
  rStart (wordUnderCursor cc line col) = (if (a =? 0)%nat then -1 else Z.of_nat a)%Z /\
  rEnd (wordUnderCursor cc line col) = Z.of_nat b /\ word (wordUnderCursor cc line col) = columns line a b.
Proof.
  intros (HL & HW & HE & HS) Hc. unfold wordUnderCursor.
  assert (S1 := start_inside line col col a ltac:(lia) ltac:(intros; apply HW; lia) HS (le_n _)).
  assert (E1 := end_inside line col b (S (List.length line) - col) ltac:(lia) ltac:(intros; apply HW; lia) HE ltac:(lia)).
  destruct (startLoop cc line (Z.of_nat col) col) as [s l1]. destruct (endLoop cc line (Z.of_nat col) (S (List.length line) - col)) as [e l2].
  cbn [fst] in *. subst s e. cbn [rStart rEnd word]. split; auto. split; auto.
  unfold mid, columns. destruct a as [|a]; cbn [Nat.eqb].
  - replace (Z.of_nat b - -1 + -1)%Z with (Z.of_nat b) by lia. rewrite Nat.sub_0_r. cbn [skipn].
    destruct (-1 >? Z.of_nat (List.length line))%Z eqn:X; [lia|]. cbn [Z.ltb Z.compare].
    destruct (Z.of_nat b - -1 <? 0)%Z eqn:Y; [lia|]. cbn [orb].
    destruct (Z.of_nat b >=? Z.of_nat (List.length line))%Z eqn:Z1.
    + replace b with (List.length line) by lia. now rewrite firstn_all.
    + destruct (Z.of_nat b <=? 0)%Z eqn:Z2; [lia|]. now rewrite Nat2Z.id.
  - destruct (Z.of_nat (S a) >? Z.of_nat (List.length line))%Z eqn:X; [lia|].
    destruct (Z.of_nat (S a) <? 0)%Z eqn:Y; [lia|].
    destruct (Z.of_nat b - Z.of_nat (S a) <? 0)%Z eqn:Z1; [lia|]. cbn [orb].
    destruct (Z.of_nat b - Z.of_nat (S a) >? Z.of_nat (List.length line) - Z.of_nat (S a))%Z eqn:Z2; [lia|].
    rewrite Nat2Z.id. now replace (Z.to_nat (Z.of_nat b - Z.of_nat (S a))) with (b - S a)%nat by lia.
Qed.
Lemma found_none line col : ~ wordAt cc line col ->
  rStart (wordUnderCursor cc line col) = Z.of_nat col /\ rEnd (wordUnderCursor cc line col) = Z.of_nat col /\
  word (wordUnderCursor cc line col) = [].
Proof.
  intros H. unfold wordUnderCursor. rewrite start_outside by auto.
  assert (E1 : fst (endLoop cc line (Z.of_nat col) (S (List.length line) - col)) = Z.of_nat col).
  { destruct (S (List.length line) - col)%nat as [|f] eqn:F; auto. apply end_inside; auto; try lia. }
  destruct (endLoop cc line (Z.of_nat col) (S (List.length line) - col)) as [e l2]. cbn [fst] in E1. subst e.
  cbn [rStart rEnd word]. split; auto. split; auto. rewrite Z.sub_diag. unfold mid.
  destruct (Z.of_nat col >? _)%Z eqn:X; auto. destruct (Z.of_nat col <? 0)%Z eqn:Y; [lia|].
  destruct (0 >? _)%Z eqn:W; [lia|]. reflexivity.
Qed.
Theorem reads_inside line col i : (col <= List.length line)%nat -> In i (reads (wordUnderCursor cc line col)) ->
  (0 <= i <= Z.of_nat (List.length line))%Z.
Proof.
  intros HC. unfold wordUnderCursor.
  assert (A := start_reads line (Z.of_nat col) col i). assert (B := end_reads line (Z.of_nat col) (S (List.length line) - col) i).
  destruct (startLoop cc line (Z.of_nat col) col) as [s l1]. destruct (endLoop cc line (Z.of_nat col) (S (List.length line) - col)) as [e l2].
  cbn [reads snd] in *. intros H. apply in_app_or in H. destruct H as [H|H].
  - specialize (A H). lia.
  - specialize (B H). lia.
Qed.

Lemma wordAt_dec line i : {wordAt cc line i} + {~ wordAt cc line i}.
Proof. destruct (inWord cc (charAt line (Z.of_nat i))) eqn:E; [left; now apply charAt_word|right; now apply charAt_noword]. Qed.
Lemma run_start line col : wordAt cc line col -> exists a, (a <= col)%nat /\ (forall i, (a <= i <= col)%nat -> wordAt cc line i) /\
  (forall i, S i = a -> ~ wordAt cc line i).
Proof.
  induction col as [|col IH]; intros W.
  - exists 0%nat. split; [lia|]. split; [intros i Hi; now replace i with 0%nat by lia|]. intros; lia.
  - destruct (wordAt_dec line col) as [W'|W'].
    + destruct (IH W') as (a & A & B & C). exists a. split; [lia|]. split; auto. intros i Hi.
      destruct (Nat.eq_dec i (S col)) as [->|]; auto. apply B. lia.
    + exists (S col). split; [lia|]. split; [intros i Hi; now replace i with (S col) by lia|]. intros i Hi. now injection Hi as ->.
Qed.
Lemma run_end line n col : (List.length line - col <= n)%nat -> wordAt cc line col ->
  exists b, (col < b <= List.length line)%nat /\ (forall i, (col <= i < b)%nat -> wordAt cc line i) /\ ~ wordAt cc line b.
Proof.
  revert col. induction n as [|n IH]; intros col Hn W.
  - apply wordAt_lt in W. lia.
  - assert (L := wordAt_lt _ _ W). destruct (wordAt_dec line (S col)) as [W'|W'].
    + destruct (IH (S col) ltac:(lia) W') as (b & A & B & C). exists b. split; [lia|]. split; auto. intros i Hi.
      destruct (Nat.eq_dec i col) as [->|]; auto. apply B. lia.
    + exists (S col). split; [lia|]. split; auto. intros i Hi. now replace i with col by lia.
Qed.
Lemma run_exists line col : wordAt cc line col -> exists a b, maximalWord cc line a b /\ (a <= col < b)%nat.
Proof.
  intros W. destruct (run_start line col W) as (a & A1 & A2 & A3). destruct (run_end line _ col (le_n _) W) as (b & B1 & B2 & B3).
  exists a, b. split; [|lia]. split; [lia|]. split; [|auto]. intros i Hi. destruct (le_lt_dec i col); [apply A2|apply B2]; lia.
Qed.

Theorem magic_spec line col : isMagicConstant (wordUnderCursor cc line col) = true <->
  exists a b n, maximalWord cc line a b /\ (0 < a <= col)%nat /\ (col < b)%nat /\ In n magicNames /\ columns line a b = str n.
Proof.
  split.
  - intros H. destruct (wordAt_dec line col) as [W|W].
    + assert (X : exists a b, maximalWord cc line a b /\ (a <= col < b)%nat) by (apply run_exists; auto).
      destruct X as (a & b & M & C). destruct (found_parts line col a b M C) as (F1 & F2 & F3).
      unfold isMagicConstant in H. rewrite F1, F2, F3 in H.
      destruct a as [|a]; [discriminate|]. cbn [Nat.eqb] in H.
      destruct (((0 <=? Z.of_nat (S a)) && (0 <=? Z.of_nat b))%Z && negb (Z.of_nat (S a) =? Z.of_nat b)%Z); try discriminate.
      apply existsb_exists in H. destruct H as (n & Hn & E). apply eqs_eq in E.
      exists (S a), b, n. split; [exact M|]. split; [lia|]. split; [lia|]. auto.
    + destruct (found_none line col W) as (F1 & F2 & F3). unfold isMagicConstant in H. rewrite F1, F2, Z.eqb_refl in H.
      rewrite andb_false_r in H. discriminate.
  - intros (a & b & n & M & Ha & Hb & Hn & E).
    destruct (found_parts line col a b M ltac:(lia)) as (F1 & F2 & F3). unfold isMagicConstant. rewrite F1, F2, F3.
    destruct a as [|a]; [lia|]. cbn [Nat.eqb].
    destruct (((0 <=? Z.of_nat (S a)) && (0 <=? Z.of_nat b))%Z && negb (Z.of_nat (S a) =? Z.of_nat b)%Z) eqn:X; [|lia].
    apply existsb_exists. exists n. split; auto. apply eqs_eq. auto.
Qed.
End Word.

(** ** Scopes *)
Lemma kindEq_eq a b : kindEq a b = true <-> a = b.
Proof. destruct a, b; cbn; split; congruence. Qed.

Fixpoint findIn (pos : nat) (l : list Tree) : option (list Node) :=
  match l with
  | [] => None
  | c :: r => match findIn pos r with Some x => Some x | None => findContextAt c pos end
  end.
Lemma findContextAt_eq n cs pos : findContextAt (T n cs) pos =
  if contains n pos then match findIn pos cs with Some ch => Some (ch ++ [n]) | None => Some [n] end else None.
Proof.
  cbn [findContextAt]. destruct (contains n pos); auto.
  assert (E : forall l, (fix go (l : list Tree) : option (list Node) :=
                 match l with
                 | [] => None
                 | c :: r => match go r with Some x => Some x | None => findContextAt c pos end
                 end) l = findIn pos l).
  { induction l as [|c r IH]; auto. cbn [findIn]. now rewrite <- IH. }
  now rewrite E.
Qed.
Fixpoint Tree_rect' (P : Tree -> Prop) (H : forall n cs, Forall P cs -> P (T n cs)) (t : Tree) : P t :=
  match t with
  | T n cs => H n cs ((fix go l : Forall P l := match l with [] => Forall_nil P | c :: r => Forall_cons c (Tree_rect' P H c) (go r) end) cs)
  end.
Lemma findAt_none t pos : findContextAt t pos = None <-> covers t pos = false.
Proof.
  destruct t as [n cs]. rewrite findContextAt_eq. cbn [covers]. destruct (contains n pos); [|tauto].
  destruct (findIn pos cs); split; discriminate.
Qed.
Lemma findIn_some pos cs ch : findIn pos cs = Some ch -> exists c, In c cs /\ findContextAt c pos = Some ch.
Proof.
  induction cs as [|c r IH]; cbn; try discriminate. destruct (findIn pos r) as [x|] eqn:E.
  - intros H. destruct (IH H) as (c' & A & B). eauto.
  - eauto.
Qed.
Lemma findIn_none pos cs : findIn pos cs = None -> forall c, In c cs -> covers c pos = false.
Proof.
  induction cs as [|c r IH]; cbn; [tauto|]. destruct (findIn pos r); try discriminate. intros H c' [<-|H']; auto.
  now apply findAt_none.
Qed.
Lemma findAt_sound pos t : forall ch, findContextAt t pos = Some ch -> At pos t ch.
Proof.
  induction t as [n cs IH] using Tree_rect'. intros ch. rewrite findContextAt_eq.
  destruct (contains n pos) eqn:C; try discriminate. destruct (findIn pos cs) as [x|] eqn:F; intros H; injection H as <-.
  - destruct (findIn_some pos cs x F) as (c & Hc & Hx). rewrite Forall_forall in IH. eapply AtChild; eauto.
  - constructor; auto. now apply findIn_none.
Qed.
Lemma At_covers pos t ch : At pos t ch -> covers t pos = true.
Proof. now inversion 1. Qed.
Lemma findIn_only pos cs c ch : wfTree (T (Build_Node KOther 0 0 [] None) cs) -> In c cs -> findContextAt c pos = Some ch -> findIn pos cs = Some ch.
Proof.
  intros W. inversion W as [n' cs' _ D]; subst. clear W. revert D. induction cs as [|x r IH]; intros D Hc H; [destruct Hc|]. destruct Hc as [->|Hin]; cbn.
  - destruct (findIn pos r) as [y|] eqn:F; auto. exfalso. destruct (findIn_some _ _ _ F) as (c' & Hc & Hf).
    destruct (In_nth_error _ _ Hc) as (j & Hj).
    assert (covers c pos = true) by (destruct (covers c pos) eqn:Q; auto; apply findAt_none in Q; congruence).
    assert (covers c' pos = true) by (destruct (covers c' pos) eqn:Q; auto; apply findAt_none in Q; congruence).
    rewrite (D 0%nat (S j) c c' eq_refl Hj ltac:(discriminate) pos) in *; congruence.
  - rewrite IH; auto. intros i j a b Hi Hj Hne. apply (D (S i) (S j) a b Hi Hj). lia.
Qed.
Lemma wf_siblings n m cs : wfTree (T n cs) -> wfTree (T m cs).
Proof. inversion 1; subst. constructor; auto. Qed.
Lemma findAt_complete pos t ch : wfTree t -> At pos t ch -> findContextAt t pos = Some ch.
Proof.
  intros W A. induction A as [n cs C D|n cs c ch C Hin A IH]; rewrite findContextAt_eq, C.
  - destruct (findIn pos cs) as [x|] eqn:F; auto. destruct (findIn_some _ _ _ F) as (c & Hc & Hf).
    assert (Q := D c Hc). apply findAt_none in Q. congruence.
  - assert (Wc : wfTree c) by (inversion W; auto).
    rewrite (findIn_only pos cs c ch (wf_siblings _ _ _ W) Hin (IH Wc)). reflexivity.
Qed.

Lemma climb_some k ch l : climb k ch = Some l <-> exists c up, l = c :: up /\ innermost k ch c up.
Proof.
  unfold innermost. induction ch as [|x ch IH]; cbn.
  - split; [discriminate|]. intros (c & up & _ & i & H & _). destruct i; discriminate.
  - destruct (kindEq (nKind x) k) eqn:E.
    + apply kindEq_eq in E. split.
      * intros H. injection H as <-. exists x, ch. split; auto. exists []. auto.
      * intros (c & up & -> & i & H & K & F). destruct i as [|y i].
        -- injection H as -> ->. auto.
        -- injection H as -> ->. inversion_clear F. tauto.
    + assert (NE : nKind x <> k) by (rewrite <- kindEq_eq; congruence). rewrite IH. split.
      * intros (c & up & -> & i & -> & K & F). exists c, up. split; auto. exists (x :: i). auto.
      * intros (c & up & -> & i & H & K & F). destruct i as [|y i].
        -- injection H as -> ->. tauto.
        -- injection H as -> ->. inversion_clear F. exists c, up. split; auto. exists i. auto.
Qed.
Lemma climb_none k ch : climb k ch = None <-> Forall (fun x => nKind x <> k) ch.
Proof.
  induction ch as [|x ch IH]; cbn; [split; auto|]. destruct (kindEq (nKind x) k) eqn:E.
  - apply kindEq_eq in E. split; [discriminate|]. intros F. inversion_clear F. tauto.
  - rewrite IH. split; intros F; [constructor; auto; rewrite <- kindEq_eq; congruence|now inversion_clear F].
Qed.

Section Scopes.
Variables (t : Tree) (pos : nat) (ch : list Node).
Hypothesis W : wfTree t.
Hypothesis A : At pos t ch.
Lemma find_climb k : findContext t pos k = climb k ch.
Proof. unfold findContext. now rewrite (findAt_complete pos t ch W A). Qed.
Lemma find_inner k c up : innermost k ch c up -> findContext t pos k = Some (c :: up).
Proof. intros H. rewrite find_climb. apply climb_some. eauto. Qed.
Lemma find_not k : Forall (fun x => nKind x <> k) ch -> findContext t pos k = None.
Proof. intros H. rewrite find_climb. now apply climb_none. Qed.
End Scopes.

Theorem class_value t pos ch : wfTree t -> At pos t ch ->
  (forall c up, innermost KClass ch c up -> classValue t pos = SName (nName c)) /\
  (Forall (fun x => nKind x <> KClass) ch -> classValue t pos = SEmpty).
Proof.
  intros W A. unfold classValue. split.
  - intros c up H. now rewrite (find_inner t pos ch W A _ _ _ H).
  - intros H. now rewrite (find_not t pos ch W A _ H).
Qed.
Theorem function_value t pos ch : wfTree t -> At pos t ch ->
  (forall c up k, innermost KOther ch c up -> nOwner c = Some (true, k) -> functionValue t pos = SName (nName c)) /\
  (forall c up, innermost KOther ch c up -> (forall k, nOwner c <> Some (true, k)) -> functionValue t pos = SEmpty) /\
  (Forall (fun x => nKind x <> KOther) ch -> functionValue t pos = SEmpty).
Proof.
  intros W A. unfold functionValue. split; [|split].
  - intros c up k H E. now rewrite (find_inner t pos ch W A _ _ _ H), E.
  - intros c up H E. rewrite (find_inner t pos ch W A _ _ _ H). destruct (nOwner c) as [[[] k]|]; auto. now destruct (E k).
  - intros H. now rewrite (find_not t pos ch W A _ H).
Qed.
Theorem namespace_value t pos ch : wfTree t -> At pos t ch ->
  (forall c up k, innermost KNamespace ch c up -> nOwner c = Some (k, true) -> namespaceValue t pos = SName (nName c)) /\
  (Forall (fun x => nKind x <> KNamespace) ch -> namespaceValue t pos = SEmpty).
Proof.
  intros W A. unfold namespaceValue. split.
  - intros c up k H E. now rewrite (find_inner t pos ch W A _ _ _ H), E.
  - intros H. now rewrite (find_not t pos ch W A _ H).
Qed.
Theorem method_value t pos ch : wfTree t -> At pos t ch ->
  (forall c p up fuel, innermost KOther ch c (p :: up) -> nKind p = KClass -> methodValue (S fuel) t pos = Some (SMethod (nName p) (nName c))) /\
  (forall fuel, Forall (fun x => nKind x <> KOther) ch -> methodValue (S fuel) t pos = Some SEmpty).
Proof.
  intros W A. split.
  - intros c p up fuel H E. cbn [methodValue]. rewrite (find_inner t pos ch W A _ _ _ H). rewrite (proj2 (kindEq_eq _ _) E). reflexivity.
  - intros fuel H. cbn [methodValue]. now rewrite (find_not t pos ch W A _ H).
Qed.

(** Where the loop does not end. *)
Theorem method_loops t pos ch c p up : wfTree t -> At pos t ch -> innermost KOther ch c (p :: up) -> nKind p <> KClass ->
  At (nFrom c) t (c :: p :: up) -> forall fuel, methodValue fuel t pos = None.
Proof.
  intros W A H NP A'.
  assert (NK : kindEq (nKind p) KClass = false) by (destruct (kindEq (nKind p) KClass) eqn:E; auto; apply kindEq_eq in E; tauto).
  assert (H' : innermost KOther (c :: p :: up) c (p :: up)).
  { destruct H as (i & _ & K & _). exists []. auto. }
  assert (L : forall fuel, methodValue fuel t (nFrom c) = None).
  { induction fuel as [|f IH]; auto. cbn [methodValue]. rewrite (find_inner t _ _ W A' _ _ _ H'), NK. exact IH. }
  intros [|f]; auto. cbn [methodValue]. rewrite (find_inner t _ _ W A _ _ _ H), NK. apply L.
Qed.
