(** Proofs about the completion context: token access (C32, C34). *)
From Verif Require Export ComplSpec LexRun3 LexFun7.
Open Scope nat_scope.

Lemma kind_inj a b : is a b = true -> a = b.
Proof.
  intros H. apply Nat.eqb_eq in H.
  assert (E : forall k, nth_error allKinds (kindNum k) = Some k) by (intros []; reflexivity).
  pose proof (E a) as A. rewrite H, (E b) in A. now injection A.
Qed.
Lemma is_refl a : is a a = true.
Proof. apply Nat.eqb_refl. Qed.
Lemma is_neq a b : a <> b -> is a b = false.
Proof. intros H. destruct (is a b) eqn:E; auto. now apply kind_inj in E. Qed.
Lemma is_false a b : is a b = false -> a <> b.
Proof. intros H ->. now rewrite is_refl in H. Qed.
Lemma isP a b : reflect (a = b) (is a b).
Proof. destruct (is a b) eqn:E; constructor; [now apply kind_inj|now apply is_false]. Qed.

(** ** Token access *)
Section TA.
Variable S : list Token.
Notation size := (Z.of_nat (List.length S)).

Definition on (ta : TA) : Prop := ta_stream ta = S.

Lemma streamAt_ok ta i : on ta -> (0 <= i < size)%Z -> exists t, streamAt ta i = Ok t.
Proof.
  intros E H. unfold streamAt. rewrite E. destruct (Z.ltb_spec i 0); [lia|].
  destruct (nth_error S (Z.to_nat i)) as [t|] eqn:En; eauto.
  apply nth_error_None in En. lia.
Qed.
Lemma streamAt_in ta i t : on ta -> streamAt ta i = Ok t -> (0 <= i < size)%Z.
Proof.
  intros E. unfold streamAt. rewrite E. destruct (Z.ltb_spec i 0); [discriminate|].
  destruct (nth_error S (Z.to_nat i)) as [u|] eqn:En; [|discriminate]. intros _.
  assert (nth_error S (Z.to_nat i) <> None) as H1 by congruence. apply nth_error_Some in H1. lia.
Qed.
Lemma typeAt_in ta r k : on ta -> typeAt ta r = k -> k <> T_INVALID ->
  exists t, streamAt ta (ta_pos ta + r) = Ok t /\ t_kind t = k.
Proof.
  intros E H Hk. unfold typeAt in H.
  destruct (streamAt ta (ta_pos ta + r)) as [t| |]; subst; try congruence. eauto.
Qed.
Lemma typeAt_at ta r t : streamAt ta (ta_pos ta + r) = Ok t -> typeAt ta r = t_kind t.
Proof. intros H. unfold typeAt. now rewrite H. Qed.

(** The kinds a document starts with. *)
Definition isTag (k : Tok) : Prop := k = T_OPEN_TAG \/ k = T_OPEN_TAG_WITH_ECHO.
Variable j : Z.
Hypothesis Hj : (0 <= j < size)%Z.
Hypothesis Htag : forall ta, on ta -> exists t, streamAt ta j = Ok t /\ isTag (t_kind t).
Hypothesis Hhtml : forall ta i t, on ta -> (i < j)%Z -> streamAt ta i = Ok t -> t_kind t = T_INLINE_HTML.

Lemma past ta i t : on ta -> streamAt ta i = Ok t -> t_kind t <> T_INLINE_HTML -> ~ isTag (t_kind t) -> (j < i)%Z.
Proof.
  intros E H H1 H2. destruct (Z.lt_trichotomy i j) as [Hl|[->|Hg]]; auto.
  - now apply (Hhtml ta) in H.
  - destruct (Htag ta E) as [u [Hu Ht]]. congruence.
Qed.

Definition codeKind (k : Tok) : Prop := k <> T_INLINE_HTML /\ ~ isTag k.
Lemma past' ta i t k : on ta -> streamAt ta i = Ok t -> t_kind t = k -> codeKind k -> (j < i)%Z.
Proof. intros E H <- [H1 H2]. eapply past; eauto. Qed.
Ltac code := split; [discriminate|intros [?|?]; discriminate].
Ltac codes := repeat (apply Forall_cons; [code|]); apply Forall_nil.

Lemma prepLoop_ok ta l ws : on ta -> (ta_pos ta < size)%Z -> Forall codeKind l ->
  forall pos, (1 <= pos)%Z -> (j <= ta_pos ta - pos)%Z ->
  exists p, prepLoop ta l ws pos = Ok p /\
    (p = -1 \/ (pos + Z.of_nat (List.length l) <= p /\ j <= ta_pos ta - p))%Z.
Proof.
  intros E Hs HF. induction HF as [|k l Hk HF IH]; intros pos Hp Hr; cbn [prepLoop].
  - exists pos. split; auto. right. cbn. lia.
  - assert (exists p1, (if ws then t <~ streamAt ta (ta_pos ta - pos);;
                Ok (if is (t_kind t) T_WHITESPACE then (pos + 1)%Z else pos) else Ok pos) = Ok p1 /\
              (pos <= p1 /\ j <= ta_pos ta - p1)%Z) as [p1 [Ep [Hp1 Hr1]]].
    { destruct ws; [|exists pos; auto with zarith].
      destruct (streamAt_ok ta (ta_pos ta - pos) E) as [t Ht]; [lia|]. rewrite Ht. cbn [cbind].
      destruct (isP (t_kind t) T_WHITESPACE) as [Hw|Hw].
      - exists (pos + 1)%Z. split; auto. assert (j < ta_pos ta - pos)%Z by (eapply past'; eauto; code). lia.
      - exists pos. auto with zarith. }
    rewrite Ep. cbn [cbind]. destruct (streamAt_ok ta (ta_pos ta - p1) E) as [t Ht]; [lia|].
    rewrite Ht. cbn [cbind]. destruct (isP (t_kind t) k) as [Hw|Hw]; [|eauto].
    assert (j < ta_pos ta - p1)%Z by (eapply past'; eauto).
    destruct (IH (p1 + 1)%Z) as [p [HP HQ]]; [lia|lia|]. exists p. split; auto.
    destruct HQ as [HQ|HQ]; auto. right. cbn [List.length]. lia.
Qed.

Lemma prependedBy_ok ta l ws : on ta -> (j < ta_pos ta < size)%Z -> Forall codeKind l ->
  exists p, prependedBy ta l ws = Ok p /\
    (p = -1 \/ (1 + Z.of_nat (List.length l) <= p /\ j <= ta_pos ta - p))%Z.
Proof.
  intros E Hs HF. unfold prependedBy. destruct (Z.ltb_spec (ta_pos ta) (Z.of_nat (List.length l) - 1)); [eauto|].
  apply prepLoop_ok; auto; lia.
Qed.

Lemma type_ok ta : on ta -> (-1 <= ta_pos ta < size)%Z -> type ta = Ok (typeAt ta 0).
Proof using.
  clear Hj Htag Hhtml j.
  intros E H. unfold type, typeAt. rewrite Z.add_0_r.
  destruct (Z.eqb_spec (ta_pos ta) (-1)) as [->|Hn]; [reflexivity|].
  destruct (streamAt_ok ta (ta_pos ta) E) as [t Ht]; [lia|]. now rewrite Ht.
Qed.

Lemma rOALoop_ok fuel : forall ta o, on ta -> (-1 <= ta_pos ta < size)%Z -> (ta_pos ta + 1 <= Z.of_nat fuel)%Z ->
  0 < fuel ->
  exists ta', rOALoop fuel ta o = Ok ta' /\ on ta' /\ ta_code ta' = ta_code ta /\
    ((-1 <= ta_pos ta')%Z /\ (ta_pos ta' < ta_pos ta \/ ta_pos ta' = -1)%Z) /\ (typeAt ta' 0 = T_LPAREN \/ typeAt ta' 0 = T_INVALID).
Proof using.
  clear Hj Htag Hhtml j.
  induction fuel as [|f IH]; intros ta o E Hp Hf H0; [lia|]. cbn [rOALoop].
  set (tb := popTok ta).
  assert (on tb /\ ta_code tb = ta_code ta /\ (-1 <= ta_pos tb)%Z /\
          ((0 <= ta_pos ta /\ ta_pos tb = ta_pos ta - 1) \/ (ta_pos ta = -1 /\ ta_pos tb = -1)))%Z as [Eb [Cb [Lb Db]]].
  { unfold tb, popTok. destruct (Z.leb_spec 0 (ta_pos ta)); cbn; unfold on in *; cbn; repeat split; auto; try lia. }
  rewrite type_ok by (auto; lia). cbn [cbind].
  assert (HR : forall o', typeAt tb 0 <> T_INVALID -> exists ta', rOALoop f tb o' = Ok ta' /\ on ta' /\
     ta_code ta' = ta_code ta /\ ((-1 <= ta_pos ta')%Z /\ (ta_pos ta' < ta_pos ta \/ ta_pos ta' = -1)%Z) /\ (typeAt ta' 0 = T_LPAREN \/ typeAt ta' 0 = T_INVALID)).
  { intros o' Hne. destruct (typeAt_in tb 0 _ Eb eq_refl Hne) as [t [Ht _]]. apply streamAt_in in Ht; auto.
    rewrite Z.add_0_r in Ht.
    destruct (IH tb o' Eb) as (ta' & H1 & H2 & H3 & [H4 H5] & H6); try lia.
    exists ta'. rewrite H1, H3. split; auto. split; auto. split; auto. split; auto. split; auto. lia. }
  destruct (isP (typeAt tb 0) T_RPAREN) as [H|H]; [apply HR; congruence|].
  destruct (isP (typeAt tb 0) T_LPAREN) as [HL|HL].
  - destruct o; [|apply HR; congruence]. exists tb. intuition.
  - destruct (isP (typeAt tb 0) T_INVALID) as [HI|HI]; [|auto]. exists tb. intuition.
Qed.

Lemma rOA_ok fuel ta : on ta -> (0 <= ta_pos ta < size)%Z -> typeAt ta 0 = T_COMMA -> (ta_pos ta + 1 <= Z.of_nat fuel)%Z ->
  exists ta', removeOtherArguments fuel ta = Ok ta' /\ on ta' /\ ta_code ta' = ta_code ta /\
    (-1 <= ta_pos ta' < ta_pos ta)%Z /\ (typeAt ta' 0 = T_LPAREN \/ typeAt ta' 0 = T_INVALID).
Proof using.
  clear Hj Htag Hhtml j.
  intros E Hp Hk Hf. unfold removeOtherArguments. rewrite type_ok by (auto; lia). cbn [cbind]. rewrite Hk. cbn [is kindNum Nat.eqb].
  replace (is T_COMMA T_COMMA) with true by reflexivity.
  destruct (rOALoop_ok fuel ta 0 E) as (ta' & H1 & H2 & H3 & H4 & H5); try lia. exists ta'. repeat split; auto; lia.
Qed.

Lemma stringAt_ok ta r : on ta -> (0 <= ta_pos ta + r < size)%Z -> exists s, stringAt ta r = Ok s.
Proof using.
  clear Hj Htag Hhtml j.
  intros E H. unfold stringAt, tokAt. destruct (streamAt_ok ta _ E H) as [t Ht]. rewrite Ht. cbn. eauto.
Qed.

Lemma walk_ok fuel : forall ta op s o, on ta -> (j <= ta_pos ta + s < size)%Z ->
  (ta_pos ta + s - j < Z.of_nat fuel)%Z ->
  exists s' o', walk fuel ta op s o = Ok (s', o') /\ (s' <= s /\ j <= ta_pos ta + s')%Z.
Proof.
  induction fuel as [|f IH]; intros ta op s o E Hs Hf; [lia|]. cbn [walk].
  destruct (isIn (typeAt ta s) stopTokens || negb (opIs op FunctionCallAccess) && is (typeAt ta s) T_COMMA) eqn:Est.
  - exists s, o. split; auto. lia.
  - apply orb_false_iff in Est. destruct Est as [Est _].
    assert (j < ta_pos ta + s)%Z.
    { destruct (Z.eq_dec j (ta_pos ta + s)) as [Ej|]; [|lia]. destruct (Htag ta E) as [t [Ht Hk]].
      rewrite Ej in Ht. apply typeAt_at in Ht. rewrite Ht in Est. destruct Hk as [Hk|Hk]; rewrite Hk in Est; discriminate. }
    assert (HR : forall o2, exists s' o', walk f ta op (s - 1) o2 = Ok (s', o') /\ (s' <= s /\ j <= ta_pos ta + s')%Z).
    { intros o2. destruct (IH ta op (s - 1)%Z o2 E) as (s' & o' & H1 & H2 & H3); try lia. exists s', o'. split; auto. lia. }
    destruct (is (typeAt ta s) T_LPAREN).
    + destruct (0 <? o + 1)%Z; auto. exists s, (o + 1)%Z. split; auto. lia.
    + destruct (is (typeAt ta s) T_RPAREN); auto.
Qed.

Lemma strings_ok ta n : forall from, on ta -> (0 <= ta_pos ta + from)%Z ->
  (ta_pos ta + from + Z.of_nat n <= size)%Z -> exists s, strings ta from n = Ok s.
Proof using.
  clear Hj Htag Hhtml j.
  induction n as [|n IH]; intros from E H1 H2; cbn [strings]; [eauto|].
  destruct (stringAt_ok ta from E) as [s Hs]; [lia|]. rewrite Hs. cbn [cbind].
  destruct (IH (from + 1)%Z E) as [r Hr]; [lia|lia|]. rewrite Hr. cbn. eauto.
Qed.

Lemma bump ta s B k : (s <= B)%Z -> typeAt ta B <> k -> ((if is (typeAt ta s) k then s + 1 else s) <= B)%Z.
Proof using.
  clear Hj Htag Hhtml j.
  intros H Hk. destruct (isP (typeAt ta s) k) as [E|E]; [|lia]. assert (s <> B) by congruence. lia.
Qed.

Variable cc : CharClass.
Variable env : Env.

Lemma eval_tail f ta c : on ta -> (j < ta_pos ta < size)%Z -> 0 < f -> (ta_pos ta <= Z.of_nat f)%Z ->
  (forall ta2, on ta2 -> (ta_pos ta2 < ta_pos ta)%Z -> typeAt ta2 0 = T_LPAREN ->
     exists c', evaluate cc env (pred f) ta2 (withOp ctx0 FunctionCallAccess) = Ok c') ->
  exists c', (if is (typeAt ta (-1)) T_LPAREN || is (typeAt ta (-1)) T_COMMA then
        ta <~ moveTo ta (-1) ;;
        k <~ type ta ;;
        ta <~ (if is k T_COMMA then removeOtherArguments f ta else Ok ta) ;;
        k <~ type ta ;;
        if is k T_INVALID then Ok (invalid c) else
        p <~ prependedBy ta [T_STRING] true ;;
        if (p =? -1)%Z then Ok c else
        k <~ type ta ;;
        if negb (is k T_LPAREN) then Bad else
        parent <~ evaluate cc env (pred f) ta (withOp ctx0 FunctionCallAccess) ;;
        if c_valid parent then Ok (withParent c (Some parent)) else Ok (invalid c)
      else Ok c) = Ok c'.
Proof.
  intros E Hp H0 Hf HR.
  destruct (is (typeAt ta (-1)) T_LPAREN || is (typeAt ta (-1)) T_COMMA) eqn:EK; [|eauto].
  assert (HK : typeAt ta (-1) = T_LPAREN \/ typeAt ta (-1) = T_COMMA).
  { apply orb_true_iff in EK. destruct EK as [EK|EK]; apply kind_inj in EK; auto. }
  assert (HT : exists t, streamAt ta (ta_pos ta + -1) = Ok t /\ (t_kind t = T_LPAREN \/ t_kind t = T_COMMA)).
  { destruct HK as [HK|HK]; destruct (typeAt_in ta (-1) _ E HK) as [t [Ht Hk]]; try discriminate; eauto. }
  destruct HT as [t [Ht Hk]].
  assert (Hlt : (j < ta_pos ta + -1)%Z).
  { destruct Hk as [Hk|Hk]; eapply past'; eauto; code. }
  unfold moveTo. replace ((0 <? ta_pos ta + -1) && (ta_pos ta + -1 <? Z.of_nat (List.length (ta_stream ta))))%Z with true.
  2:{ symmetry. apply andb_true_iff. rewrite E. split; apply Z.ltb_lt; lia. }
  cbn [cbind]. set (tb := setPos ta (ta_pos ta + -1)).
  assert (Eb : on tb) by exact E.
  assert (Tb : typeAt tb 0 = t_kind t).
  { apply typeAt_at. cbn [tb setPos ta_pos]. rewrite Z.add_0_r. exact Ht. }
  rewrite type_ok; auto; [|cbn; lia]. cbn [cbind]. rewrite Tb.
  assert (exists tc, (if is (t_kind t) T_COMMA then removeOtherArguments f tb else Ok tb) = Ok tc /\ on tc /\
           (-1 <= ta_pos tc < ta_pos ta)%Z /\ (typeAt tc 0 = T_LPAREN \/ typeAt tc 0 = T_INVALID)) as (tc & Etc & Ec & Pc & Kc).
  { destruct (isP (t_kind t) T_COMMA) as [HC|HC].
    - destruct (rOA_ok f tb Eb) as (tc & H1 & H2 & H3 & H4 & H5); [cbn; lia|congruence|cbn; lia|].
      exists tc. cbn [tb setPos ta_pos] in H4. repeat split; auto; lia.
    - exists tb. destruct Hk as [Hk|Hk]; [|congruence]. rewrite Tb. cbn [tb setPos ta_pos]. repeat split; auto; lia. }
  rewrite Etc. cbn [cbind]. rewrite type_ok by (auto; lia). cbn [cbind].
  destruct (isP (typeAt tc 0) T_INVALID) as [HI|HI]; [eauto|]. destruct Kc as [Kc|Kc]; [|congruence].
  assert (Hc : (j < ta_pos tc)%Z).
  { destruct (typeAt_in tc 0 _ Ec Kc) as [u [Hu Ku]]; [discriminate|]. rewrite Z.add_0_r in Hu. eapply past'; eauto; code. }
  destruct (prependedBy_ok tc [T_STRING] true Ec) as [p [HP _]]; [lia|codes|].
  rewrite HP. cbn [cbind]. destruct (p =? -1)%Z; [eauto|]. rewrite Kc. rewrite is_refl. cbn [negb].
  destruct (HR tc Ec) as [c' Hc']; [lia|auto|]. rewrite Hc'. cbn [cbind]. destruct (c_valid c'); eauto.
Qed.

Lemma evaluate_ok fuel : forall ta c, on ta ->
  (match c_op c with
   | FunctionCallAccess => typeAt ta 0 = T_LPAREN /\ (ta_pos ta + 2 <= Z.of_nat fuel)%Z
   | _ => (j <= ta_pos ta)%Z /\ (typeAt ta 1 = T_OBJECT_OPERATOR \/ typeAt ta 1 = T_PAAMAYIM_NEKUDOTAYIM) /\
          (ta_pos ta + 3 <= Z.of_nat fuel)%Z
   end) -> exists c', evaluate cc env fuel ta c = Ok c'.
Proof.
  induction fuel as [|f IH]; intros ta c E Hop.
  { exfalso. destruct (c_op c); try lia. destruct Hop as [H1 H2]. destruct (typeAt_in ta 0 _ E H1) as [t [Ht _]]; [discriminate|].
    apply streamAt_in in Ht; auto. lia. }
  set (call := opIs (c_op c) FunctionCallAccess).
  set (B := if call then 0%Z else 1%Z).
  assert (HB : (j <= ta_pos ta)%Z /\ (ta_pos ta + B < size)%Z /\ typeAt ta B <> T_WHITESPACE /\ typeAt ta B <> T_RETURN /\
               typeAt ta B <> T_INVALID /\ (ta_pos ta + 2 + B <= Z.of_nat (Datatypes.S f))%Z /\ (call = true -> j < ta_pos ta /\ typeAt ta 0 = T_LPAREN)%Z).
  { destruct (opIs (c_op c) FunctionCallAccess) eqn:Eo; subst call B; cbn match.
    - assert (c_op c = FunctionCallAccess) as Ec by (destruct (c_op c); (reflexivity || discriminate)).
      rewrite Ec in Hop. destruct Hop as [H1 H2].
      destruct (typeAt_in ta 0 _ E H1) as [t [Ht Hk]]; [discriminate|]. pose proof (streamAt_in _ _ _ E Ht).
      rewrite Z.add_0_r in *. assert (j < ta_pos ta)%Z by (eapply past'; eauto; code).
      rewrite H1. repeat split; auto; try discriminate; lia.
    - assert ((j <= ta_pos ta)%Z /\ (typeAt ta 1 = T_OBJECT_OPERATOR \/ typeAt ta 1 = T_PAAMAYIM_NEKUDOTAYIM) /\
          (ta_pos ta + 3 <= Z.of_nat (Datatypes.S f))%Z) as (H1 & H2 & H3) by (destruct (c_op c); (discriminate Eo || exact Hop)).
      assert (exists t, streamAt ta (ta_pos ta + 1) = Ok t) as [t Ht].
      { destruct H2 as [H2|H2]; destruct (typeAt_in ta 1 _ E H2) as [t [Ht _]]; try discriminate; eauto. }
      pose proof (streamAt_in _ _ _ E Ht). repeat split; auto; try lia; try (destruct H2 as [-> | ->]; discriminate); discriminate. }
  clear Hop. destruct HB as (Hp & HBs & HW & HRet & HI & Hf & Hcall).
  cbn [evaluate]. fold call.
  assert (exists s0, (if call then k <~ type ta;; (if is k T_LPAREN then pos <~ prependedBy ta [T_STRING; T_NEW] true;;
            Ok (if (pos =? -1)%Z then (-1)%Z else (- pos)%Z) else Bad) else Ok 0%Z) = Ok s0 /\
           (s0 < B /\ j <= ta_pos ta + s0)%Z) as (s0 & Es & Hs0 & Hs1).
  { destruct call; [|exists 0%Z; subst B; cbn; auto with zarith]. destruct (Hcall eq_refl) as [C1 C2].
    subst B. rewrite type_ok by (auto; lia). cbn [cbind]. rewrite C2, is_refl.
    destruct (prependedBy_ok ta [T_STRING; T_NEW] true E) as [p [HP HQ]]; [lia|codes|].
    rewrite HP. cbn [cbind]. eexists. split; [reflexivity|]. destruct (Z.eqb_spec p (-1)); cbn in HQ; lia. }
  rewrite Es. cbn [cbind].
  destruct (walk_ok (Datatypes.S f) ta (c_op c) s0 0 E) as (s & o & HWk & Hs & Hj2); [lia|lia|].
  cbn [walk] in HWk |- *. rewrite HWk. cbn [cbind]. destruct (o <? 0)%Z; [eauto|]. clear HWk.
  set (s1 := (s + 1)%Z). assert (H1 : (s1 <= B /\ j < ta_pos ta + s1)%Z) by (subst s1; lia).
  clearbody s1.
  set (s2 := if is (typeAt ta s1) T_WHITESPACE then (s1 + 1)%Z else s1).
  assert (H2 : (s2 <= B /\ j < ta_pos ta + s2)%Z).
  { split; [apply bump; tauto|]. subst s2. destruct (is _ _); lia. }
  clearbody s2.
  set (s3 := if is (typeAt ta s2) T_RETURN then if is (typeAt ta (s2 + 1)) T_WHITESPACE then (s2 + 2)%Z else (s2 + 1)%Z else s2).
  assert (H3 : (s3 <= B /\ j < ta_pos ta + s3)%Z).
  { subst s3. pose proof (bump ta s2 B T_RETURN (proj1 H2) HRet) as HB1.
    destruct (is (typeAt ta s2) T_RETURN); [|tauto].
    pose proof (bump ta (s2 + 1) B T_WHITESPACE HB1 HW) as HB2. destruct (is (typeAt ta (s2 + 1)) T_WHITESPACE); lia. }
  clearbody s3.
  match goal with |- exists c', cbind ?X _ = _ => set (cb := X) end.
  assert (exists c1 g, cb = Ok (c1, g)) as (c1 & g & Ecb).
  { subst cb. destruct (opIs (c_op c) StaticMemberAccess).
    - destruct (isP (typeAt ta s3) T_STRING) as [Hst|Hst]; cbn [negb]; [|eauto].
      destruct (typeAt_in ta s3 _ E Hst) as [t [Ht _]]; [discriminate|]. apply streamAt_in in Ht; auto.
      destruct (stringAt_ok ta s3 E Ht) as [raw Hraw]. rewrite Hraw. cbn [cbind].
      destruct (_ && _); [destruct (e_goodParent env)|]; eauto.
    - destruct (strings_ok ta (Z.to_nat (1 - s3)) s3 E) as [e He]; [lia|subst B; destruct call; lia|].
      rewrite He. cbn [cbind]. destruct (match _ with [] => _ | _ => _ end); [eauto|]. destruct call; eauto. }
  rewrite Ecb. cbn [cbind]. destruct g; cbn [negb]; [|eauto].
  unfold moveTo at 1. replace ((0 <? ta_pos ta + s3) && (ta_pos ta + s3 <? Z.of_nat (List.length (ta_stream ta))))%Z with true.
  2:{ symmetry. apply andb_true_iff. rewrite E. split; apply Z.ltb_lt; lia. }
  cbn [cbind]. apply (eval_tail (Datatypes.S f) (setPos ta (ta_pos ta + s3)) c1).
  - exact E.
  - cbn. lia.
  - lia.
  - cbn [setPos ta_pos]. lia.
  - intros ta2 E2 Hlt HL. cbn [pred]. apply IH; auto. cbn [withOp c_op]. split; auto. cbn [setPos ta_pos] in Hlt.
    subst B. destruct call; lia.
Qed.

Lemma implLoop_ok fuel : forall ta r ids, on ta -> (ta_pos ta < size)%Z -> (r <= 0)%Z ->
  (ta_pos ta + r + 2 <= Z.of_nat fuel)%Z -> 0 < fuel ->
  Forall (fun p => (0 <= ta_pos ta + p < size)%Z) ids ->
  exists ids' b, implLoop fuel ta r ids = Ok (ids', b) /\ Forall (fun p => (0 <= ta_pos ta + p < size)%Z) ids'.
Proof using.
  clear Hj Htag Hhtml j.
  induction fuel as [|f IH]; intros ta r ids E Hs Hr Hf H0 HF; [lia|]. cbn [implLoop].
  set (r1 := skipWhiteSpace ta r). assert (H1 : (r1 <= r)%Z) by (unfold r1, skipWhiteSpace; destruct (is _ _); lia).
  clearbody r1. destruct (isP (typeAt ta r1) T_STRING) as [Hst|Hst]; [|eauto].
  destruct (typeAt_in ta r1 _ E Hst) as [t [Ht _]]; [discriminate|]. apply streamAt_in in Ht; auto.
  set (r2 := skipWhiteSpace ta (r1 - 1)). assert (H2 : (r2 <= r1 - 1)%Z) by (unfold r2, skipWhiteSpace; destruct (is _ _); lia).
  clearbody r2.
  assert (HF1 : Forall (fun p => (0 <= ta_pos ta + p < size)%Z) (ids ++ [r1])) by (apply Forall_app; auto).
  destruct (is (typeAt ta (r2 - 2)) T_STRING) eqn:Eq.
  - apply kind_inj in Eq. destruct (typeAt_in ta (r2 - 2) _ E Eq) as [u [Hu _]]; [discriminate|]. apply streamAt_in in Hu; auto.
    destruct (_ || _); [eexists _, _; split; [reflexivity|apply Forall_app; auto]|].
    destruct (is (typeAt ta r2) T_COMMA); apply IH; auto; lia.
  - cbn zeta. repeat (rewrite ?andb_false_r; cbn [andb orb]).
    destruct (is (typeAt ta r2) T_COMMA); apply IH; auto; lia.
Qed.

Lemma stringsAt_ok ta ps : on ta -> Forall (fun p => (0 <= ta_pos ta + p < size)%Z) ps -> exists s, stringsAt ta ps = Ok s.
Proof using.
  clear Hj Htag Hhtml j.
  intros E HF. induction HF as [|p ps Hp HF IH]; cbn [stringsAt]; [eauto|].
  destruct (stringAt_ok ta p E Hp) as [s Hs]. rewrite Hs. destruct IH as [r Hr]. rewrite Hr. cbn. eauto.
Qed.

Lemma nsLoop_ok fuel : forall ta r id, on ta -> (ta_pos ta < size)%Z -> (ta_pos ta + r + 2 <= Z.of_nat fuel)%Z -> 0 < fuel ->
  exists x, nsLoop fuel ta r id = Ok x.
Proof using.
  clear Hj Htag Hhtml j.
  induction fuel as [|f IH]; intros ta r id E Hs Hf H0; [lia|]. cbn [nsLoop].
  destruct (isP (typeAt ta r) T_BACKSLASH) as [H|H].
  - destruct (typeAt_in ta r _ E H) as [t [Ht _]]; [discriminate|]. apply streamAt_in in Ht; auto. apply IH; auto; lia.
  - destruct (isP (typeAt ta r) T_STRING) as [Hst|Hst]; [|eauto].
    destruct (typeAt_in ta r _ E Hst) as [t [Ht _]]; [discriminate|]. apply streamAt_in in Ht; auto.
    destruct (stringAt_ok ta r E Ht) as [s Es]. rewrite Es. cbn [cbind]. apply IH; auto; lia.
Qed.
End TA.
