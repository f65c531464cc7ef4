(** Proofs for C56, continued (proof file). *)
From Verif Require Import CtxSpec ComplProofs ComplProofs3 LexRun3 CtxProofs.
Open Scope nat_scope.

Section C.
Variable cc : CharClass.
Variable env : Env.
Variable code : qstring.
Notation mk := (mk code).
Definition pc (t : Token) : piece := (t_kind t, symbol code t).

Lemma typeAt_s L suf n j t r : nth_error (skipn n L) j = Some t -> r = (- Z.of_nat (n + j))%Z -> typeAt (mk L suf) r = t_kind t.
Proof.
  intros E ->. rewrite typeAt_mk by lia. replace (Z.to_nat (- - Z.of_nat (n + j))) with (n + j) by lia.
  replace (nth_error L (n + j)) with (nth_error (skipn n L) j); [rewrite E; reflexivity|].
  clear. revert L; induction n as [|n IH]; intros L; [reflexivity|]. destruct L as [|x L]; [destruct j; reflexivity|]. apply IH.
Qed.
Lemma nth_skip {A} (L : list A) n j : nth_error (skipn n L) j = nth_error L (n + j).
Proof. revert L; induction n as [|n IH]; intros L; [reflexivity|]. destruct L as [|x L]; [destruct j; reflexivity|]. apply IH. Qed.
Lemma skip_more {A} (L : list A) n j R : skipn n L = R -> skipn (n + j) L = skipn j R.
Proof. intros <-. revert L; induction n as [|n IH]; intros L; [reflexivity|]. destruct L as [|x L]; [destruct j; reflexivity|]. apply IH. Qed.
Lemma stringAt_s L suf n j t r : nth_error (skipn n L) j = Some t -> r = (- Z.of_nat (n + j))%Z -> stringAt (mk L suf) r = Ok (symbol code t).
Proof. intros E ->. rewrite stringAt_mk by lia. replace (Z.to_nat (- - Z.of_nat (n + j))) with (n + j) by lia. rewrite <- nth_skip, E. reflexivity. Qed.

Lemma skipWs_no L suf n t r : nth_error (skipn n L) 0 = Some t -> t_kind t <> T_WHITESPACE -> r = (- Z.of_nat n)%Z -> skipWhiteSpace (mk L suf) r = r.
Proof. intros E K ->. unfold skipWhiteSpace. rewrite (typeAt_s L suf n 0 t) by (auto; lia). rewrite (is_neq _ _ K). reflexivity. Qed.
Lemma skipWs_yes L suf n t r : nth_error (skipn n L) 0 = Some t -> t_kind t = T_WHITESPACE -> r = (- Z.of_nat n)%Z -> skipWhiteSpace (mk L suf) r = (r - 1)%Z.
Proof. intros E K ->. unfold skipWhiteSpace. rewrite (typeAt_s L suf n 0 t) by (auto; lia). rewrite K, is_refl. reflexivity. Qed.

(** skipping a gap *)
Lemma skip_gap L suf n w R r k a Q : gap w -> map pc (skipn n L) = rev w ++ (k, a) :: Q -> k <> T_WHITESPACE -> R = skipn n L -> r = (- Z.of_nat n)%Z ->
  exists j t R', skipWhiteSpace (mk L suf) r = (- Z.of_nat (n + j))%Z /\ skipn (n + j) L = t :: R' /\ pc t = (k, a) /\ map pc R' = Q.
Proof.
  intros G M K _ ->. destruct G as [|b].
  - cbn in M. destruct (skipn n L) as [|t R'] eqn:E; [discriminate|]. cbn in M. injection M as M1 M2 M3.
    exists 0, t, R'. rewrite Nat.add_0_r, E. split; [|split; [reflexivity|split; [unfold pc; now rewrite M1, M2|exact M3]]].
    apply (skipWs_no L suf n t); [rewrite E; reflexivity|congruence|reflexivity].
  - cbn in M. destruct (skipn n L) as [|t0 [|t R']] eqn:E; try discriminate. cbn in M. injection M as M0 _ M1 M2 M3.
    exists 1, t, R'. rewrite (skip_more L n 1 _ E). split; [|split; [reflexivity|split; [unfold pc; now rewrite M1, M2|exact M3]]].
    rewrite (skipWs_yes L suf n t0) by (auto; rewrite E; reflexivity). lia.
Qed.

Lemma implLoop_list pre kw ext a b nm c0' d : (kw = T_CLASS /\ ext = T_IMPLEMENTS) \/ (kw = T_INTERFACE /\ ext = T_EXTENDS) ->
  forall items names, nameList items names -> forall w1 x w2 L suf n fuel ids r, gap w1 -> gap w2 ->
  map pc (skipn n L) = rev (pre ++ [(kw, a); blank b; (T_STRING, nm); blank c0'; (ext, d)] ++ items ++ w1 ++ [(T_STRING, x)] ++ w2) ->
  implLoop fuel (mk L suf) (- Z.of_nat n) ids = Ok r ->
  exists ps, r = (ids ++ ps, true) /\ stringsAt (mk L suf) ps = Ok (x :: rev names ++ [nm]).
Proof.
  intros HK items names HN. induction HN as [|items names w1' x' w2' cm HN IH G1' G2']; intros w1 x w2 L suf n fuel ids r G1 G2 M HI.
  - destruct fuel as [|f]; [discriminate|]. cbn [implLoop] in HI.
    rewrite !rev_app_distr in M. cbn [rev app] in M. rewrite <- !app_assoc in M. cbn [app] in M.
    destruct (skip_gap L suf n w2 _ (- Z.of_nat n) T_STRING x _ G2 M ltac:(discriminate) eq_refl eq_refl) as (j & t & R & E1 & E2 & P1 & P2).
    rewrite E1 in HI. injection P1 as K1 S1. rewrite (typeAt_s L suf (n + j) 0 t) in HI by (rewrite ?E2; auto; lia).
    rewrite K1, is_refl in HI.
    pose proof (skip_more L (n + j) 1 _ E2) as E3. cbn [skipn] in E3.
    replace (- Z.of_nat (n + j) - 1)%Z with (- Z.of_nat (n + j + 1))%Z in HI by lia.
    assert (Kext : ext <> T_WHITESPACE) by (destruct HK as [[_ ->]|[_ ->]]; discriminate).
    rewrite <- E3 in P2.
    destruct (skip_gap L suf (n + j + 1) w1 _ (- Z.of_nat (n + j + 1)) ext d _ G1 P2 Kext eq_refl eq_refl) as (j2 & t2 & R2 & F1 & F2 & Q1 & Q2).
    rewrite F1 in HI. injection Q1 as K2 S2. cbn [rev app] in Q2.
    destruct R2 as [|u1 [|u2 [|u3 [|u4 R3]]]]; try discriminate. cbn in Q2. injection Q2 as A1 _ A2 B2 A3 _ A4 _ _.
    set (m := n + j + 1 + j2) in *.
    assert (T : forall i u, nth_error (t2 :: u1 :: u2 :: u3 :: u4 :: R3) i = Some u -> forall z, z = (- Z.of_nat (m + i))%Z -> typeAt (mk L suf) z = t_kind u).
    { intros i u Hu z Hz. apply (typeAt_s L suf m i u); [rewrite F2; exact Hu|exact Hz]. }
    rewrite (T 0 t2 eq_refl (- Z.of_nat m)%Z), (T 1 u1 eq_refl (- Z.of_nat m - 1)%Z), (T 2 u2 eq_refl (- Z.of_nat m - 2)%Z),
            (T 3 u3 eq_refl (- Z.of_nat m - 3)%Z), (T 4 u4 eq_refl (- Z.of_nat m - 4)%Z) in HI by lia.
    rewrite K2, A1, A2, A3, A4 in HI. rewrite !is_refl in HI. cbn [andb] in HI.
    assert (HT : (is ext T_EXTENDS && true && is kw T_INTERFACE || is ext T_IMPLEMENTS && true && is kw T_CLASS) = true)
      by (destruct HK as [[-> ->]|[-> ->]]; reflexivity).
    rewrite HT in HI. injection HI as <-. exists [(- Z.of_nat (n + j))%Z; (- Z.of_nat m - 2)%Z]. split; [rewrite <- app_assoc; reflexivity|].
    cbn [stringsAt]. rewrite (stringAt_s L suf (n + j) 0 t) by (rewrite ?E2; auto; lia). cbn [cbind].
    rewrite (stringAt_s L suf m 2 u2) by (rewrite ?F2; auto; lia). cbn [cbind rev app]. rewrite S1, B2. reflexivity.
  - destruct fuel as [|f]; [discriminate|]. cbn [implLoop] in HI.
    rewrite <- !app_assoc in M. rewrite !rev_app_distr in M. cbn [rev app] in M. rewrite <- !app_assoc in M. cbn [app] in M.
    destruct (skip_gap L suf n w2 _ (- Z.of_nat n) T_STRING x _ G2 M ltac:(discriminate) eq_refl eq_refl) as (j & t & R & E1 & E2 & P1 & P2).
    rewrite E1 in HI. injection P1 as K1 S1. rewrite (typeAt_s L suf (n + j) 0 t) in HI by (rewrite ?E2; auto; lia).
    rewrite K1, is_refl in HI.
    pose proof (skip_more L (n + j) 1 _ E2) as E3. cbn [skipn] in E3.
    replace (- Z.of_nat (n + j) - 1)%Z with (- Z.of_nat (n + j + 1))%Z in HI by lia.
    rewrite <- E3 in P2.
    destruct (skip_gap L suf (n + j + 1) w1 _ (- Z.of_nat (n + j + 1)) T_COMMA cm _ G1 P2 ltac:(discriminate) eq_refl eq_refl) as (j2 & t2 & R2 & F1 & F2 & Q1 & Q2).
    rewrite F1 in HI. injection Q1 as K2 S2. set (m := n + j + 1 + j2) in *.
    rewrite (typeAt_s L suf m 0 t2) in HI by (rewrite ?F2; auto; lia). rewrite K2 in HI. cbn [is Nat.eqb kindNum andb orb] in HI.
    change (is T_COMMA T_EXTENDS) with false in HI. change (is T_COMMA T_IMPLEMENTS) with false in HI. change (is T_COMMA T_COMMA) with true in HI. cbn [andb orb] in HI.
    replace (- Z.of_nat m - 1)%Z with (- Z.of_nat (m + 1))%Z in HI by lia.
    pose proof (skip_more L m 1 _ F2) as F3. cbn [skipn] in F3.
    assert (M2 : map pc (skipn (m + 1) L) = rev (pre ++ [(kw, a); blank b; (T_STRING, nm); blank c0'; (ext, d)] ++ items ++ w1' ++ [(T_STRING, x')] ++ w2')).
    { rewrite F3, Q2. rewrite !rev_app_distr. cbn [rev app]. rewrite <- !app_assoc. cbn [app]. reflexivity. }
    destruct (IH w1' x' w2' L suf (m + 1) f _ r G1' G2' M2 HI) as (ps & -> & Hs).
    exists ((- Z.of_nat (n + j))%Z :: ps). split; [rewrite <- app_assoc; reflexivity|].
    cbn [stringsAt]. rewrite (stringAt_s L suf (n + j) 0 t) by (rewrite ?E2; auto; lia). cbn [cbind]. rewrite Hs. cbn [cbind].
    rewrite S1, rev_app_distr. reflexivity.
Qed.
End C.
