(** Proofs for C57 (proof file). *)
From Verif Require Import CtxSpec ComplProofs ComplProofs3 LexRun3 CtxProofs CtxProofs2 CtxProofs3.
Open Scope nat_scope.

Section C.
Variable cc : CharClass.
Variable env : Env.
Variable code : qstring.
Notation mk := (mk code).
Notation pc := (pc code).

Lemma pc_kinds L P : map pc L = P -> map t_kind L = kindsOf P.
Proof. intros <-. unfold kindsOf. rewrite map_map. reflexivity. Qed.
Lemma pc_texts L P : map pc L = P -> map (symbol code) L = map snd P.
Proof. intros <-. rewrite map_map. reflexivity. Qed.

Definition stopsAt (op : Op) (k : Tok) : bool := isIn k stopTokens || (negb (opIs op FunctionCallAccess) && is k T_COMMA).
Lemma walk_run op : forall ks fuel L suf n o stop R r,
  map t_kind (skipn n L) = ks ++ stop :: R -> (forall k, In k ks -> stopsAt op k = false) -> run ks o = Some 0 ->
  stopsAt op stop = true \/ stop = T_LPAREN ->
  walk fuel (mk L suf) op (- Z.of_nat n) (- Z.of_nat o) = Ok r ->
  r = (- Z.of_nat (n + List.length ks), if is stop T_LPAREN then 1 else 0)%Z.
Proof.
  induction ks as [|k ks IH]; intros fuel L suf n o stop R r M NS HR HS HW; (destruct fuel as [|f]; [discriminate|]); cbn [walk] in HW.
  - cbn [app] in M. destruct (skipn n L) as [|t q] eqn:E; [discriminate|]. cbn [map] in M. injection M as M1 M2.
    rewrite (typeAt_s code L suf n 0 t) in HW by (rewrite ?E; auto; lia). rewrite M1 in HW. cbn [run] in HR. injection HR as ->.
    fold (stopsAt op stop) in HW. cbn [List.length]. rewrite Nat.add_0_r. destruct HS as [HS| ->].
    + rewrite HS in HW. injection HW as <-. destruct (isP stop T_LPAREN) as [->|]; [|reflexivity].
      unfold stopsAt in HS. cbn in HS. rewrite andb_false_r in HS. discriminate.
    + destruct (stopsAt op T_LPAREN) eqn:EE; [unfold stopsAt in EE; cbn in EE; rewrite andb_false_r in EE; discriminate|].
      cbn in HW. injection HW as <-. reflexivity.
  - cbn [app] in M. destruct (skipn n L) as [|t q] eqn:E; [discriminate|]. cbn [map] in M. injection M as M1 M2.
    rewrite (typeAt_s code L suf n 0 t) in HW by (rewrite ?E; auto; lia). rewrite M1 in HW.
    fold (stopsAt op k) in HW. rewrite (NS k (or_introl eq_refl)) in HW.
    pose proof (skip_more L n 1 _ E) as E2. cbn [skipn] in E2. rewrite <- E2 in M2.
    assert (NS2 : forall k0, In k0 ks -> stopsAt op k0 = false) by (intros; apply NS; right; auto).
    replace (- Z.of_nat n - 1)%Z with (- Z.of_nat (n + 1))%Z in HW by lia.
    cbn [List.length]. replace (n + S (List.length ks)) with (n + 1 + List.length ks) by lia.
    destruct (isP k T_LPAREN) as [->|K1].
    + cbn [run] in HR. destruct o as [|o]; [discriminate|].
      destruct (Z.ltb_spec 0 (- Z.of_nat (S o) + 1)); [lia|]. replace (- Z.of_nat (S o) + 1)%Z with (- Z.of_nat o)%Z in HW by lia.
      eapply IH; eauto.
    + destruct (isP k T_RPAREN) as [->|K2].
      * cbn [run] in HR. replace (- Z.of_nat o - 1)%Z with (- Z.of_nat (S o))%Z in HW by lia. eapply IH; eauto.
      * rewrite run_other in HR by auto. eapply IH; eauto.
Qed.

Lemma skipn_nth {A} (L : list A) n t : nth_error L n = Some t -> skipn n L = t :: skipn (S n) L.
Proof. revert L; induction n as [|n IH]; intros [|x L] H; try discriminate; [injection H as ->; reflexivity|]. apply (IH L H). Qed.
Lemma firstn_S_nth {A} (L : list A) n t : nth_error L n = Some t -> firstn (S n) L = firstn n L ++ [t].
Proof. revert L; induction n as [|n IH]; intros [|x L] H; try discriminate; [injection H as ->; reflexivity|]. cbn [firstn app]. f_equal. apply (IH L H). Qed.
Lemma strings_mk L suf : forall n, n <= List.length L -> strings (mk L suf) (1 - Z.of_nat n) n = Ok (List.concat (map (symbol code) (rev (firstn n L)))).
Proof.
  induction n as [|n IH]; intros H; [reflexivity|]. cbn [strings].
  destruct (nth_error L n) as [t|] eqn:E; [|apply nth_error_None in E; lia].
  rewrite stringAt_mk by lia. replace (Z.to_nat (- (1 - Z.of_nat (S n)))) with n by lia. rewrite E. cbn [cbind].
  replace (1 - Z.of_nat (S n) + 1)%Z with (1 - Z.of_nat n)%Z by lia. rewrite IH by lia. cbn [cbind].
  rewrite (firstn_S_nth _ _ _ E), rev_app_distr. reflexivity.
Qed.

(** Positions counted from the left in the last tokens. *)
Lemma nth_fw {A} (L : list A) (P F : list A) i x : L = rev (P ++ F) -> nth_error F i = Some x -> nth_error L (List.length F - S i) = Some x.
Proof.
  intros -> H. assert (i < List.length F) by (apply nth_error_Some; congruence). rewrite rev_app_distr, nth_error_app1 by (rewrite rev_length; lia).
  rewrite (nth_error_nth' (rev F) x) by (rewrite rev_length; lia). f_equal. rewrite rev_nth by lia. replace (List.length F - S (List.length F - S i)) with i by lia.
  apply nth_error_nth. exact H.
Qed.
Lemma typeAt_fw L suf P F i k s r : map pc L = rev (P ++ F) -> nth_error F i = Some (k, s) -> r = (Z.of_nat i + 1 - Z.of_nat (List.length F))%Z ->
  typeAt (mk L suf) r = k.
Proof.
  intros M H ->. assert (i < List.length F) by (apply nth_error_Some; congruence). rewrite typeAt_mk by lia.
  replace (Z.to_nat (- (Z.of_nat i + 1 - Z.of_nat (List.length F)))) with (List.length F - S i) by lia.
  pose proof (nth_fw _ _ _ _ _ M H) as N. rewrite nth_error_map in N. destruct (nth_error L (List.length F - S i)) as [t|]; [|discriminate]. cbn in N. injection N as N1 N2. exact N1.
Qed.
Lemma stringAt_fw L suf P F i k s r : map pc L = rev (P ++ F) -> nth_error F i = Some (k, s) -> r = (Z.of_nat i + 1 - Z.of_nat (List.length F))%Z ->
  stringAt (mk L suf) r = Ok s.
Proof.
  intros M H ->. assert (i < List.length F) by (apply nth_error_Some; congruence). rewrite stringAt_mk by lia.
  replace (Z.to_nat (- (Z.of_nat i + 1 - Z.of_nat (List.length F)))) with (List.length F - S i) by lia.
  pose proof (nth_fw _ _ _ _ _ M H) as N. rewrite nth_error_map in N. destruct (nth_error L (List.length F - S i)) as [t|]; [|discriminate]. cbn in N. injection N as N1 N2. rewrite <- N2. reflexivity.
Qed.

(** Skipping blanks and return in front of the expression. *)
Definition skipLead (ta : TA) (startPos : Z) : Z :=
  let startPos := (startPos + 1)%Z in
  let startPos := if is (typeAt ta startPos) T_WHITESPACE then (startPos + 1)%Z else startPos in
  if is (typeAt ta startPos) T_RETURN then
    if is (typeAt ta (startPos + 1)) T_WHITESPACE then (startPos + 2)%Z else (startPos + 1)%Z
  else startPos.
Lemma skipLead_ok L suf P w0 k s e0 : map pc L = rev (P ++ w0 ++ (k, s) :: e0) -> lead w0 -> k <> T_WHITESPACE -> k <> T_RETURN ->
  skipLead (mk L suf) (- Z.of_nat (List.length (w0 ++ (k, s) :: e0))) = (- Z.of_nat (List.length e0))%Z.
Proof.
  intros M HL K1 K2. set (F := w0 ++ (k, s) :: e0) in *. pose proof (fun i k s r => typeAt_fw L suf P F i k s r M) as T.
  assert (EL : List.length F = List.length w0 + S (List.length e0)) by (unfold F; rewrite app_length; reflexivity).
  assert (is k T_WHITESPACE = false) by (apply is_neq; exact K1). assert (is k T_RETURN = false) by (apply is_neq; exact K2).
  assert (TT : forall i k s r, nth_error F i = Some (k, s) -> r = (Z.of_nat i + 1 - Z.of_nat (List.length F))%Z -> typeAt (mk L suf) r = k) by exact T. clear T M.
  assert (EF : F = w0 ++ (k, s) :: e0) by reflexivity. clearbody F.
  unfold skipLead. destruct HL as [w G|w1 rr w2 G1 G2].
  - destruct G as [|b]; cbn [app List.length] in EL, EF.
    + rewrite ?(TT 0 k s (- Z.of_nat (List.length F) + 1)%Z) by (try lia; rewrite EF; reflexivity). rewrite ?H, ?H0, ?is_refl; cbv iota. rewrite ?(TT 0 k s (- Z.of_nat (List.length F) + 1)%Z) by (try lia; rewrite EF; reflexivity). rewrite ?H, ?H0, ?is_refl; cbv iota. lia.
    + rewrite ?(TT 0 T_WHITESPACE b (- Z.of_nat (List.length F) + 1)%Z) by (try lia; rewrite EF; reflexivity). rewrite ?H, ?H0, ?is_refl; cbv iota. rewrite ?(TT 1 k s (- Z.of_nat (List.length F) + 1 + 1)%Z) by (try lia; rewrite EF; reflexivity). rewrite ?H, ?H0, ?is_refl; cbv iota. lia.
  - destruct G1 as [|b1]; destruct G2 as [|b2]; cbn [app List.length] in EL, EF.
    + rewrite ?(TT 0 T_RETURN rr (- Z.of_nat (List.length F) + 1)%Z) by (try lia; rewrite EF; reflexivity). rewrite ?H, ?H0, ?is_refl; cbv iota. change (is T_RETURN T_WHITESPACE) with false; cbv iota. rewrite ?(TT 0 T_RETURN rr (- Z.of_nat (List.length F) + 1)%Z) by (try lia; rewrite EF; reflexivity). rewrite ?H, ?H0, ?is_refl; cbv iota. rewrite ?(TT 1 k s (- Z.of_nat (List.length F) + 1 + 1)%Z) by (try lia; rewrite EF; reflexivity). rewrite ?H, ?H0, ?is_refl; cbv iota. lia.
    + rewrite ?(TT 0 T_RETURN rr (- Z.of_nat (List.length F) + 1)%Z) by (try lia; rewrite EF; reflexivity). rewrite ?H, ?H0, ?is_refl; cbv iota. change (is T_RETURN T_WHITESPACE) with false; cbv iota. rewrite ?(TT 0 T_RETURN rr (- Z.of_nat (List.length F) + 1)%Z) by (try lia; rewrite EF; reflexivity). rewrite ?H, ?H0, ?is_refl; cbv iota. rewrite ?(TT 1 T_WHITESPACE b2 (- Z.of_nat (List.length F) + 1 + 1)%Z) by (try lia; rewrite EF; reflexivity). rewrite ?H, ?H0, ?is_refl; cbv iota. lia.
    + rewrite ?(TT 0 T_WHITESPACE b1 (- Z.of_nat (List.length F) + 1)%Z) by (try lia; rewrite EF; reflexivity). rewrite ?H, ?H0, ?is_refl; cbv iota. rewrite ?(TT 1 T_RETURN rr (- Z.of_nat (List.length F) + 1 + 1)%Z) by (try lia; rewrite EF; reflexivity). rewrite ?H, ?H0, ?is_refl; cbv iota. rewrite ?(TT 2 k s (- Z.of_nat (List.length F) + 1 + 1 + 1)%Z) by (try lia; rewrite EF; reflexivity). rewrite ?H, ?H0, ?is_refl; cbv iota. lia.
    + rewrite ?(TT 0 T_WHITESPACE b1 (- Z.of_nat (List.length F) + 1)%Z) by (try lia; rewrite EF; reflexivity). rewrite ?H, ?H0, ?is_refl; cbv iota. rewrite ?(TT 1 T_RETURN rr (- Z.of_nat (List.length F) + 1 + 1)%Z) by (try lia; rewrite EF; reflexivity). rewrite ?H, ?H0, ?is_refl; cbv iota. rewrite ?(TT 2 T_WHITESPACE b2 (- Z.of_nat (List.length F) + 1 + 1 + 1)%Z) by (try lia; rewrite EF; reflexivity). rewrite ?H, ?H0, ?is_refl; cbv iota. lia.
Qed.
End C.
