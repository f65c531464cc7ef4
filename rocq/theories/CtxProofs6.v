(** Proofs for C57, continued (proof file). *)
From Verif Require Import CtxSpec ComplProofs ComplProofs3 LexRun3 CtxProofs CtxProofs2 CtxProofs3 CtxProofs5.
Open Scope nat_scope.

Lemma run_neutral a : (forall k, In k a -> k <> T_LPAREN /\ k <> T_RPAREN) -> forall b o, run (a ++ b) o = run b o.
Proof.
  induction a as [|k a IH]; intros H b o; [reflexivity|]. cbn [app]. destruct (H k (or_introl eq_refl)). rewrite run_other by auto.
  apply IH. intros; apply H; right; auto.
Qed.
Lemma lead_kinds w : lead w -> forall k, In k (kindsOf w) -> k = T_WHITESPACE \/ k = T_RETURN.
Proof.
  intros HL k Hk. destruct HL as [w G|w1 r w2 G1 G2].
  - destruct G; cbn in Hk; intuition.
  - destruct G1, G2; cbn in Hk; intuition.
Qed.
Lemma stops_boundary op k : In k boundaries -> stopsAt op k = true.
Proof. intros H. cbn [boundaries In] in H. repeat (destruct H as [<-|H]; [reflexivity|]). destruct H. Qed.
Lemma stops_only op k : ~ In k boundaries -> k <> T_INVALID -> (k = T_COMMA -> op = FunctionCallAccess) -> stopsAt op k = false.
Proof.
  intros H I C. unfold stopsAt. apply orb_false_iff. split.
  - unfold isIn. apply not_true_is_false. intros E. apply existsb_exists in E. destruct E as (x & Hx & E). apply kind_inj in E. subst x.
    apply H. cbn [stopTokens In] in Hx. cbn [boundaries In]. intuition.
  - destruct (isP k T_COMMA) as [->|]; [rewrite (C eq_refl); reflexivity|apply andb_false_r].
Qed.

Section C.
Variable cc : CharClass.
Variable env : Env.
Variable code : qstring.
Notation mk := (mk code).
Notation pc := (pc code).

(** The tokens the walk goes over. *)
Lemma over_kinds op w0 e : lead w0 -> balanced (kindsOf e) -> (forall k, In k (kindsOf e) -> ~ In k boundaries /\ k <> T_INVALID) ->
  (In T_COMMA (kindsOf e) -> op = FunctionCallAccess) ->
  (forall k, In k (rev (kindsOf (w0 ++ e))) -> stopsAt op k = false) /\ run (rev (kindsOf (w0 ++ e))) 0 = Some 0.
Proof.
  intros HL B NB C. assert (E : kindsOf (w0 ++ e) = kindsOf w0 ++ kindsOf e) by apply map_app. rewrite E. split.
  - intros k Hk. apply in_rev in Hk. apply in_app_or in Hk. destruct Hk as [Hk|Hk].
    + destruct (lead_kinds _ HL _ Hk) as [->| ->]; unfold stopsAt; cbn; apply andb_false_r.
    + destruct (NB _ Hk). apply stops_only; auto. intros ->. auto.
  - apply balanced_run. pose proof (lead_kinds _ HL) as H. revert H. generalize (kindsOf w0). intros l H. induction l as [|x l IH]; [exact B|]. cbn [app].
    assert (forall x, In x l -> x = T_WHITESPACE \/ x = T_RETURN) by (intros; apply H; right; auto).
    destruct (H x (or_introl eq_refl)) as [->| ->]; apply bal_other; try discriminate; auto.
Qed.

(** prependedBy with skipping of blanks *)
Lemma prep_true ks : forall L suf i p, prepLoop (mk L suf) ks true (Z.of_nat i) = Ok p -> p = (-1)%Z \/
  exists A R, skipn i L = A ++ R /\ p = Z.of_nat (i + List.length A) /\ forall t, In t A -> t_kind t = T_WHITESPACE \/ In (t_kind t) ks.
Proof.
  induction ks as [|k ks IH]; intros L suf i p H.
  - cbn [prepLoop] in H. injection H as <-. right. exists [], (skipn i L). split; [reflexivity|]. split; [cbn; f_equal; lia|]. intros t [].
  - cbn [prepLoop] in H. rewrite stream_mk in H by lia. rewrite Nat2Z.id in H.
    destruct (nth_error L i) as [t|] eqn:E1; [|discriminate]. cbn [cbind] in H.
    assert (Step : forall j t, nth_error L j = Some t -> t_kind t = k -> prepLoop (mk L suf) ks true (Z.of_nat j + 1) = Ok p ->
       p = (-1)%Z \/ exists A R, skipn j L = A ++ R /\ p = Z.of_nat (j + List.length A) /\ forall t, In t A -> t_kind t = T_WHITESPACE \/ In (t_kind t) (k :: ks)).
    { intros j u Eu Ku Hp. replace (Z.of_nat j + 1)%Z with (Z.of_nat (S j)) in Hp by lia. destruct (IH _ _ _ _ Hp) as [->|(A & R & F1 & F2 & F3)]; [left; reflexivity|].
      right. exists (u :: A), R. rewrite (skipn_nth _ _ _ Eu), F1. split; [reflexivity|]. split; [rewrite F2; cbn [List.length]; f_equal; lia|].
      intros x [<-|Hx]; [right; left; auto|]. destruct (F3 x Hx); [left|right; right]; auto. }
    destruct (isP (t_kind t) T_WHITESPACE) as [Kw|Kw].
    + replace (Z.of_nat i + 1)%Z with (Z.of_nat (S i)) in H by lia. rewrite stream_mk in H by lia. rewrite Nat2Z.id in H.
      destruct (nth_error L (S i)) as [t2|] eqn:E2; [|discriminate]. cbn [cbind] in H. destruct (isP (t_kind t2) k) as [K2|]; [|injection H as <-; left; reflexivity].
      destruct (Step (S i) t2 E2 K2 H) as [->|(A & R & F1 & F2 & F3)]; [left; reflexivity|]. right. exists (t :: A), R.
      rewrite (skipn_nth _ _ _ E1), F1. split; [reflexivity|]. split; [rewrite F2; cbn [List.length]; f_equal; lia|].
      intros x [<-|Hx]; [left; exact Kw|auto].
    + rewrite stream_mk in H by lia. rewrite Nat2Z.id, E1 in H. cbn [cbind] in H. destruct (isP (t_kind t) k) as [K2|]; [|injection H as <-; left; reflexivity].
      exact (Step i t E1 K2 H).
Qed.
Lemma prepended_true ks t L suf p : prependedBy (mk (t :: L) suf) ks true = Ok p -> p = (-1)%Z \/
  exists A R, L = A ++ R /\ p = Z.of_nat (1 + List.length A) /\ forall t, In t A -> t_kind t = T_WHITESPACE \/ In (t_kind t) ks.
Proof.
  unfold prependedBy. destruct (_ <? _)%Z; [intros H; injection H as <-; left; reflexivity|]. change 1%Z with (Z.of_nat 1). intros H.
  exact (prep_true ks (t :: L) suf 1 p H).
Qed.

(** The end of evaluateExpression: the parent context. *)
Lemma tail_keeps fuel ta c r : 
  (if is (typeAt ta (-1)) T_LPAREN || is (typeAt ta (-1)) T_COMMA then
        ta <~ moveTo ta (-1) ;;
        k <~ type ta ;;
        ta <~ (if is k T_COMMA then removeOtherArguments (S fuel) ta else Ok ta) ;;
        k <~ type ta ;;
        if is k T_INVALID then Ok (invalid c) else
        p <~ prependedBy ta [T_STRING] true ;;
        if (p =? -1)%Z then Ok c else
        k <~ type ta ;;
        if negb (is k T_LPAREN) then Bad else
        parent <~ evaluate cc env fuel ta (withOp ctx0 FunctionCallAccess) ;;
        if c_valid parent then Ok (withParent c (Some parent)) else Ok (invalid c)
      else Ok c) = Ok r -> c_op r = c_op c /\ c_expr r = c_expr c /\
      (is (typeAt ta (-1)) T_LPAREN || is (typeAt ta (-1)) T_COMMA = false -> r = c).
Proof.
  destruct (is (typeAt ta (-1)) T_LPAREN || is (typeAt ta (-1)) T_COMMA); [|intros H; injection H as <-; auto].
  destruct (moveTo ta (-1)) as [a| |]; cbn [cbind]; try discriminate.
  destruct (type a) as [k| |]; cbn [cbind]; try discriminate.
  destruct (if is k T_COMMA then _ else _) as [b| |]; cbn [cbind]; try discriminate.
  destruct (type b) as [k2| |]; cbn [cbind]; try discriminate.
  destruct (is k2 T_INVALID); [intros H; injection H as <-; split; [reflexivity|split; [reflexivity|discriminate]]|].
  destruct (prependedBy b [T_STRING] true) as [p| |]; cbn [cbind]; try discriminate.
  destruct (p =? -1)%Z; [intros H; injection H as <-; split; [reflexivity|split; [reflexivity|discriminate]]|].
  destruct (negb _); [discriminate|].
  destruct (evaluate _ _ _ _ _) as [q| |]; cbn [cbind]; try discriminate.
  destruct (c_valid q); intros H; injection H as <-; (split; [reflexivity|split; [reflexivity|discriminate]]).
Qed.

Lemma typeAt_set ta p r : typeAt (setPos ta p) r = typeAt ta (p - ta_pos ta + r).
Proof. unfold typeAt, streamAt. destruct ta as [a b q]. cbn [ta_pos ta_stream setPos]. replace (q + (p - q + r))%Z with (p + r)%Z by lia. reflexivity. Qed.
Lemma moved_before L suf P e0 k s x ta : map pc L = rev (P ++ [x] ++ (k, s) :: e0) -> moveTo (mk L suf) (- Z.of_nat (List.length e0)) = Ok ta ->
  typeAt ta (-1) = fst x.
Proof.
  intros M H. unfold moveTo in H. destruct (_ && _) eqn:E; [|discriminate]. injection H as <-.
  rewrite <- (typeAt_fw code L suf P ([x] ++ (k, s) :: e0) 0 (fst x) (snd x) (- Z.of_nat (List.length e0) - 1) M);
    [|destruct x; reflexivity|cbn [app List.length]; lia].
  rewrite typeAt_set. f_equal. cbn [ta_pos CtxProofs.mk]. lia.
Qed.

Lemma text_of_tokens L P E : map pc L = rev (P ++ E) -> List.concat (map (symbol code) (rev (firstn (List.length E) L))) = textOf E.
Proof.
  intros M. unfold textOf. f_equal. rewrite map_rev, <- firstn_map, (pc_texts code _ _ M), map_rev, map_app, rev_app_distr.
  rewrite firstn_app, rev_length, map_length, Nat.sub_diag. cbn [firstn]. rewrite app_nil_r, firstn_all2 by (rewrite rev_length, map_length; lia).
  apply rev_involutive.
Qed.

(** The expression left of the arrow. *)
Lemma eval_member fuel L suf pre stop x w0 e c0' c :
  map pc L = rev (pre ++ [(stop, x)] ++ w0 ++ e) -> lead w0 -> isExpression e -> ~ In T_COMMA (kindsOf e) ->
  In stop boundaries \/ stop = T_COMMA \/ stop = T_LPAREN ->
  c_op c0' = MemberAccess -> evaluate cc env fuel (mk L suf) c0' = Ok c ->
  let t := trimmed cc (textOf e) ++ (if is stop T_LPAREN then str ")" else []) in
  let ty := match t with [] => false | _ => e_hasType env t end in
  c_op c = MemberAccess /\ c_expr c = t /\ (ty = false -> c_valid c = false) /\
  (In stop boundaries -> c_valid c = (c_valid c0' && ty) /\ c_parent c = c_parent c0').
Proof.
  intros M HL HE HC HS Hop H t ty. destruct HE as (HB & HN & k & s & e0 & -> & K1 & K2).
  destruct fuel as [|f]; [discriminate|]. cbn [evaluate] in H. rewrite Hop in H. cbn [opIs] in H. cbn [cbind] in H.
  destruct (over_kinds MemberAccess w0 ((k, s) :: e0) HL HB HN ltac:(intros; contradiction)) as [O1 O2].
  set (F := w0 ++ (k, s) :: e0) in *.
  assert (MK : map t_kind (skipn 0 L) = rev (kindsOf F) ++ stop :: rev (kindsOf pre)).
  { cbn [skipn]. rewrite (pc_kinds code _ _ M). unfold kindsOf. rewrite map_rev, !map_app, !rev_app_distr. cbn [map rev app fst]. rewrite <- app_assoc. reflexivity. }
  destruct (walk (S f) (mk L suf) MemberAccess 0 0) as [r| |] eqn:EW; cbn [cbind] in H; try discriminate.
  assert (HS2 : stopsAt MemberAccess stop = true \/ stop = T_LPAREN).
  { destruct HS as [HS|[->| ->]]; [left; apply stops_boundary; exact HS|left; reflexivity|right; reflexivity]. }
  pose proof (walk_run code MemberAccess _ _ L suf 0 0 stop _ r MK O1 O2 HS2 EW) as ->.
  assert (LEN : List.length (rev (kindsOf F)) = List.length F) by (unfold kindsOf; rewrite rev_length, map_length; reflexivity).
  rewrite LEN in H. cbn [Nat.add] in H.
  assert (NZ : ((if is stop T_LPAREN then 1 else 0) <? 0)%Z = false) by (destruct (is stop T_LPAREN); reflexivity). rewrite NZ in H.
  assert (MF : map pc L = rev ((pre ++ [(stop, x)]) ++ F)) by (rewrite M, <- app_assoc; reflexivity).
  pose proof (skipLead_ok code L suf _ w0 k s e0 MF HL K1 K2) as SL. unfold skipLead in SL. cbv zeta in SL. fold F in SL. cbv zeta in H. rewrite SL in H. clear SL.
  replace (Z.to_nat (1 - - Z.of_nat (List.length e0))) with (S (List.length e0)) in H by lia.
  assert (HLn : S (List.length e0) <= List.length L).
  { rewrite <- (map_length pc L), M, rev_length. unfold F. rewrite !app_length. cbn [List.length]. lia. }
  replace (- Z.of_nat (List.length e0))%Z with (1 - Z.of_nat (S (List.length e0)))%Z in H at 1 by lia.
  rewrite strings_mk in H by exact HLn. cbn [cbind] in H.
  assert (ET : List.concat (map (symbol code) (rev (firstn (S (List.length e0)) L))) = textOf ((k, s) :: e0)).
  { apply (text_of_tokens L (pre ++ [(stop, x)] ++ w0) ((k, s) :: e0)). rewrite M. unfold F. rewrite <- !app_assoc. reflexivity. }
  rewrite ET in H. cbn [app] in H.
  assert (EO : repeat cRPAREN (Z.to_nat (if is stop T_LPAREN then 1 else 0)) = if is stop T_LPAREN then str ")" else []) by (destruct (is stop T_LPAREN); reflexivity).
  rewrite EO in H. fold t in H. fold ty in H.
  destruct ty eqn:Ety; cbn [cbind negb] in H.
  - destruct (moveTo (mk L suf) _) as [ta| |] eqn:EM; cbn [cbind] in H; try discriminate.
    destruct (tail_keeps f ta (withExpr c0' t) c H) as (T1 & T2 & T3). cbn [c_op c_expr withExpr] in T1, T2. rewrite Hop in T1.
    split; [exact T1|]. split; [exact T2|]. split; [discriminate|]. intros HBd.
    assert (NP : is (typeAt ta (-1)) T_LPAREN || is (typeAt ta (-1)) T_COMMA = false).
    { assert (EX : exists P y, map pc L = rev (P ++ [y] ++ (k, s) :: e0) /\ (In (fst y) boundaries \/ fst y = T_WHITESPACE \/ fst y = T_RETURN)).
      { destruct (rev w0) as [|y q] eqn:Er.
        - apply (f_equal (@rev _)) in Er. rewrite rev_involutive in Er. cbn in Er. subst w0. exists pre, (stop, x). split; [exact M|left; exact HBd].
        - apply (f_equal (@rev _)) in Er. rewrite rev_involutive in Er. cbn in Er. exists (pre ++ [(stop, x)] ++ rev q), y. split.
          + rewrite M. unfold F. rewrite Er, <- !app_assoc. reflexivity.
          + right. apply (lead_kinds w0 HL). rewrite Er. unfold kindsOf. rewrite map_app, in_app_iff. right. left. reflexivity. }
      destruct EX as (P & y & MP & Hy). rewrite (moved_before L suf P e0 k s y ta MP EM).
      destruct Hy as [Hy|[-> | ->]]; [|reflexivity|reflexivity]. cbn [boundaries In] in Hy. repeat (destruct Hy as [<-|Hy]; [reflexivity|]). destruct Hy. }
    rewrite (T3 NP). cbn [c_valid c_parent withExpr]. rewrite andb_true_r. auto.
  - injection H as <-. cbn [c_op c_expr c_valid c_parent invalid withExpr]. rewrite andb_false_r. auto.
Qed.
End C.
