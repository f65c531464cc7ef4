(** Proofs for C57, continued (proof file). *)
From Verif Require Import CtxSpec ComplProofs ComplProofs3 LexRun3 CtxProofs CtxProofs2 CtxProofs3 CtxProofs5 CtxProofs6.
Open Scope nat_scope.

Section C.
Variable cc : CharClass.
Variable env : Env.
Variable code : qstring.
Notation mk := (mk code).
Notation pc := (pc code).

(** The walk from an opening parenthesis, also behind "new". *)
Lemma call_start L suf t w0 e pre stop x start : t_kind t = T_LPAREN -> map pc L = rev (pre ++ [(stop, x)] ++ w0 ++ e) ->
  lead w0 -> balanced (kindsOf e) -> (forall k, In k (kindsOf e) -> ~ In k boundaries /\ k <> T_INVALID) ->
  In stop boundaries \/ stop = T_LPAREN ->
  (pos <~ prependedBy (mk (t :: L) suf) [T_STRING; T_NEW] true ;; Ok (if (pos =? -1)%Z then -1 else - pos)%Z) = Ok start ->
  forall fuel r, walk fuel (mk (t :: L) suf) FunctionCallAccess start 0 = Ok r ->
  r = (- Z.of_nat (S (List.length (w0 ++ e))), if is stop T_LPAREN then 1 else 0)%Z.
Proof.
  intros Kt M HL HB HN HS HP fuel r HW.
  destruct (over_kinds FunctionCallAccess w0 e HL HB HN ltac:(reflexivity)) as [O1 O2].
  set (F := w0 ++ e) in *.
  assert (MK : map t_kind L = rev (kindsOf F) ++ stop :: rev (kindsOf pre)).
  { rewrite (pc_kinds code _ _ M). unfold kindsOf. rewrite map_rev, !map_app, !rev_app_distr. cbn [map rev app fst]. rewrite <- app_assoc. reflexivity. }
  assert (LEN : List.length (rev (kindsOf F)) = List.length F) by (unfold kindsOf; rewrite rev_length, map_length; reflexivity).
  assert (HS2 : stopsAt FunctionCallAccess stop = true \/ stop = T_LPAREN).
  { destruct HS as [HS|HS]; [left; apply stops_boundary; exact HS|right; exact HS]. }
  destruct (prependedBy (mk (t :: L) suf) [T_STRING; T_NEW] true) as [p| |] eqn:EP; cbn [cbind] in HP; try discriminate. injection HP as <-.
  destruct (prepended_true code _ _ _ _ _ EP) as [->|(A & R & EA & Ep & HA)].
  - cbn in HW. change (-1)%Z with (- Z.of_nat 1)%Z in HW. change 0%Z with (- Z.of_nat 0)%Z in HW at 1.
    rewrite (walk_run code FunctionCallAccess _ fuel (t :: L) suf 1 0 stop _ r MK O1 O2 HS2 HW). rewrite LEN. reflexivity.
  - assert ((p =? -1)%Z = false) as EF by (apply Z.eqb_neq; lia). rewrite EF, Ep in HW.
    assert (PX : exists ks, rev (kindsOf F) = map t_kind A ++ ks).
    { clear - MK EA HA HS. rewrite EA, map_app in MK.
      assert (HK : forall k, In k (map t_kind A) -> k <> stop).
      { intros k Hk. apply in_map_iff in Hk. destruct Hk as (u & <- & Hu). intros Ek. specialize (HA u Hu). rewrite Ek in HA.
        destruct HS as [HS| ->]; [|cbn in HA; intuition discriminate]. cbn [boundaries In] in HS.
        repeat (destruct HS as [<-|HS]; [cbn in HA; intuition discriminate|]). destruct HS. }
      revert MK HK. generalize (map t_kind A) (rev (kindsOf F)) (map t_kind R). clear.
      intros a. induction a as [|k a IH]; intros f q MK HK; [exists f; reflexivity|]. destruct f as [|y f]; cbn in MK.
      - injection MK as -> _. exfalso. exact (HK stop (or_introl eq_refl) eq_refl).
      - injection MK as -> MK. destruct (IH _ _ MK (fun z Hz => HK z (or_intror Hz))) as [ks ->]. exists ks. reflexivity. }
    destruct PX as [ks Eks].
    assert (MK2 : map t_kind (skipn (1 + List.length A) (t :: L)) = ks ++ stop :: rev (kindsOf pre)).
    { cbn [Nat.add skipn]. rewrite <- (map_length t_kind A), <- skipn_map, MK, Eks, <- app_assoc, skipn_app, skipn_all, Nat.sub_diag. reflexivity. }
    assert (O3 : run ks 0 = Some 0).
    { rewrite Eks, run_neutral in O2; [exact O2|]. intros k Hk. apply in_map_iff in Hk. destruct Hk as (u & <- & Hu). specialize (HA u Hu). cbn in HA.
      destruct HA as [->|[<-|[<-|[]]]]; split; discriminate. }
    change 0%Z with (- Z.of_nat 0)%Z in HW at 1.
    rewrite (walk_run code FunctionCallAccess _ fuel (t :: L) suf _ 0 stop _ r MK2 (fun k Hk => O1 k ltac:(rewrite Eks; apply in_or_app; right; exact Hk)) O3 HS2 HW).
    f_equal. rewrite <- LEN, Eks, app_length, map_length. lia.
Qed.

Lemma eval_call fuel L suf t b pre stop x w0 e c0' c :
  pc t = (T_LPAREN, b) -> map pc L = rev (pre ++ [(stop, x)] ++ w0 ++ e) -> lead w0 -> isExpression e ->
  In stop boundaries \/ stop = T_LPAREN ->
  c_op c0' = FunctionCallAccess -> evaluate cc env fuel (mk (t :: L) suf) c0' = Ok c ->
  c_op c = FunctionCallAccess /\ c_expr c = trimmed cc (textOf e ++ b) ++ str ")" ++ (if is stop T_LPAREN then str ")" else []) /\
  (In stop boundaries -> c_valid c = c_valid c0' /\ c_parent c = c_parent c0').
Proof.
  intros Pt M HL HE HS Hop H. destruct HE as (HB & HN & k & s & e0 & -> & K1 & K2). injection Pt as Kt St.
  destruct fuel as [|f]; [discriminate|]. cbn [evaluate] in H. rewrite Hop in H. cbn [opIs] in H. rewrite type_mk in H. cbn [cbind] in H. rewrite Kt, is_refl in H.
  destruct (pos <~ prependedBy (mk (t :: L) suf) [T_STRING; T_NEW] true ;; Ok (if (pos =? -1)%Z then -1 else - pos)%Z) as [start| |] eqn:ES; cbn [cbind] in H; try discriminate.
  destruct (walk (S f) (mk (t :: L) suf) FunctionCallAccess start 0) as [r| |] eqn:EW; cbn [cbind] in H; try discriminate.
  rewrite (call_start L suf t w0 _ pre stop x start Kt M HL HB HN HS ES _ _ EW) in H.
  assert (NZ : ((if is stop T_LPAREN then 1 else 0) <? 0)%Z = false) by (destruct (is stop T_LPAREN); reflexivity). rewrite NZ in H.
  set (L2 := t :: L) in *. set (e1 := e0 ++ [(T_LPAREN, b)]).
  assert (M2 : map pc L2 = rev (pre ++ [(stop, x)] ++ w0 ++ (k, s) :: e1)).
  { unfold L2, e1. cbn [map]. rewrite M. unfold CtxProofs2.pc at 1. rewrite Kt, St. 
    replace (pre ++ [(stop, x)] ++ w0 ++ (k, s) :: e0 ++ [(T_LPAREN, b)]) with ((pre ++ [(stop, x)] ++ w0 ++ (k, s) :: e0) ++ [(T_LPAREN, b)]) by (rewrite <- !app_assoc; reflexivity).
    rewrite (rev_app_distr _ [(T_LPAREN, b)]). reflexivity. }
  assert (MF : map pc L2 = rev ((pre ++ [(stop, x)]) ++ w0 ++ (k, s) :: e1)) by (rewrite M2, <- app_assoc; reflexivity).
  pose proof (skipLead_ok code L2 suf _ w0 k s e1 MF HL K1 K2) as SL. unfold skipLead in SL. cbv zeta in SL, H.
  assert (LE : List.length (w0 ++ (k, s) :: e1) = S (List.length (w0 ++ (k, s) :: e0))).
  { unfold e1. rewrite !app_length. cbn [List.length]. rewrite app_length. cbn [List.length]. lia. }
  rewrite LE in SL. rewrite SL in H. clear SL.
  replace (Z.to_nat (1 - - Z.of_nat (List.length e1))) with (S (List.length e1)) in H by lia.
  assert (HLn : S (List.length e1) <= List.length L2).
  { rewrite <- (map_length pc L2), M2, rev_length. rewrite !app_length. cbn [List.length]. lia. }
  replace (- Z.of_nat (List.length e1))%Z with (1 - Z.of_nat (S (List.length e1)))%Z in H at 1 by lia.
  rewrite strings_mk in H by exact HLn. cbn [cbind] in H.
  assert (ET : List.concat (map (symbol code) (rev (firstn (S (List.length e1)) L2))) = textOf ((k, s) :: e0) ++ b).
  { assert (E1 : textOf ((k, s) :: e0) ++ b = textOf ((k, s) :: e1)).
    { unfold textOf, e1. change ((k, s) :: e0 ++ [(T_LPAREN, b)]) with (((k, s) :: e0) ++ [(T_LPAREN, b)]). rewrite map_app, concat_app. cbn [map List.concat]. rewrite app_nil_r. reflexivity. }
    rewrite E1. apply (text_of_tokens code L2 (pre ++ [(stop, x)] ++ w0) ((k, s) :: e1)). rewrite M2. rewrite <- !app_assoc. reflexivity. }
  rewrite ET in H.
  assert (EO : repeat cRPAREN (Z.to_nat (if is stop T_LPAREN then 1 else 0)) = if is stop T_LPAREN then str ")" else []) by (destruct (is stop T_LPAREN); reflexivity).
  rewrite EO in H. set (tx := trimmed cc (textOf ((k, s) :: e0) ++ b) ++ str ")" ++ (if is stop T_LPAREN then str ")" else [])) in *.
  destruct (match tx with [] => false | _ => e_hasType env tx end); cbn [cbind negb] in H.
  - destruct (moveTo (mk L2 suf) _) as [ta| |] eqn:EM; cbn [cbind] in H; try discriminate.
    destruct (tail_keeps cc env f ta (withExpr c0' tx) c H) as (T1 & T2 & T3). cbn [c_op c_expr withExpr] in T1, T2. rewrite Hop in T1.
    split; [exact T1|]. split; [exact T2|]. intros HBd.
    assert (NP : is (typeAt ta (-1)) T_LPAREN || is (typeAt ta (-1)) T_COMMA = false).
    { assert (EX : exists P y, map pc L2 = rev (P ++ [y] ++ (k, s) :: e1) /\ (In (fst y) boundaries \/ fst y = T_WHITESPACE \/ fst y = T_RETURN)).
      { destruct (rev w0) as [|y q] eqn:Er.
        - apply (f_equal (@rev _)) in Er. rewrite rev_involutive in Er. cbn in Er. subst w0. exists pre, (stop, x). split; [exact M2|left; exact HBd].
        - apply (f_equal (@rev _)) in Er. rewrite rev_involutive in Er. cbn in Er. exists (pre ++ [(stop, x)] ++ rev q), y. split.
          + rewrite M2. rewrite Er, <- !app_assoc. reflexivity.
          + right. apply (lead_kinds w0 HL). rewrite Er. unfold kindsOf. rewrite map_app, in_app_iff. right. left. reflexivity. }
      destruct EX as (P & y & MP & Hy). rewrite (moved_before code L2 suf P e1 k s y ta MP EM).
      destruct Hy as [Hy|[-> | ->]]; [|reflexivity|reflexivity]. cbn [boundaries In] in Hy. repeat (destruct Hy as [<-|Hy]; [reflexivity|]). destruct Hy. }
    rewrite (T3 NP). auto.
  - injection H as <-. auto.
Qed.

(** The class left of "::". *)
Lemma eval_static fuel L suf pre stop x w0 n w1 c0' c :
  map pc L = rev (pre ++ [(stop, x)] ++ w0 ++ (T_STRING, n) :: w1) -> lead w0 -> gap w1 -> In stop boundaries ->
  c_op c0' = StaticMemberAccess -> evaluate cc env fuel (mk L suf) c0' = Ok c ->
  if eqs (map (toLower cc) n) (str "parent") && e_inMethod env then
    if e_goodParent env then c = withOp c0' MemberAccess else c = invalid c0'
  else c = c0'.
Proof.
  intros M HL G1 HS Hop H.
  destruct fuel as [|f]; [discriminate|]. cbn [evaluate] in H. rewrite Hop in H. cbn [opIs] in H. cbn [cbind] in H.
  destruct (over_kinds StaticMemberAccess w0 ((T_STRING, n) :: w1) HL) as [O1 O2].
  { cbn. apply bal_other; try discriminate. destruct G1; [apply bal_nil|apply bal_other; try discriminate; apply bal_nil]. }
  { intros k Hk. assert (k = T_STRING \/ k = T_WHITESPACE) as [-> | ->] by (destruct G1; cbn in Hk; intuition); split; (discriminate || (cbn; intuition discriminate)). }
  { intros Hk. destruct G1; cbn in Hk; intuition discriminate. }
  set (F := w0 ++ (T_STRING, n) :: w1) in *.
  assert (MK : map t_kind (skipn 0 L) = rev (kindsOf F) ++ stop :: rev (kindsOf pre)).
  { cbn [skipn]. rewrite (pc_kinds code _ _ M). unfold kindsOf. rewrite map_rev, !map_app, !rev_app_distr. cbn [map rev app fst]. rewrite <- app_assoc. reflexivity. }
  destruct (walk (S f) (mk L suf) StaticMemberAccess 0 0) as [r| |] eqn:EW; cbn [cbind] in H; try discriminate.
  pose proof (walk_run code StaticMemberAccess _ _ L suf 0 0 stop _ r MK O1 O2 (or_introl (stops_boundary _ _ HS)) EW) as ->.
  assert (LEN : List.length (rev (kindsOf F)) = List.length F) by (unfold kindsOf; rewrite rev_length, map_length; reflexivity).
  rewrite LEN in H. cbn [Nat.add] in H.
  assert (NZ : ((if is stop T_LPAREN then 1 else 0) <? 0)%Z = false) by (destruct (is stop T_LPAREN); reflexivity). rewrite NZ in H.
  assert (MF : map pc L = rev ((pre ++ [(stop, x)]) ++ F)) by (rewrite M, <- app_assoc; reflexivity).
  pose proof (skipLead_ok code L suf _ w0 T_STRING n w1 MF HL ltac:(discriminate) ltac:(discriminate)) as SL. unfold skipLead in SL. cbv zeta in SL. fold F in SL. cbv zeta in H. rewrite SL in H. clear SL.
  assert (M3 : map pc L = rev ((pre ++ [(stop, x)] ++ w0) ++ (T_STRING, n) :: w1)) by (rewrite M; unfold F; rewrite <- !app_assoc; reflexivity).
  rewrite (typeAt_fw code L suf _ _ 0 T_STRING n _ M3) in H by (reflexivity || (cbn [List.length]; lia)).
  rewrite is_refl in H. cbn [negb] in H. rewrite (stringAt_fw code L suf _ _ 0 T_STRING n _ M3) in H by (reflexivity || (cbn [List.length]; lia)).
  cbn [cbind] in H.
  assert (TL : forall c2, (ta <~ moveTo (mk L suf) (- Z.of_nat (List.length w1)) ;;
      (if is (typeAt ta (-1)) T_LPAREN || is (typeAt ta (-1)) T_COMMA then
        ta <~ moveTo ta (-1) ;;
        k <~ type ta ;;
        ta <~ (if is k T_COMMA then removeOtherArguments (S f) ta else Ok ta) ;;
        k <~ type ta ;;
        if is k T_INVALID then Ok (invalid c2) else
        p <~ prependedBy ta [T_STRING] true ;;
        if (p =? -1)%Z then Ok c2 else
        k <~ type ta ;;
        if negb (is k T_LPAREN) then Bad else
        parent <~ evaluate cc env f ta (withOp ctx0 FunctionCallAccess) ;;
        if c_valid parent then Ok (withParent c2 (Some parent)) else Ok (invalid c2)
      else Ok c2)) = Ok c -> c = c2).
  { intros c2. destruct (moveTo (mk L suf) _) as [ta| |] eqn:EM; cbn [cbind]; try discriminate. intros HT.
    destruct (tail_keeps cc env f ta c2 c HT) as (_ & _ & T3). apply T3.
      assert (EX : exists P y, map pc L = rev (P ++ [y] ++ (T_STRING, n) :: w1) /\ (In (fst y) boundaries \/ fst y = T_WHITESPACE \/ fst y = T_RETURN)).
      { destruct (rev w0) as [|y q] eqn:Er.
        - apply (f_equal (@rev _)) in Er. rewrite rev_involutive in Er. cbn in Er. subst w0. exists pre, (stop, x). split; [exact M|left; exact HS].
        - apply (f_equal (@rev _)) in Er. rewrite rev_involutive in Er. cbn in Er. exists (pre ++ [(stop, x)] ++ rev q), y. split.
          + rewrite M. unfold F. rewrite Er, <- !app_assoc. reflexivity.
          + right. apply (lead_kinds w0 HL). rewrite Er. unfold kindsOf. rewrite map_app, in_app_iff. right. left. reflexivity. }
      destruct EX as (P & y & MP & Hy). rewrite (moved_before code L suf P w1 T_STRING n y ta MP EM).
      destruct Hy as [Hy|[-> | ->]]; [|reflexivity|reflexivity]. cbn [boundaries In] in Hy. repeat (destruct Hy as [<-|Hy]; [reflexivity|]). destruct Hy. }
  destruct (eqs (map (toLower cc) n) (str "parent") && e_inMethod env); [destruct (e_goodParent env)|]; cbn [cbind negb] in H.
  - exact (TL _ H).
  - injection H as <-. reflexivity.
  - exact (TL _ H).
Qed.
End C.
