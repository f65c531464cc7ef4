(** Proofs about the completion context: the constructor (C32). *)
From Verif Require Export ComplProofs.
Open Scope nat_scope.

Section SW.
Variable S : list Token.
Notation size := (Z.of_nat (List.length S)).
Notation on := (on S).
Variable j : Z.
Hypothesis Hj : (0 <= j < size)%Z.
Hypothesis Htag : forall ta, on ta -> exists t, streamAt ta j = Ok t /\ isTag (t_kind t).
Hypothesis Hhtml : forall ta i t, on ta -> (i < j)%Z -> streamAt ta i = Ok t -> t_kind t = T_INLINE_HTML.
Variable cc : CharClass.
Variable env : Env.
Ltac code := split; [discriminate|intros [?|?]; discriminate].
Ltac codes := repeat (apply Forall_cons; [code|]); apply Forall_nil.

Definition swOK (pos0 : Z) (ta : TA) (c : Ctx) (early : bool) : Prop :=
  on ta /\ (early = true \/ c_valid c = false \/
    ((j <= ta_pos ta < size)%Z /\
     match c_op c with
     | FunctionCallAccess => typeAt ta 0 = T_LPAREN /\ (ta_pos ta <= pos0)%Z
     | MemberAccess | StaticMemberAccess =>
         (typeAt ta 1 = T_OBJECT_OPERATOR \/ typeAt ta 1 = T_PAAMAYIM_NEKUDOTAYIM) /\ (ta_pos ta + 1 <= pos0)%Z
     | _ => True
     end)).

Lemma popTok_typeAt ta k : on ta -> (0 <= ta_pos ta)%Z -> typeAt ta 0 = k -> typeAt (popTok ta) 1 = k.
Proof.
  intros E H <-. unfold popTok. destruct (Z.leb_spec 0 (ta_pos ta)); [|lia]. unfold typeAt. cbn [setPos ta_pos].
  replace (ta_pos ta - 1 + 1)%Z with (ta_pos ta + 0)%Z by lia. reflexivity.
Qed.

Lemma bigSwitch_ok fuel inClass lws text following ta : on ta -> (j <= ta_pos ta < size)%Z ->
  (ta_pos ta + 2 <= Z.of_nat fuel)%Z ->
  (forall t, In t S -> (0 <= t_begin t < Z.of_nat (List.length text))%Z) ->
  exists ta' c early, bigSwitch cc fuel inClass lws text following ta = Ok (ta', c, early) /\
    swOK (ta_pos ta) ta' c early.
Proof.
  intros E Hp Hf Hb. unfold bigSwitch. rewrite (type_ok S) by (auto; lia). cbn [cbind].
  destruct (streamAt_ok S ta (ta_pos ta) E) as [t Ht]; [lia|].
  assert (Hk : typeAt ta 0 = t_kind t) by (apply typeAt_at; rewrite Z.add_0_r; exact Ht).
  assert (Hat : tokAt ta 0 = Ok t) by (unfold tokAt; rewrite Z.add_0_r; exact Ht).
  rewrite Hk. pose proof (past S j Htag Hhtml ta _ _ E Ht) as HP.
  assert (HIn : In t S).
  { unfold streamAt in Ht. rewrite E in Ht. destruct (_ <? _)%Z; [discriminate|].
    destruct (nth_error S (Z.to_nat (ta_pos ta))) eqn:En; [|discriminate]. injection Ht as ->. eapply nth_error_In; eauto. }
  destruct (t_kind t) eqn:Kt;
    try (destruct inClass; cbn; eexists _, _, _; (split; [reflexivity|]); (split; [exact E|]);
         solve [right; left; reflexivity | right; right; split; [exact Hp|exact I]]).
  all: try (assert (Hlt : (j < ta_pos ta)%Z) by (apply HP; [discriminate|intros [?|?]; discriminate])).
  all: clear HP.
  - (* OPEN_TAG *) destruct (_ && _); eexists _, _, _; (split; [reflexivity|]); split; auto.
    right; right; split; auto; exact I.
  - (* COMMENT *) destruct (stringAt_ok S ta 0 E) as [s Hs]; [lia|]. rewrite Hs. cbn [cbind].
    destruct (_ && _ && _); eexists _, _, _; (split; [reflexivity|]); split; auto. right; right; split; auto; exact I.
  - (* LPAREN *) destruct (is _ T_CATCH); [|destruct (is _ T_ARRAY)]; eexists _, _, _; (split; [reflexivity|]); split; auto;
      right; right; (split; [exact Hp|]); cbn; auto. split; auto. lia.
  - (* COMMA *)
    destruct (implLoop_ok S fuel ta (-1) [] E) as (ids & b & H1 & H2); try lia; [constructor|]. rewrite H1. cbn [cbind snd fst].
    destruct b.
    + destruct (stringsAt_ok S ta ids E H2) as [s Hs]. rewrite Hs. cbn [cbind].
      eexists _, _, _; (split; [reflexivity|]); split; auto. right; right; split; auto; exact I.
    + destruct (rOA_ok S fuel ta E) as (ta' & R1 & R2 & R3 & R4 & R5); try lia; [exact Hk|].
      rewrite R1. cbn [cbind]. rewrite (type_ok S) by (auto; lia). cbn [cbind].
      eexists _, _, _; split; [reflexivity|]. split; auto. right.
      destruct (isP (typeAt ta' 0) T_INVALID) as [Hi|Hi]; [left; reflexivity|]. right.
      destruct R5 as [R5|R5]; [|congruence].
      destruct (typeAt_in S ta' 0 _ R2 R5) as [u [Hu Ku]]; [discriminate|]. rewrite Z.add_0_r in Hu.
      assert (j < ta_pos ta')%Z by (eapply (past' S j); eauto; code). split; [lia|]. cbn. split; auto. lia.
  - (* BACKSLASH *)
    destruct (nsLoop_ok S fuel ta 0 [] E) as [x Hx]; try lia. rewrite Hx. cbn [cbind].
    eexists _, _, _; (split; [reflexivity|]); split; auto. right; right; split; auto. cbn. destruct (is _ _); exact I.
  - (* :: *) eexists _, _, _; split; [reflexivity|].
    assert (ta_pos (popTok ta) = ta_pos ta - 1)%Z as Ep by (unfold popTok; destruct (Z.leb_spec 0 (ta_pos ta)); [reflexivity|lia]).
    split; [unfold popTok; destruct (_ <=? _)%Z; exact E|]. right; right. cbn [withOp c_op]. rewrite Ep.
    split; [lia|]. split; [|lia]. right. apply popTok_typeAt; auto; lia.
  - (* -> *) eexists _, _, _; split; [reflexivity|].
    assert (ta_pos (popTok ta) = ta_pos ta - 1)%Z as Ep by (unfold popTok; destruct (Z.leb_spec 0 (ta_pos ta)); [reflexivity|lia]).
    split; [unfold popTok; destruct (_ <=? _)%Z; exact E|]. right; right. cbn [withOp c_op]. rewrite Ep.
    split; [lia|]. split; [|lia]. left. apply popTok_typeAt; auto; lia.
  - (* string *)
    destruct (prependedBy_ok S j Hj Htag Hhtml ta [T_CONCAT; T_RPAREN; T_FILE; T_LPAREN; T_STRING] true E) as [p [P1 P2]]; [lia|codes|].
    rewrite P1. cbn [cbind].
    assert (exists ra, (if negb (p =? -1)%Z then s <~ stringAt ta (- p + 1);; Ok ((- p)%Z, eqs (map (foldCase cc) s) (str "dirname"))
             else p0 <~ prependedBy ta [T_CONCAT; T_DIR] true;; (if negb (p0 =? -1)%Z then Ok ((- p0)%Z, true) else Ok (p0, false))) = Ok ra) as [[rp af] Era].
    { destruct (Z.eqb_spec p (-1)) as [->|Hne]; cbn [negb].
      - destruct (prependedBy_ok S j Hj Htag Hhtml ta [T_CONCAT; T_DIR] true E) as [p [Q1 Q2]]; [lia|codes|].
        rewrite Q1. cbn [cbind]. destruct (negb _); eauto.
      - destruct P2 as [P2|P2]; [congruence|]. destruct (stringAt_ok S ta (- p + 1) E) as [s Hs]; [cbn in P2; lia|].
        rewrite Hs. cbn [cbind]. eauto. }
    rewrite Era. cbn [cbind]. clear Era. rewrite Hat. cbn [cbind].
    specialize (Hb t HIn).
    replace ((t_begin t <? 0) || (Z.of_nat (List.length text) <=? t_begin t))%Z with false.
    2:{ symmetry. apply orb_false_iff. split; [apply Z.ltb_ge|apply Z.leb_gt]; lia. }
    match goal with |- context [match ?x with T_REQUIRE => _ | _ => _ end] => destruct x end;
      eexists _, _, _; (split; [reflexivity|]); split; auto; right; right; split; auto; exact I.
  - (* EXTENDS *)
    destruct (prependedBy_ok S j Hj Htag Hhtml ta [T_WHITESPACE; T_STRING; T_WHITESPACE; T_CLASS] false E) as [p [P1 P2]]; [lia|codes|].
    rewrite P1. cbn [cbind]. destruct (Z.eqb_spec p (-1)) as [->|Hne]; cbn [negb].
    + destruct (prependedBy_ok S j Hj Htag Hhtml ta [T_WHITESPACE; T_STRING; T_WHITESPACE; T_INTERFACE] false E) as [p [Q1 Q2]]; [lia|codes|].
      rewrite Q1. cbn [cbind]. destruct (Z.eqb_spec p (-1)) as [->|Hne]; cbn [negb].
      * eexists _, _, _; (split; [reflexivity|]); split; auto.
      * destruct Q2 as [Q2|Q2]; [congruence|]. destruct (stringAt_ok S ta (-2) E) as [s Hs]; [cbn in Q2; lia|]. rewrite Hs. cbn [cbind].
        eexists _, _, _; (split; [reflexivity|]); split; auto. right; right; split; auto; exact I.
    + destruct P2 as [P2|P2]; [congruence|]. destruct (stringAt_ok S ta (-2) E) as [s Hs]; [cbn in P2; lia|]. rewrite Hs. cbn [cbind].
      eexists _, _, _; (split; [reflexivity|]); split; auto. right; right; split; auto; exact I.
  - (* IMPLEMENTS *)
    destruct (prependedBy_ok S j Hj Htag Hhtml ta [T_WHITESPACE; T_STRING; T_WHITESPACE; T_CLASS] false E) as [p [P1 P2]]; [lia|codes|].
    rewrite P1. cbn [cbind]. destruct (Z.eqb_spec p (-1)) as [->|Hne]; cbn [negb].
    + eexists _, _, _; (split; [reflexivity|]); split; auto.
    + destruct P2 as [P2|P2]; [congruence|]. destruct (stringAt_ok S ta (-2) E) as [s Hs]; [cbn in P2; lia|]. rewrite Hs. cbn [cbind].
      eexists _, _, _; (split; [reflexivity|]); split; auto. right; right; split; auto; exact I.
  - (* NEW *)
    destruct (prependedBy_ok S j Hj Htag Hhtml ta [T_WHITESPACE; T_THROW] false E) as [p [P1 P2]]; [lia|codes|].
    rewrite P1. cbn [cbind]. eexists _, _, _; (split; [reflexivity|]); split; auto. right; right; split; auto.
    cbn. destruct (negb _); exact I.
  - (* NAMESPACE *)
    destruct (nsLoop_ok S fuel ta 0 [] E) as [x Hx]; try lia. rewrite Hx. cbn [cbind].
    eexists _, _, _; (split; [reflexivity|]); split; auto. right; right; split; auto. cbn. destruct (is _ _); exact I.
Qed.

Lemma afterSwitch_ok fuel pos0 ta c early : swOK pos0 ta c early -> early = false -> (pos0 + 2 <= Z.of_nat fuel)%Z ->
  exists c', afterSwitch cc env fuel ta c = Ok c'.
Proof.
  intros [E H] -> Hf. unfold afterSwitch. destruct (c_valid c) eqn:Ev; cbn [negb]; [|eauto].
  destruct H as [H|[H|[Hp H]]]; try discriminate.
  destruct (streamAt_ok S ta (ta_pos ta) E) as [t Ht]; [lia|]. unfold tokAt. rewrite Z.add_0_r, Ht. cbn [cbind].
  destruct (c_op c) eqn:Eo; eauto.
  - destruct H as [H1 H2]. apply (evaluate_ok S j Hj Htag Hhtml); auto. rewrite Eo. split; [lia|]. split; auto. lia.
  - destruct H as [H1 H2]. rewrite (type_ok S) by (auto; lia). cbn [cbind]. rewrite H1, is_refl. cbn [negb].
    destruct (typeAt_in S ta 0 _ E H1) as [u [Hu Ku]]; [discriminate|]. rewrite Z.add_0_r in Hu.
    assert (j < ta_pos ta)%Z by (eapply (past' S j); eauto; code).
    destruct (prependedBy_ok S j Hj Htag Hhtml ta [T_STRING] true E) as [p [P1 P2]]; [lia|codes|].
    destruct (prependedBy_ok S j Hj Htag Hhtml ta [T_VARIABLE] true E) as [q [Q1 Q2]]; [lia|codes|].
    rewrite P1, Q1. cbn [cbind].
    assert (exists p2, (if (p =? -1)%Z then Ok q else Ok p) = Ok p2) as [p2 Ep2] by (destruct (p =? -1)%Z; eauto).
    rewrite Ep2. cbn [cbind]. destruct (p2 =? -1)%Z; [eauto|].
    destruct (evaluate_ok S j Hj Htag Hhtml cc env fuel ta (withOp ctx0 FunctionCallAccess) E) as [c' Hc'].
    { cbn. split; auto. lia. }
    rewrite Hc'. cbn. eauto.
  - destruct H as [H1 H2]. apply (evaluate_ok S j Hj Htag Hhtml); auto. rewrite Eo. split; [lia|]. split; auto. lia.
Qed.

Lemma completeTokens_tag fuel inClass text following : List.length S < fuel ->
  (forall t, In t S -> (0 <= t_begin t < Z.of_nat (List.length text))%Z) ->
  exists c, completeTokens cc env fuel inClass text following S = Ok c.
Proof.
  intros Hf Hb. unfold completeTokens. set (ta := newTA text S).
  assert (E : on ta) by reflexivity. assert (Ep : ta_pos ta = (size - 1)%Z) by reflexivity.
  destruct (streamAt_ok S ta (ta_pos ta) E) as [t Ht]; [lia|]. unfold tokAt at 1. rewrite Z.add_0_r, Ht. cbn [cbind].
  assert (Hk : typeAt ta 0 = t_kind t) by (apply typeAt_at; rewrite Z.add_0_r; exact Ht).
  rewrite (type_ok S) by (auto; lia). cbn [cbind]. rewrite Hk.
  set (tb := if is (t_kind t) T_WHITESPACE then popTok ta else ta).
  assert (on tb /\ (j <= ta_pos tb < size)%Z) as [Eb Hb2].
  { subst tb. destruct (isP (t_kind t) T_WHITESPACE) as [Hw|Hw]; [|split; auto; lia].
    assert (j < ta_pos ta)%Z by (eapply (past' S j); eauto; code).
    unfold popTok. destruct (Z.leb_spec 0 (ta_pos ta)); [|lia]. cbn [setPos ta_pos]. split; [exact E|lia]. }
  destruct (eqs _ _); [eauto|]. rewrite (type_ok S) by (auto; lia). cbn [cbind]. destruct (_ && _); [eauto|].
  destruct (bigSwitch_ok fuel inClass (is (t_kind t) T_WHITESPACE) text following tb Eb Hb2) as (ta' & c & early & B1 & B2); [lia|auto|].
  rewrite B1. cbn [cbind]. destruct early; [eauto|].
  eapply afterSwitch_ok; eauto. lia.
Qed.
End SW.

(** A document without an opening tag. *)
Lemma completeTokens_html cc env fuel inClass text following S : S <> [] ->
  (forall t, In t S -> t_kind t = T_INLINE_HTML) ->
  exists c, completeTokens cc env fuel inClass text following S = Ok c /\ c_valid c = false.
Proof.
  intros Hn HK. destruct (exists_last Hn) as [S' [t ->]].
  unfold completeTokens. set (ta := newTA text (S' ++ [t])).
  assert (E : on (S' ++ [t]) ta) by reflexivity. assert (Ep : ta_pos ta = Z.of_nat (List.length S')).
  { cbn. rewrite app_length. cbn. lia. }
  assert (Ht : streamAt ta (ta_pos ta) = Ok t).
  { unfold streamAt. rewrite E, Ep, Nat2Z.id, nth_error_app2, Nat.sub_diag by lia. cbn. destruct (Z.ltb_spec (Z.of_nat (List.length S')) 0); [lia|reflexivity]. }
  assert (Hk : t_kind t = T_INLINE_HTML) by (apply HK, in_or_app; right; left; reflexivity).
  unfold tokAt. rewrite Z.add_0_r, Ht. cbn [cbind].
  assert (Ty : type ta = Ok T_INLINE_HTML).
  { unfold type. destruct (Z.eqb_spec (ta_pos ta) (-1)); [lia|]. rewrite Ht. cbn. now rewrite Hk. }
  rewrite Ty. cbn [cbind]. change (is T_INLINE_HTML T_WHITESPACE) with false. cbn iota.
  destruct (eqs _ _); [eauto|]. rewrite Ty. cbn [cbind negb andb]. change (isIn T_INLINE_HTML _) with false. cbn iota.
  unfold bigSwitch. rewrite Ty. cbn. eauto.
Qed.
