(** The parser reads every expression. *)
From Coq Require Import List Bool NArith ZArith Lia Arith.
From Verif Require Import Chars LexModel ParseModel ParseSpec ParseProofs PexSpec PexProofs PexProofs2 PexProofs3 PexProofs4 PexPath PexPath2
  PexAtoms PexAtoms2 PexAtoms3 PexAtoms4 PexProofs5.
Import ListNotations.
Open Scope nat_scope.

Section Every.
Variable rs : Gen.
Context {Fs : Functions} {FsR : FunctionsRead rs}.
Notation Good := (Good rs).
Notation goodPart := (goodPart rs).

Definition Fine (e : ex) : Prop :=
  Good (readLevel e) (text e) e false /\ chained rs e /\ (path e = true -> PathOf rs e (text e))
  /\ (ofNew e = true -> InstOf rs e (text e)) /\ (element e = true -> ElemOf rs e (text e)) /\ NewStart rs (text e) e.

Lemma fine_wrap : forall a l m, Fine a -> m <= 21 -> fits l m a = true -> Good m (wrap l a (text a)) a false.
Proof. intros a l m (G & _ & _ & _ & _ & NS) L F. eapply (wrap_good rs); [exact L|apply read_le|exact F|apply newStart_ok, NS|exact (proj2 NS)|exact G]. Qed.
Lemma fine_0 : forall a, Fine a -> Good 0 (text a) a false.
Proof. intros a (G & _). apply (up_le rs 0 (readLevel a)); [lia|apply read_le|exact G]. Qed.
Lemma fits_low : forall l a, l <= 14 -> fits l l a = true.
Proof.
  intros l a L. unfold fits. destruct (level a <? l) eqn:E; [reflexivity|]. cbn [orb]. apply Nat.leb_le. apply Nat.ltb_ge in E.
  destruct a; cbn [level] in E; unfold readLevel; cbn [level]; try lia.
  - destruct o; cbn [opLevel] in *; lia.
  - destruct (element _); lia.
Qed.
Lemma fine_ne : forall a, Fine a -> text a <> [].
Proof. intros a (G & _). exact (proj1 (proj1 G)). Qed.
Lemma fine_left : forall l a e k w', (forall c a, e <> ENew c a) -> Fine a -> In k follows -> NewStart rs (wrap l a (text a) ++ k :: w') e.
Proof. intros l a e k w' NN H K. apply newStart_left; [exact NN|right; now apply fine_ne|exact (proj2 (proj2 (proj2 (proj2 (proj2 H)))))|exact K]. Qed.
Lemma path_level : forall a, path a = true -> level a = 22.
Proof. intros a H. destruct a; try discriminate H; reflexivity. Qed.
Lemma ofNew_level : forall a, ofNew a = true -> level a = 22.
Proof. intros a H. destruct a; try discriminate H; reflexivity. Qed.
Lemma element_level : forall a, element a = true -> level a = 22.
Proof. intros a H. destruct a; try discriminate H; reflexivity. Qed.
Lemma wrap22 : forall l a w, l <= 22 -> level a = 22 -> wrap l a w = w.
Proof. intros l a w L E. unfold wrap. rewrite E. replace (22 <? l) with false; [reflexivity|]. symmetry. apply Nat.ltb_ge. exact L. Qed.
Lemma fine_var : forall v, Fine v -> path v = true -> asVar rs v.
Proof. intros v (_ & _ & H & _) P. apply PathOf_var, H, P. Qed.
Lemma path_notnew : forall e w, PathOf rs e w -> starter (hd T_EOF w) <> true.
Proof. intros e w H. destruct (PathOf_var rs _ _ H) as (_ & I0 & _). cbn in I0. destruct I0 as [<-|[<-|[]]]; discriminate. Qed.

(** What is neither an operator nor reached from something. *)
Lemma fine_plain : forall e, chained rs e -> path e = false -> ofNew e = false -> element e = false -> Good (readLevel e) (text e) e false ->
  NewStart rs (text e) e -> Fine e.
Proof. intros e C P O E G N. split; [exact G|]. split; [exact C|]. rewrite P, O, E. split; [discriminate|]. split; [discriminate|]. split; [discriminate|]. exact N. Qed.
Lemma fine_atom : forall e, chained rs e -> path e = false -> ofNew e = false -> element e = false -> Good (readLevel e) (text e) e false ->
  starter (hd T_EOF (text e)) <> true -> Fine e.
Proof. intros. apply fine_plain; try assumption. now apply newStart_no. Qed.
Lemma path_read : forall e, path e = true -> readLevel e = 21 /\ element e = false /\ ofNew e = false /\ chained rs e.
Proof.
  assert (X : forall e, path e = true -> element e = false /\ ofNew e = false).
  { induction e using ex_induction. intros P. destruct e; try discriminate P; cbn [path element ofNew] in *; try (split; reflexivity).
    - destruct (H e1 (or_introl eq_refl) P) as [E O]. exact (conj E O).
    - destruct (H e (or_introl eq_refl) P) as [E O]. split; [reflexivity|]. destruct e; try exact O; discriminate P.
    - destruct (H e (or_introl eq_refl) P) as [E O]. split; [reflexivity|exact O]. }
  intros e P. destruct (X e P) as [E O]. repeat split; try assumption; destruct e; try discriminate P; try exact I; unfold readLevel; try reflexivity. now rewrite E.
Qed.
Lemma fine_path : forall e, path e = true -> PathOf rs e (text e) -> Fine e.
Proof.
  intros e P H. destruct (path_read e P) as (R & E & O & C). split; [rewrite R; eapply good_weak, PathOf_good, H|]. split; [exact C|]. split; [intros _; exact H|].
  rewrite E, O. split; [discriminate|]. split; [discriminate|]. apply newStart_no. eapply path_notnew, H.
Qed.
Lemma ofNew_prop : forall a, ofNew (EProp a) = true -> (exists c args, a = ENew c args) \/ ofNew a = true.
Proof. intros a H. destruct a; cbn [ofNew] in H; try discriminate H; try (right; exact H). left. eauto. Qed.
Lemma prop_ofNew : forall a, (exists c args, a = ENew c args) \/ ofNew a = true -> ofNew (EProp a) = true.
Proof. intros a [(c & args & ->)|H]; [reflexivity|]. destruct a; try discriminate H; exact H. Qed.
Lemma inst_read : forall e, ofNew e = true -> readLevel e = 21 /\ element e = false /\ path e = false /\ chained rs e.
Proof.
  assert (X : forall e, ofNew e = true -> element e = false /\ path e = false).
  { induction e using ex_induction. intros P. destruct e; try discriminate P.
    - destruct (H e1 (or_introl eq_refl) P) as [E O]. exact (conj E O).
    - split; [reflexivity|]. destruct (ofNew_prop _ P) as [(c & args & ->)|P']; [reflexivity|]. exact (proj2 (H e (or_introl eq_refl) P')).
    - destruct (H e (or_introl eq_refl) P) as [E O]. split; [reflexivity|exact O]. }
  intros e P. destruct (X e P) as [E O]. repeat split; try assumption; destruct e; try discriminate P; try exact I; unfold readLevel; try reflexivity. now rewrite E.
Qed.
Lemma fine_inst : forall e, ofNew e = true -> InstOf rs e (text e) -> Fine e.
Proof.
  intros e P H. destruct (inst_read e P) as (R & E & O & C). split; [rewrite R; apply InstOf_good, H|]. split; [exact C|].
  rewrite E, O. split; [discriminate|]. split; [intros _; exact H|]. split; [discriminate|]. apply newStart_no.
  destruct H as (c & args & gs & g & _ & _ & _ & -> & _). discriminate.
Qed.
Lemma elem_read : forall e, element e = true -> readLevel e = 20 /\ path e = false /\ ofNew e = false /\ chained rs e.
Proof.
  assert (X : forall e, element e = true -> path e = false /\ ofNew e = false).
  { induction e using ex_induction. intros P. destruct e; try discriminate P; [exact (H e1 (or_introl eq_refl) P)|split; reflexivity]. }
  intros e P. destruct (X e P) as [E O]. repeat split; try assumption; destruct e; try discriminate P; try exact I; unfold readLevel; try reflexivity. now rewrite P.
Qed.
Lemma fine_elem : forall e, element e = true -> ElemOf rs e (text e) -> Fine e.
Proof.
  intros e P H. destruct (elem_read e P) as (R & E & O & C). split; [rewrite R; apply ElemOf_good, H|]. split; [exact C|].
  rewrite E, O. split; [discriminate|]. split; [discriminate|]. split; [intros _; exact H|]. apply newStart_no.
  destruct H as (short & comma & l & ds & _ & _ & _ & -> & _). destruct short; discriminate.
Qed.

Definition asPart (e : ex) : part := (text e, e).
Lemma asParts : forall l, map fst (map asPart l) = map text l /\ map snd (map asPart l) = l.
Proof. intros l. rewrite !map_map. split; [apply map_ext; reflexivity|]. rewrite <- (map_id l) at 2. apply map_ext. reflexivity. Qed.

Ltac split_and H := repeat match type of H with _ && _ = true => let A := fresh "P" in let B := fresh "P" in apply andb_true_iff in H as [A B]; split_and A; split_and B | _ => fail 1 end.

Lemma left_chain : forall l a, leftLevels l = true -> l < 21 -> Fine a -> fits l l a = true -> Chain rs l (wrap l a (text a)) a.
Proof.
  intros l a LL L H F. unfold fits in F. destruct (level a <? l) eqn:E.
  - apply chain_one. apply fine_wrap; [exact H|lia|]. unfold fits. now rewrite E.
  - cbn [orb] in F. apply Nat.leb_le in F. destruct (Nat.eq_dec (readLevel a) l) as [EL|NL].
    + unfold wrap. rewrite E. apply same_left; [exact LL|exact EL|exact (proj1 (proj2 H))].
    + apply chain_one. apply fine_wrap; [exact H|lia|]. unfold fits. rewrite E. cbn [orb]. apply Nat.leb_le. lia.
Qed.
Lemma bin_fine : forall o a b, plain (EBin o a b) = true -> Fine a -> Fine b -> Fine (EBin o a b).
Proof.
  intros o a b P FA FB.
  assert (NS : NewStart rs (text (EBin o a b)) (EBin o a b)) by (cbn [text]; apply fine_left; [discriminate|exact FA|apply op_follows]).
  assert (RL : readLevel (EBin o a b) = gOp o) by (destruct o; reflexivity).
  destruct (opAssoc o) eqn:AS.
  - destruct (left_facts o AS) as (LL & L21 & GO & E1 & E2).
    assert (F2 : fits (opLevel o) (opLevel o) a = true /\ fits (S (opLevel o)) (S (opLevel o)) b = true).
    { rewrite <- E2, <- E1 at 1. rewrite <- E1 at 1. destruct o; try discriminate AS; cbn [plain] in P; apply andb_true_iff in P as [P Q]; apply andb_true_iff in P as [P Q2]; exact (conj Q2 Q). }
    destruct F2 as [F2 F3].
    assert (C : Chain rs (opLevel o) (text (EBin o a b)) (EBin o a b)).
    { cbn [text]. rewrite E1, E2. apply chain_snoc; [exact LL|exact GO|now apply left_chain|]. apply fine_wrap; [exact FB|lia|exact F3]. }
    apply fine_plain; try reflexivity; [|rewrite RL, GO; apply chain_good; assumption|exact NS].
    destruct o; try discriminate AS; cbn [chained opAssoc]; exact C.
  - destruct o; try discriminate AS.
    + (* ?? *)
      cbn [plain] in P. apply andb_true_iff in P as [P Q]. apply andb_true_iff in P as [P Q2].
      change (leftLevel OCoalesce) with 8 in Q2. change (rightLevel OCoalesce) with 7 in Q.
      assert (C : ChainR rs (wrap 8 a (text a) ++ T_NULL_COALESCE :: wrap 7 b (text b)) (EBin OCoalesce a b)).
      { assert (GA' : Good 8 (wrap 8 a (text a)) a false) by (apply fine_wrap; [exact FA|lia|exact Q2]).
        destruct (Nat.eq_dec (level b) 7) as [EL|NL].
        - assert (EB : exists b1 b2, b = EBin OCoalesce b1 b2).
          { destruct b as [| |o b1 b2| | | | | | | | | | | | | | | | | | | | | | | | | | | | |]; try discriminate EL. destruct o; try discriminate EL. eauto. }
          destruct EB as (b1 & b2 & ->). pose proof (proj1 (proj2 FB)) as CB. cbn [chained opAssoc] in CB.
          destruct CB as (w0 & e0 & ps & EW & G & PS & PK & RO).
          exists (wrap 8 a (text a)), a, ((T_NULL_COALESCE, w0, e0) :: ps).
          split; [|split; [exact GA'|split; [constructor; [exact G|exact PS]|split; [constructor; [reflexivity|exact PK]|]]]].
          + cbn [chainText flat_map fst snd]. fold (chainText ps). cbn [app]. rewrite <- EW. reflexivity.
          + cbn [rightOf]. now rewrite RO.
        - exists (wrap 8 a (text a)), a, [(T_NULL_COALESCE, wrap 7 b (text b), b)].
          split; [cbn; now rewrite app_nil_r|]. split; [exact GA'|].
          split; [constructor; [|constructor]|split; [constructor; [reflexivity|constructor]|reflexivity]].
          unfold goodPiece. cbn [fst snd].
          replace (wrap 7 b (text b)) with (wrap 8 b (text b)); [apply fine_wrap; [exact FB|lia|apply fits_low; lia]|].
          unfold wrap. destruct (level b <? 7) eqn:F.
          + apply Nat.ltb_lt in F. replace (level b <? 8) with true by (symmetry; apply Nat.ltb_lt; lia). reflexivity.
          + apply Nat.ltb_ge in F. replace (level b <? 8) with false by (symmetry; apply Nat.ltb_ge; lia). reflexivity. }
      apply fine_plain; try reflexivity; [exact C|apply chainR_good, C|exact NS].
    + (* ** *)
      cbn [plain] in P. apply andb_true_iff in P as [P Q]. apply andb_true_iff in P as [P Q2].
      assert (C : Chain rs 17 (text (EBin OExp a b)) (EBin OExp a b)).
      { cbn [text]. apply chain_snoc; [reflexivity|reflexivity| |].
        - apply chain_one. apply fine_wrap; [exact FA|lia|exact Q2].
        - apply fine_wrap; [exact FB|lia|exact Q]. }
      apply fine_plain; try reflexivity; [exact C|apply (chain_good rs 17); [reflexivity|exact C]|exact NS].
  - destruct (non_facts o AS) as (NL & L21 & E1 & E2).
    assert (GO : gOp o = opLevel o) by (destruct o; try discriminate AS; reflexivity).
    assert (F2 : fits (S (opLevel o)) (S (opLevel o)) a = true /\ fits (S (opLevel o)) (S (opLevel o)) b = true).
    { rewrite <- E2 at 3 4. rewrite <- E1 at 1 2. destruct o; try discriminate AS; cbn [plain] in P; apply andb_true_iff in P as [P Q]; apply andb_true_iff in P as [P Q2]; exact (conj Q2 Q). }
    destruct F2 as [F2 F3].
    apply fine_plain; try reflexivity; [destruct o; try discriminate AS; exact I| |exact NS]. rewrite RL, GO. cbn [text]. rewrite E1, E2.
    apply non_good; [exact NL| |]; (apply fine_wrap; [assumption|exact L21|assumption]).
Qed.

Lemma args_fine : forall l, (forall a, In a l -> Fine a) -> Forall goodPart (map asPart l).
Proof. intros l H. apply Forall_forall. intros p Hp. apply in_map_iff in Hp as (x & <- & Hx). exact (fine_0 x (H x Hx)). Qed.
Lemma in_plain : forall l (f : ex -> bool) a, forallb f l = true -> In a l -> f a = true.
Proof. intros l f a H. rewrite forallb_forall in H. apply H. Qed.

Theorem every : forall e, plain e = true -> Fine e.
Proof.
  induction e using ex_induction. rename H into IH. intros P.
  destruct e as [| |o a b|o a|o v a|a b c|a c|a|a|k a| | |l| |l|a i|a|a l|k|q l|s c l|c args|l|a|a|o|a|pre inc v|l a|o|a|f]; cbn [subs] in IH.
  - apply fine_path; [reflexivity|apply path_var].
  - apply fine_atom; try reflexivity; [eapply good_weak, good_num|discriminate].
  - assert (PAB : plain a = true /\ plain b = true).
    { destruct o; cbn [plain] in P; apply andb_true_iff in P as [P _]; apply andb_true_iff in P as [P _]; now apply andb_true_iff in P. }
    destruct PAB as [PA PB]. apply bin_fine; [exact P|exact (IH a (or_introl eq_refl) PA)|exact (IH b (or_intror (or_introl eq_refl)) PB)].
  - cbn [plain] in P. apply andb_true_iff in P as [P F]. specialize (IH a (or_introl eq_refl) P).
    apply fine_atom; try reflexivity; [|destruct o; discriminate]. cbn [text]. apply (un_good rs o). apply fine_wrap; [exact IH|lia|exact F].
  - cbn [plain] in P. apply andb_true_iff in P as [P F]. apply andb_true_iff in P as [P PA]. apply andb_true_iff in P as [PV1 PV].
    pose proof (IH v (or_introl eq_refl) PV) as FV. pose proof (IH a (or_intror (or_introl eq_refl)) PA) as FA.
    apply fine_plain; try reflexivity; [|cbn [text]; apply fine_left; [discriminate|exact FV|apply asg_follows]].
    cbn [text]. rewrite (wrap22 6 v) by (try lia; now apply path_level). apply (asg_good rs o); [|apply fine_wrap; [exact FA|lia|exact F]].
    apply (up_le rs 6 21); [lia|lia|]. apply PathOf_good. exact (proj1 (proj2 (proj2 FV)) PV1).
  - cbn [plain] in P. apply andb_true_iff in P as [P F2]. apply andb_true_iff in P as [P F1]. apply andb_true_iff in P as [P PC]. apply andb_true_iff in P as [PA PB].
    pose proof (IH a (or_introl eq_refl) PA) as FA. pose proof (IH b (or_intror (or_introl eq_refl)) PB) as FB. pose proof (IH c (or_intror (or_intror (or_introl eq_refl))) PC) as FC.
    apply fine_plain; try reflexivity; [|cbn [text]; apply fine_left; [discriminate|exact FA|now left]].
    cbn [text]. apply (cond_good rs); [apply fine_wrap; [exact FA|lia|exact F1]|apply fine_wrap; [exact FB|lia|apply fits_low; lia]|apply fine_wrap; [exact FC|lia|exact F2]].
  - cbn [plain] in P. apply andb_true_iff in P as [P F2]. apply andb_true_iff in P as [P F1]. apply andb_true_iff in P as [PA PC].
    pose proof (IH a (or_introl eq_refl) PA) as FA. pose proof (IH c (or_intror (or_introl eq_refl)) PC) as FC.
    apply fine_plain; try reflexivity; [|cbn [text]; apply fine_left; [discriminate|exact FA|now left]].
    cbn [text]. apply (elvis_good rs); [apply fine_wrap; [exact FA|lia|exact F1]|apply fine_wrap; [exact FC|lia|exact F2]].
  - cbn [plain] in P. apply andb_true_iff in P as [P F]. specialize (IH a (or_introl eq_refl) P).
    apply fine_atom; try reflexivity; [|discriminate]. cbn [text]. apply (print_good rs). apply fine_wrap; [exact IH|lia|exact F].
  - cbn [plain] in P. apply andb_true_iff in P as [P F]. specialize (IH a (or_introl eq_refl) P).
    apply fine_plain; try reflexivity; [|cbn [text]; apply fine_left; [discriminate|exact IH|right; now left]]. cbn [text]. apply (instanceof_good rs). apply fine_wrap; [exact IH|lia|exact F].
  - cbn [plain] in P. apply andb_true_iff in P as [P F]. specialize (IH a (or_introl eq_refl) P).
    apply fine_atom; try reflexivity; [|destruct k; discriminate]. cbn [text]. apply (include_good rs). apply fine_wrap; [exact IH|lia|exact F].
  - apply fine_atom; try reflexivity; [apply const_good|discriminate].
  - apply fine_atom; try reflexivity; [apply classconst_good|discriminate].
  - cbn [plain] in P. destruct (asParts l) as [E1 E2]. apply fine_path; [reflexivity|]. cbn [text].
    pose proof (path_call rs _ (args_fine l (fun a I => IH a I (in_plain _ _ _ P I)))) as X. rewrite E1, E2 in X. exact X.
  - apply fine_path; [reflexivity|apply path_static].
  - cbn [plain] in P. destruct (asParts l) as [E1 E2]. apply fine_path; [reflexivity|]. cbn [text].
    pose proof (path_scall rs _ (args_fine l (fun a I => IH a I (in_plain _ _ _ P I)))) as X. rewrite E1, E2 in X. exact X.
  - cbn [plain] in P. apply andb_true_iff in P as [P PI]. apply andb_true_iff in P as [P PA].
    pose proof (IH a (or_introl eq_refl) PA) as (_ & _ & F1 & F2 & F3 & _). pose proof (fine_0 _ (IH i (or_intror (or_introl eq_refl)) PI)) as GI.
    apply orb_true_iff in P as [P|P]; [apply orb_true_iff in P as [P|P]|].
    + apply fine_path; [exact P|]. cbn [text]. rewrite (wrap22 22 a) by (try lia; now apply path_level). apply path_index; [now apply F1|exact GI].
    + apply fine_inst; [exact P|]. cbn [text]. rewrite (wrap22 22 a) by (try lia; now apply ofNew_level). apply inst_index; [now apply F2|exact GI].
    + apply fine_elem; [exact P|]. cbn [text]. rewrite (wrap22 22 a) by (try lia; now apply element_level). apply elem_index; [now apply F3|exact GI].
  - cbn [plain] in P. apply andb_true_iff in P as [P PA]. pose proof (IH a (or_introl eq_refl) PA) as (_ & _ & F1 & F2 & F3 & NS).
    apply orb_true_iff in P as [P|P]; [apply orb_true_iff in P as [P|P]|].
    + apply fine_path; [exact P|]. cbn [text]. rewrite (wrap22 22 a) by (try lia; now apply path_level). apply path_prop. now apply F1.
    + apply fine_inst; [apply prop_ofNew; now right|]. cbn [text]. rewrite (wrap22 22 a) by (try lia; now apply ofNew_level). apply inst_prop. now apply F2.
    + destruct a as [| | | | | | | | | | | | | | | | | | | | |c args| | | | | | | | | |]; try discriminate P.
      apply fine_inst; [apply prop_ofNew; left; eauto|].
      change (text (EProp (ENew c args))) with ((T_LPAREN :: text (ENew c args) ++ [T_RPAREN]) ++ [T_OBJECT_OPERATOR; T_STRING]).
      destruct NS as [NS _]. destruct NS as (c' & args' & w2 & GA & EW & C); [reflexivity|]. destruct C as [[-> E]|[N _]]; [|exfalso; exact (N c args eq_refl)].
      rewrite app_nil_r in EW. rewrite EW, E. now apply inst_new.
  - cbn [plain] in P. apply andb_true_iff in P as [P PL]. apply andb_true_iff in P as [P PA]. apply orb_true_iff in P as [P|P].
    2:{ destruct a as [| | | | | | | | | | | | | | | | | | | | | | | | | | | | | | |f]; try discriminate P. apply fine_atom; try reflexivity; [|discriminate].
        destruct (asParts l) as [E1 E2]. pose proof (call_good rs f _ PA P (args_fine l (fun a I => IH a (or_intror I) (in_plain _ _ _ PL I)))) as X. rewrite E1, E2 in X.
        cbn [text]. unfold wrap. cbn [level Nat.ltb Nat.leb app]. rewrite <- app_assoc. exact X. }
    apply andb_true_iff in P as [P PC].
    pose proof (IH a (or_introl eq_refl) PA) as (_ & _ & F1 & F2 & F3 & _). destruct (asParts l) as [E1 E2].
    pose proof (args_fine l (fun a I => IH a (or_intror I) (in_plain _ _ _ PL I))) as GL.
    apply orb_true_iff in P as [P|P].
    + apply fine_path; [exact P|]. cbn [text]. rewrite (wrap22 22 a) by (try lia; now apply path_level).
      pose proof (path_invoke rs _ _ _ (F1 P) PC GL) as X. rewrite E1, E2 in X. exact X.
    + apply fine_inst; [exact P|]. cbn [text]. rewrite (wrap22 22 a) by (try lia; now apply ofNew_level).
      pose proof (inst_invoke rs _ _ _ (F2 P) PC GL) as X. rewrite E1, E2 in X. exact X.
  - apply fine_atom; try reflexivity; [apply lit_good|destruct k; discriminate].
  - cbn [plain] in P. apply fine_atom; try reflexivity; [|destruct q; discriminate]. cbn [text]. apply (string_good rs). intros a I0.
    rewrite forallb_forall in P. pose proof (P _ I0) as Q. cbn [plainBit] in Q. apply andb_true_iff in Q as [_ Q]. apply fine_0, IH; [|exact Q].
    apply in_flat_map. exists (BCurly a). split; [exact I0|now left].
  - apply fine_elem; [reflexivity|]. cbn [text]. cbn [plain] in P. apply andb_true_iff in P as [P C].
    exists s, c, l, []. split; [|split; [|split; [constructor|split; [cbn [dimsText flat_map]; now rewrite app_nil_r|reflexivity]]]].
    + intros n Hn. rewrite forallb_forall in P. specialize (P n Hn).
      assert (SUB : forall x, In x (entrySubs n) -> plain x = true -> Fine x) by (intros x Hx; apply IH; apply in_flat_map; eauto).
      assert (KEY : forall k, Fine k -> Good 5 (keyText k) k false) by (intros k Fk; apply fine_wrap; [exact Fk|lia|apply fits_low; lia]).
      destruct n as [x|k x|x|k x]; cbn [plainEntry] in P; cbn [goodEntry]; cbn [entrySubs] in SUB.
      * apply fine_0, SUB; [now left|exact P].
      * apply andb_true_iff in P as [PK PX]. split; [apply KEY, SUB; [now left|exact PK]|apply fine_0, SUB; [right; now left|exact PX]].
      * apply andb_true_iff in P as [PP PX]. apply fine_var; [apply SUB; [now left|exact PX]|exact PP].
      * apply andb_true_iff in P as [PK P]. apply andb_true_iff in P as [PP PX]. split; [apply KEY, SUB; [now left|exact PK]|apply fine_var; [apply SUB; [right; now left|exact PX]|exact PP]].
    + intros ->. cbn [negb orb] in C. destruct l; [discriminate C|discriminate].
  - assert (GA : goodArgs rs (option_map (map asPart) args)).
    { destruct args as [l|]; [|exact I]. cbn [plain] in P. cbn [option_map goodArgs]. apply args_fine. intros a I0. apply IH; [exact I0|]. exact (in_plain _ _ _ P I0). }
    assert (EV : newVal c (option_map (map asPart) args) = ENew c args).
    { unfold newVal. destruct args as [l|]; [|reflexivity]. cbn [option_map]. now rewrite (proj2 (asParts l)). }
    assert (ET : newText c (option_map (map asPart) args) = text (ENew c args)).
    { unfold newText. cbn [text]. destruct args as [l|]; [|reflexivity]. cbn [option_map]. now rewrite (proj1 (asParts l)). }
    pose proof (new_good rs c _ GA) as G. rewrite EV, ET in G. apply fine_plain; try reflexivity; [exact G|].
    split; [|intros X; discriminate X]. intros _. exists c, (option_map (map asPart) args), []. split; [exact GA|]. split; [now rewrite ET, app_nil_r|]. left. split; [reflexivity|now symmetry].
  - cbn [plain] in P. apply andb_true_iff in P as [NE P]. apply fine_atom; try reflexivity; [|discriminate]. cbn [text]. apply (isset_good rs); [destruct l; [discriminate NE|discriminate]|].
    intros v Hv. pose proof (in_plain _ _ _ P Hv) as Q. cbv beta in Q. apply andb_true_iff in Q as [Q1 Q2]. apply fine_var; [now apply IH|exact Q1].
  - cbn [plain] in P. apply fine_atom; try reflexivity; [|discriminate]. cbn [text]. apply (empty_good rs). apply fine_0, IH; [now left|exact P].
  - cbn [plain] in P. apply fine_atom; try reflexivity; [|discriminate]. cbn [text]. apply (eval_good rs). apply fine_0, IH; [now left|exact P].
  - apply fine_atom; try reflexivity; [|destruct o as [[x|]|]; discriminate].
    destruct o as [[x|]|]; [|exact (exit_good rs (Some None) ltac:(discriminate))|exact (exit_good rs None ltac:(discriminate))].
    cbn [plain] in P. apply (exit_good rs (Some (Some (text x, x)))). intros p E. injection E as <-. apply fine_0, IH; [now left|exact P].
  - cbn [plain] in P. apply andb_true_iff in P as [P F]. apply fine_atom; try reflexivity; [|discriminate]. cbn [text]. apply (clone_good rs).
    apply fine_wrap; [apply IH; [now left|exact P]|lia|exact F].
  - cbn [plain] in P. apply andb_true_iff in P as [PP P]. pose proof (IH v (or_introl eq_refl) P) as FV.
    pose proof (proj1 (proj2 (proj2 FV)) PP) as HP.
    assert (W : wrap 18 v (text v) = text v) by (apply wrap22; [lia|now apply path_level]).
    assert (G : Good 20 (text v) v false) by (apply (up_le rs 20 21); [lia|lia|eapply good_weak, PathOf_good, HP]).
    pose proof (incdec_good rs pre inc _ _ G) as X. apply fine_atom; try reflexivity.
    + cbn [readLevel]. destruct pre; cbn [text]; rewrite W; exact X.
    + destruct pre; cbn [text]; rewrite W; [destruct inc; discriminate|]. rewrite hd_app by (apply fine_ne, FV). eapply path_notnew, HP.
  - cbn [plain] in P. apply andb_true_iff in P as [P F]. apply andb_true_iff in P as [P PA]. apply andb_true_iff in P as [NE P].
    apply fine_atom; try reflexivity; [|discriminate]. cbn [text]. apply (list_good rs l); [destruct l; [discriminate NE|discriminate]| |].
    + intros v Hv. rewrite forallb_forall in P. pose proof (P _ Hv) as Q. cbv beta in Q. apply andb_true_iff in Q as [Q1 Q2]. apply fine_var; [|exact Q1].
      apply IH; [|exact Q2]. right. apply in_flat_map. exists (Some v). split; [exact Hv|now left].
    + apply fine_wrap; [apply IH; [now left|exact PA]|lia|exact F].
  - assert (W5 : forall x, Fine x -> Good 5 (wrap 5 x (text x)) x false) by (intros x Fx; apply fine_wrap; [exact Fx|lia|apply fits_low; lia]).
    assert (W4 : forall x, Fine x -> Good 4 (wrap 5 x (text x)) x false) by (intros x Fx; apply (up_le rs 4 5); [lia|lia|now apply W5]).
    apply fine_atom; try reflexivity; [|destruct o as [[[k|] x]|]; discriminate]. destruct o as [[[k|] x]|]; cbn [plain] in P.
    + apply andb_true_iff in P as [PK PX].
      apply (yield_good rs (Some (Some (wrap 5 k (text k), k), (wrap 5 x (text x), x)))).
      * intros k0 p0 E. injection E as <- <-. apply W5, IH; [now left|exact PK].
      * intros k0 p0 E. injection E as <- <-. apply W4, IH; [right; now left|exact PX].
    + apply (yield_good rs (Some (None, (wrap 5 x (text x), x)))); [discriminate|]. intros k0 p0 E. injection E as <- <-. apply W4, IH; [now left|exact P].
    + apply (yield_good rs None); discriminate.
  - cbn [plain] in P. apply fine_atom; try reflexivity; [|discriminate]. cbn [text]. apply (yieldfrom_good rs). apply (up_le rs 4 5); [lia|lia|].
    apply fine_wrap; [apply IH; [now left|exact P]|lia|apply fits_low; lia].
  - cbn [plain] in P. destruct (fun_hd rs f P) as (k & w & E). apply fine_plain; try reflexivity; [exact (fun_good rs f P)|]. cbn [text]. split.
    + intros N. rewrite E in N. discriminate N.
    + intros _. exists f, []. split; [exact P|]. split; [now rewrite app_nil_r|now left].
Qed.
End Every.
