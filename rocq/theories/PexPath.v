(** Variables with indices, properties and calls. *)
From Coq Require Import List Bool NArith ZArith Lia Arith.
From Verif Require Import Chars LexModel ParseModel ParseSpec ParseProofs PexSpec PexProofs PexProofs2 PexProofs4.
Import ListNotations.
Open Scope nat_scope.

Section Path.
Variable rs : Gen.
Context {Fs : Functions} {FsR : FunctionsRead rs}.
Notation Good := (Good rs).

Definition calm (s : PS) (r : list Tok) (s' : PS) : Prop :=
  rest s' = r /\ problems s' = problems s /\ vst s' = Normal /\ blocked s' = blocked s.
(** [i] reads [w] in front of [r] and leaves parts with values [vs]. *)
Definition Takes (i : item) (w r : list Tok) (vs : list val) : Prop :=
  forall s, rest s = w ++ r -> vst s = Normal -> exists ts s', Runs rs i s (Ok ts s') /\ map read ts = vs /\ calm s r s'.

Lemma takes_seq : forall a b w1 w2 r v1 v2, Takes a w1 (w2 ++ r) v1 -> Takes b w2 r v2 ->
  Takes (ISeq a b) (w1 ++ w2) r (v1 ++ v2).
Proof.
  intros a b w1 w2 r v1 v2 A B s R V. rewrite <- app_assoc in R.
  destruct (A s R V) as (t1 & s1 & RU1 & RD1 & A1 & A2 & A3 & A4).
  destruct (B s1 A1 A3) as (t2 & s2 & RU2 & RD2 & B1 & B2 & B3 & B4).
  exists (t1 ++ t2), s2. split; [eapply Runs_seq_ok; eassumption|]. split; [rewrite map_app; congruence|]. repeat split; congruence.
Qed.
Lemma takes_tok : forall k r, Takes (IT k) [k] r [VTok k].
Proof.
  intros k r s R V. cbn [app] in R. destruct (yylex_rest _ _ _ R) as (Y1 & Y2 & Y3 & Y4 & _).
  exists [Leaf k (pos s)], (yylex s). split; [apply Runs_tok; exact (yytoken_cons _ _ _ R)|]. split; [reflexivity|]. repeat split; congruence.
Qed.
Lemma takes_eps : forall r, Takes IEps [] r [].
Proof. intros r s R V. exists [], s. split; [apply Runs_eps|]. split; [reflexivity|]. repeat split; assumption. Qed.
Lemma takes_N : forall n w r vs v, negb (isClosure n) && enters (rule n) {| rest := w ++ r; pos := 0; size := 0; vst := Normal; isVar := false; imp := NamespaceOrClassImport; cimp := NamespaceOrClassImport; blocked := false; problems := []; reads := 0 |} = true ->
  Takes (rule n) w r vs -> readNode n vs = v -> Takes (IN n) w r [v].
Proof.
  intros n w r vs v E T RN s R V. apply andb_true_iff in E as [NC E]. apply negb_true_iff, isClosure_no in NC. destruct (T s R V) as (ts & s' & RU & RD & C).
  eexists _, s'. split; [apply Runs_N_ok; [|exact RU]|split; [|exact C]].
  - unfold enters, yytoken, la in *. rewrite R. exact E.
  - cbn [map]. rewrite (read_node _ _ _ _ NC), RD, RN. reflexivity.
Qed.
(** The state a test looks at. *)
Definition at_ (w : list Tok) : PS :=
  {| rest := w; pos := 0; size := 0; vst := Normal; isVar := false; imp := NamespaceOrClassImport; cimp := NamespaceOrClassImport; blocked := false; problems := []; reads := 0 |}.
Lemma test_at : forall i s, vst s = Normal -> test i s = test i (at_ (rest s)).
Proof. intros i s V. destruct i; try reflexivity. cbn [test]. f_equal. destruct c; cbn [holds]; rewrite ?V; reflexivity. Qed.
Lemma takes_alt_l : forall a b w r vs, test a (at_ (w ++ r)) = true -> Takes a w r vs -> Takes (IAlt a b) w r vs.
Proof.
  intros a b w r vs E T s R V. destruct (T s R V) as (ts & s' & RU & C). exists ts, s'. split; [|exact C].
  apply Runs_alt_l; [rewrite test_at, R by exact V; exact E|exact RU].
Qed.
Lemma takes_alt_r : forall a b w r vs, test a (at_ (w ++ r)) = false -> Takes b w r vs -> Takes (IAlt a b) w r vs.
Proof.
  intros a b w r vs E T s R V. destruct (T s R V) as (ts & s' & RU & C). exists ts, s'. split; [|exact C].
  apply Runs_alt_r; [rewrite test_at, R by exact V; exact E|exact RU].
Qed.
Lemma takes_star_stop : forall a r, mem (hd T_EOF r) (first a) = false -> Takes (IStar a) [] r [].
Proof.
  intros a r E s R V. exists [], s. split; [|split; [reflexivity|repeat split; assumption]].
  apply Runs_star_stop. rewrite (yytoken_hd _ _ R). exact E.
Qed.
Lemma takes_star_go : forall a w1 w2 r v1 v2, mem (hd T_EOF (w1 ++ w2 ++ r)) (first a) = true ->
  Takes a w1 (w2 ++ r) v1 -> Takes (IStar a) w2 r v2 -> Takes (IStar a) (w1 ++ w2) r (v1 ++ v2).
Proof.
  intros a w1 w2 r v1 v2 E A B s R V. rewrite <- app_assoc in R.
  destruct (A s R V) as (t1 & s1 & RU1 & RD1 & A1 & A2 & A3 & A4).
  destruct (B s1 A1 A3) as (t2 & s2 & RU2 & RD2 & B1 & B2 & B3 & B4).
  exists (t1 ++ t2), s2. split; [eapply Runs_star_ok; [rewrite (yytoken_hd _ _ R); exact E|exact RU1|exact RU2]|].
  split; [rewrite map_app; congruence|]. repeat split; congruence.
Qed.
Lemma takes_expr : forall w e r, Good 0 w e false -> stops 0 r -> Takes (IN n_expr) w r [VEx e].
Proof.
  intros w e r [_ G] ST s R V. destruct (G r ST s R V) as (t & s' & RU & RD & P1 & P2 & P3 & P4 & _).
  exists [t], s'. split; [exact RU|]. split; [cbn [map]; now rewrite RD|]. repeat split; assumption.
Qed.

(** Failing without a word, as it happens inside try. *)
Definition Refuses (i : item) (w : list Tok) : Prop :=
  forall s, rest s = w -> vst s = Normal -> blocked s = true -> exists s', Runs rs i s (Fail s') /\ problems s' = problems s /\ blocked s' = true.
Lemma expected_blocked : forall s, blocked s = true -> expected s = s.
Proof. intros s B. unfold expected. now rewrite B. Qed.
Lemma refuses_seq_l : forall a b w, Refuses a w -> Refuses (ISeq a b) w.
Proof. intros a b w H s R V B. destruct (H s R V B) as (s' & RU & C). exists s'. split; [now apply Runs_seq_fail|exact C]. Qed.
Lemma refuses_seq_r : forall a b w1 w2 vs, Takes a w1 w2 vs -> Refuses b w2 -> Refuses (ISeq a b) (w1 ++ w2).
Proof.
  intros a b w1 w2 vs T H s R V B. destruct (T s R V) as (ts & s1 & RU & _ & A1 & A2 & A3 & A4).
  destruct (H s1 A1 A3 ltac:(congruence)) as (s' & RU2 & P & B2). exists s'. split; [|split; congruence].
  pose proof (Runs_seq rs a b s ts s1 _ RU RU2) as X. exact X.
Qed.
Lemma refuses_tok : forall k w, hd T_EOF w <> k -> Refuses (IT k) w.
Proof.
  intros k w N s R V B. exists s. pose proof (Runs_T rs k s) as X. rewrite (yytoken_hd _ _ R) in X.
  rewrite (proj2 (teq_neq _ _) N), (expected_blocked _ B) in X. auto.
Qed.
Lemma refuses_N_no : forall n w, enters (rule n) (at_ w) = false -> Refuses (IN n) w.
Proof.
  intros n w E s R V B. exists s. split; [|auto]. pose proof (Runs_N_no rs n s) as X. rewrite (expected_blocked _ B) in X. apply X.
  unfold enters, yytoken, la in *. rewrite R. exact E.
Qed.
Lemma refuses_N : forall n w, enters (rule n) (at_ w) = true -> Refuses (rule n) w -> Refuses (IN n) w.
Proof.
  intros n w E H s R V B. destruct (H s R V B) as (s' & RU & P & B2). exists s'. split; [|auto].
  pose proof (Runs_N_fail rs n s s') as X. rewrite (expected_blocked _ B2) in X. apply X; [|exact RU].
  unfold enters, yytoken, la in *. rewrite R. exact E.
Qed.
Lemma refuses_alt_l : forall a b w, test a (at_ w) = true -> Refuses a w -> Refuses (IAlt a b) w.
Proof.
  intros a b w E H s R V B. destruct (H s R V B) as (s' & RU & C). exists s'. split; [|exact C].
  apply Runs_alt_l; [rewrite test_at, R by exact V; exact E|exact RU].
Qed.
Lemma refuses_alt_r : forall a b w, test a (at_ w) = false -> Refuses b w -> Refuses (IAlt a b) w.
Proof.
  intros a b w E H s R V B. destruct (H s R V B) as (s' & RU & C). exists s'. split; [|exact C].
  apply Runs_alt_r; [rewrite test_at, R by exact V; exact E|exact RU].
Qed.
Lemma refuses_fail : forall w, Refuses IFail w.
Proof. intros w s R V B. exists s. split; [apply Runs_fail|auto]. Qed.
Lemma refuses_rollback : forall a b w, Refuses a w -> Refuses b w -> Refuses (IRollback a b) w.
Proof.
  intros a b w HA HB s R V B. destruct (HA (setBlocked s true) R V eq_refl) as (s1 & RU & P & B1).
  destruct (HB (rewind s (restoreState s (setBlocked s1 (blocked s)))) R V B) as (s2 & RU2 & P2 & B2).
  exists s2. split; [eapply Runs_rollback_catch; eassumption|]. cbn in *. split; congruence.
Qed.
Lemma takes_rollback : forall a b w r vs, Takes a w r vs -> Takes (IRollback a b) w r vs.
Proof.
  intros a b w r vs T s R V. destruct (T (setBlocked s true) R V) as (ts & s' & RU & RD & A1 & A2 & A3 & A4).
  exists ts, (setBlocked s' (blocked s)). split; [now apply Runs_rollback_ok|]. split; [exact RD|]. cbn in *. repeat split; assumption.
Qed.
Lemma takes_catch : forall a b w r vs, Refuses a (w ++ r) -> Takes b w r vs -> Takes (IRollback a b) w r vs.
Proof.
  intros a b w r vs F T s R V. destruct (F (setBlocked s true) R V eq_refl) as (s1 & RU & P & B1).
  destruct (T (rewind s (restoreState s (setBlocked s1 (blocked s)))) R V) as (ts & s' & RU2 & RD & A1 & A2 & A3 & A4).
  exists ts, s'. split; [eapply Runs_rollback_catch; eassumption|]. split; [exact RD|]. cbn in *. repeat split; congruence.
Qed.

(** ** Parts of a path *)
Definition part := (list Tok * ex)%type.
Definition goodPart (p : part) : Prop := Good 0 (fst p) (snd p) false.
Definition dimText (p : part) : list Tok := T_LBRACKET :: fst p ++ [T_RBRACKET].
Definition dimsText (ds : list part) : list Tok := flat_map dimText ds.
Definition dimSteps (ds : list part) : list step := map (fun p => MIndex (snd p)) ds.
Record seg := { sDims : list part; sCall : option (list part * list part) }.
Definition callText (c : option (list part * list part)) : list Tok :=
  match c with None => [] | Some (a, d) => (T_LPAREN :: commas (map fst a) ++ [T_RPAREN]) ++ dimsText d end.
Definition segText (g : seg) : list Tok := dimsText (sDims g) ++ callText (sCall g).
Definition segSteps (g : seg) : list step :=
  dimSteps (sDims g) ++ match sCall g with None => [] | Some (a, d) => MInvoke (map snd a) :: dimSteps d end.
Definition goodSeg (g : seg) : Prop :=
  Forall goodPart (sDims g) /\ match sCall g with None => True | Some (a, d) => Forall goodPart a /\ Forall goodPart d end.

Ltac ent := cbn [test seqs plus]; vm_compute; reflexivity.

Lemma head0 : forall w e b, Good 0 w e b -> In (hd T_EOF w) (heads 0) /\ w <> [].
Proof. intros w e b [[N I0] _]. auto. Qed.
Lemma test_head : forall i w e r, Good 0 w e false -> (forall c a, i <> ICond c a) ->
  forallb (fun k => nullable i || mem k (first i)) (heads 0) = true -> test i (at_ (w ++ r)) = true.
Proof.
  intros i w e r G NC F. destruct (head0 _ _ _ G) as [I0 N]. pose proof (forallb_In _ _ _ _ F I0) as H. cbv beta in H.
  replace (test i (at_ (w ++ r))) with (enters i (at_ (w ++ r))) by (destruct i; try reflexivity; exfalso; eapply NC; reflexivity).
  unfold enters. rewrite (yytoken_hd (at_ (w ++ r)) (w ++ r) eq_refl), hd_app by exact N. exact H.
Qed.
Lemma test_no_head : forall i w e r, Good 0 w e false -> (forall c a, i <> ICond c a) ->
  forallb (fun k => negb (nullable i || mem k (first i))) (heads 0) = true -> test i (at_ (w ++ r)) = false.
Proof.
  intros i w e r G NC F. destruct (head0 _ _ _ G) as [I0 N]. pose proof (forallb_In _ _ _ _ F I0) as H. cbv beta in H. apply negb_true_iff in H.
  replace (test i (at_ (w ++ r))) with (enters i (at_ (w ++ r))) by (destruct i; try reflexivity; exfalso; eapply NC; reflexivity).
  unfold enters. rewrite (yytoken_hd (at_ (w ++ r)) (w ++ r) eq_refl), hd_app by exact N. exact H.
Qed.

Lemma takes_index : forall p r, goodPart p -> Takes (IN n_arrayIndexSpecifier) (dimText p) r [VMods [MIndex (snd p)]].
Proof.
  intros [w e] r G. unfold goodPart in G. cbn [fst snd] in *. eapply takes_N; [vm_compute; reflexivity| |].
  - cbn [rule seqs]. unfold dimText. cbn [fst]. change (T_LBRACKET :: w ++ [T_RBRACKET]) with ([T_LBRACKET] ++ (w ++ [T_RBRACKET])).
    eapply takes_seq; [apply takes_tok|]. eapply takes_seq; [|apply takes_tok].
    cbn [alts]. apply takes_alt_l; [|apply takes_expr; [exact G|vm_compute; reflexivity]].
    eapply test_head; [exact G|discriminate|vm_compute; reflexivity].
  - reflexivity.
Qed.
Lemma takes_dim : forall p r, goodPart p -> Takes (IN n_dimListItem) (dimText p) r [VMods [MIndex (snd p)]].
Proof.
  intros p r G. eapply takes_N; [vm_compute; reflexivity| |].
  - cbn [rule alts]. apply takes_alt_l; [vm_compute; reflexivity|]. apply takes_index, G.
  - reflexivity.
Qed.
Definition dimVals (ds : list part) : list val := map (fun p => VMods [MIndex (snd p)]) ds.
Lemma mods_dims : forall ds, mods (dimVals ds) = Some (dimSteps ds).
Proof. induction ds as [|p ds IH]; [reflexivity|]. cbn [dimVals dimSteps map mods] in *. unfold dimVals in IH. rewrite IH. reflexivity. Qed.
Lemma takes_dims : forall ds r, Forall goodPart ds -> hd T_EOF r <> T_LBRACKET -> hd T_EOF r <> T_LBRACE ->
  Takes (IStar (IN n_dimListItem)) (dimsText ds) r (dimVals ds).
Proof.
  intros ds r F N1 N2. induction F as [|p ds G F IH].
  - apply takes_star_stop.
    assert (H : forall k, mem k (first (IN n_dimListItem)) = existsb (teq k) [T_LBRACKET; T_LBRACE]).
    { intros k. rewrite <- mem_setOf. f_equal. }
    rewrite H. cbn [existsb]. rewrite (proj2 (teq_neq _ _) N1), (proj2 (teq_neq _ _) N2). reflexivity.
  - cbn [dimsText flat_map dimVals map]. eapply (takes_star_go _ _ _ _ [_]); [|apply takes_dim, G|exact IH].
    vm_compute. reflexivity.
Qed.
Lemma takes_indices : forall ds r, Forall goodPart ds -> hd T_EOF r <> T_LBRACKET ->
  Takes (IStar (IN n_arrayIndexSpecifier)) (dimsText ds) r (dimVals ds).
Proof.
  intros ds r F N1. induction F as [|p ds G F IH].
  - apply takes_star_stop.
    assert (H : forall k, mem k (first (IN n_arrayIndexSpecifier)) = existsb (teq k) [T_LBRACKET]).
    { intros k. rewrite <- mem_setOf. f_equal. }
    rewrite H. cbn [existsb]. rewrite (proj2 (teq_neq _ _) N1). reflexivity.
  - cbn [dimsText flat_map dimVals map]. eapply (takes_star_go _ _ _ _ [_]); [|apply takes_index, G|exact IH].
    vm_compute. reflexivity.
Qed.

(** ** Arguments *)
Fixpoint argVals (l : list part) : list val :=
  match l with [] => [] | [p] => [VEx (snd p)] | p :: r => VEx (snd p) :: VTok T_COMMA :: argVals r end.
Lemma argsOf_vals : forall l, argsOf (argVals l) = Some (map snd l).
Proof.
  induction l as [|p l IH]; [reflexivity|]. destruct l as [|q l]; [reflexivity|].
  change (argVals (p :: q :: l)) with (VEx (snd p) :: VTok T_COMMA :: argVals (q :: l)). cbn [argsOf map]. rewrite IH. reflexivity.
Qed.
Lemma takes_arg : forall p r, goodPart p -> stops 0 r -> Takes (IN n_functionCallParameterListElement) (fst p) r [VEx (snd p)].
Proof.
  intros p r G ST. pose proof (head0 _ _ _ G) as [HI HN]. eapply takes_N.
  - pose proof (test_head (rule n_functionCallParameterListElement) _ _ r G ltac:(discriminate) ltac:(vm_compute; reflexivity)) as X. exact X.
  - cbn [rule alts]. apply takes_alt_r; [eapply test_no_head; [exact G|discriminate|vm_compute; reflexivity]|].
    apply takes_alt_l; [eapply test_head; [exact G|discriminate|vm_compute; reflexivity]|]. cbn [seqs].
    apply (takes_seq _ _ [] (fst p) r [] [VEx (snd p)]); [|apply takes_expr; assumption].
    cbn [alts]. apply takes_alt_r; [change ([] ++ fst p ++ r) with (fst p ++ r); eapply test_no_head; [exact G|discriminate|vm_compute; reflexivity]|].
    apply takes_alt_l; [reflexivity|]. apply takes_eps.
  - reflexivity.
Qed.
Lemma takes_arglist : forall l r, l <> [] -> Forall goodPart l ->
  Takes (IList (IN n_functionCallParameterListElement) T_COMMA (Some T_RPAREN)) (commas (map fst l)) (T_RPAREN :: r) (argVals l).
Proof.
  induction l as [|p l IH]; intros r N F; [congruence|]. inversion F as [|x y G F']; subst x y. intros s R V.
  destruct l as [|q l].
  - cbn [map commas] in R. destruct (takes_arg p (T_RPAREN :: r) G ltac:(vm_compute; reflexivity) s R V) as (ts & s' & RU & RD & C).
    exists ts, s'. split; [|split; [exact RD|exact C]]. apply Runs_list_stop; [exact RU|]. rewrite (yytoken_cons _ _ _ (proj1 C)). reflexivity.
  - change (commas (map fst (p :: q :: l))) with (fst p ++ T_COMMA :: commas (map fst (q :: l))) in R.
    rewrite <- app_assoc in R. cbn [app] in R.
    destruct (takes_arg p (T_COMMA :: commas (map fst (q :: l)) ++ T_RPAREN :: r) G ltac:(vm_compute; reflexivity) s R V) as (ts & s1 & RU & RD & A1 & A2 & A3 & A4).
    destruct (yylex_rest _ _ _ A1) as (Y1 & Y2 & Y3 & Y4 & _).
    destruct (IH r ltac:(discriminate) F' (yylex s1) Y1 ltac:(congruence)) as (ts2 & s2 & RU2 & RD2 & B1 & B2 & B3 & B4).
    exists (ts ++ Leaf T_COMMA (pos s1) :: ts2), s2. split; [|split].
    + refine (Runs_list_go rs _ _ (Some T_RPAREN) _ _ _ _ RU _ _ RU2).
      * rewrite (yytoken_cons _ _ _ A1). reflexivity.
      * unfold breaks. rewrite (yytoken_hd _ _ Y1). apply teq_neq. intros E.
        inversion F' as [|x y G2 F2]; subst x y. destruct (head0 _ _ _ G2) as [HI HN].
        assert (HD : hd T_EOF (commas (map fst (q :: l)) ++ T_RPAREN :: r) = hd T_EOF (fst q)).
        { destruct l as [|q2 l]; cbn [map commas]; [now apply hd_app|]. rewrite <- app_assoc. now apply hd_app. }
        rewrite HD in E. rewrite E in HI. vm_compute in HI. intuition discriminate.
    + rewrite map_app, RD. cbn [map read]. rewrite RD2. reflexivity.
    + repeat split; congruence.
Qed.
Lemma takes_args : forall l r, Forall goodPart l ->
  Takes (IN n_functionCallParameterList) (commas (map fst l)) (T_RPAREN :: r) [VArgs (map snd l)].
Proof.
  intros l r F. apply (takes_N _ _ _ (argVals l)).
  - unfold enters. now replace (nullable (rule n_functionCallParameterList)) with true by (vm_compute; reflexivity).
  - cbn [rule alts]. destruct l as [|p l].
    + apply takes_alt_r; [reflexivity|]. apply takes_alt_l; [reflexivity|]. apply takes_eps.
    + apply takes_alt_l; [|apply takes_arglist; [discriminate|exact F]].
      inversion F as [|x y G F']; subst x y.
      assert (X : forall w, test (IList (IN n_functionCallParameterListElement) T_COMMA (Some T_RPAREN)) (at_ (fst p ++ w)) = true).
      { intros w. eapply test_head; [exact G|discriminate|vm_compute; reflexivity]. }
      destruct l as [|q l]; [apply X|]. change (commas (map fst (p :: q :: l))) with (fst p ++ T_COMMA :: commas (map fst (q :: l))).
      rewrite <- app_assoc. apply X.
  - unfold readNode. rewrite argsOf_vals. reflexivity.
Qed.
(** ( args ) *)
Lemma takes_call : forall l r, Forall goodPart l ->
  Takes (seqs [IT T_LPAREN; IN n_functionCallParameterList; IT T_RPAREN]) (T_LPAREN :: commas (map fst l) ++ [T_RPAREN]) r
        [VTok T_LPAREN; VArgs (map snd l); VTok T_RPAREN].
Proof.
  intros l r F. cbn [seqs]. change (T_LPAREN :: commas (map fst l) ++ [T_RPAREN]) with ([T_LPAREN] ++ (commas (map fst l) ++ [T_RPAREN])).
  apply (takes_seq _ _ _ _ _ [VTok T_LPAREN] [VArgs (map snd l); VTok T_RPAREN]); [apply takes_tok|].
  apply (takes_seq _ _ _ _ _ [VArgs (map snd l)] [VTok T_RPAREN]); [apply takes_args, F|apply takes_tok].
Qed.
End Path.
