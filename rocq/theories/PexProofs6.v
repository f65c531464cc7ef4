(** A file of expression statements. *)
From Coq Require Import List Bool NArith ZArith Lia Arith.
From Verif Require Import Chars LexModel ParseModel ParseSpec ParseProofs PexSpec PexProofs PexProofs2 PexProofs3 PexProofs4 PexPath PexPath2
  PexAtoms PexAtoms2 PexAtoms3 PexAtoms4 PexProofs5 PexEvery.
Import ListNotations.
Open Scope nat_scope.

Section File.
Variable rs : Gen.
Context {Fs : Functions} {FsR : FunctionsRead rs}.

Lemma hd_nth : forall (w : list Tok), nth 0 w T_EOF = hd T_EOF w.
Proof. now intros [|x w]. Qed.

Definition isTag (t : tree) : Prop := exists a b c d e x y, t =
  Node n_outerTopStatement a [Node n_topStatement b [Node n_statement c [Leaf T_OPEN_TAG d] e] x] y.
Lemma tag_shape : forall s r, rest s = T_OPEN_TAG :: r ->
  exists t, Runs rs (IN n_outerTopStatement) s (Ok [t] (yylex s)) /\ isTag t.
Proof.
  intros s r R. assert (Y : yytoken s = T_OPEN_TAG) by exact (yytoken_cons _ _ _ R).
  assert (EN : forall i, enters i s = nullable i || mem T_OPEN_TAG (first i)) by (intros i; unfold enters; now rewrite Y).
  assert (LA : la 1 s = T_OPEN_TAG) by exact Y.
  assert (ST : Runs rs (IN n_statement) s (Ok [Node n_statement (pos s) [Leaf T_OPEN_TAG (pos s)] (pos (yylex s))] (yylex s))).
  { apply Runs_N_ok; [rewrite EN; reflexivity|]. cbn [rule alts seqs].
    repeat first [ apply Runs_alt_r; [cbn [test holds]; rewrite ?EN, ?LA; vm_compute; reflexivity|]
                 | apply Runs_alt_l; [cbn [test holds]; rewrite ?EN, ?LA; vm_compute; reflexivity|] ].
    apply Runs_tok, Y. }
  eexists. split.
  - apply Runs_N_ok; [rewrite EN; reflexivity|]. cbn [rule alts].
    apply Runs_alt_r; [cbn [test]; rewrite EN; vm_compute; reflexivity|].
    apply Runs_alt_l; [cbn [test]; rewrite EN; vm_compute; reflexivity|].
    apply Runs_N_ok; [rewrite EN; reflexivity|]. cbn [rule alts].
    apply Runs_alt_l; [cbn [test holds]; rewrite EN, LA; vm_compute; reflexivity|]. apply Runs_cond. exact ST.
  - unfold isTag. repeat eexists.
Qed.

(** The second token is no colon, so that the statement is not taken for a label. *)
Definition second (w : list Tok) : Prop := forall r, hd T_EOF r <> T_COLON -> nth 1 (w ++ r) T_EOF <> T_COLON.
Lemma second_app : forall w k r, second w -> k <> T_COLON -> second (w ++ k :: r).
Proof. intros w k r H K r0 _. rewrite <- app_assoc. cbn [app]. now apply H. Qed.
Lemma second_cons : forall k w r, w <> [] -> hd T_EOF w <> T_COLON -> second (k :: w ++ r).
Proof. intros k [|x w] r N H r0 _; [congruence|exact H]. Qed.
Lemma head_ok : forall l w, starts l w -> w <> [] /\ hd T_EOF w <> T_COLON.
Proof.
  intros l w [N I0]. split; [exact N|]. intros E. rewrite E in I0. assert (H : In T_COLON (heads 0)) by (eapply heads_le; [|exact I0]; lia).
  vm_compute in H. intuition discriminate.
Qed.
Lemma text_head : forall e, plain e = true -> text e <> [] /\ hd T_EOF (text e) <> T_COLON.
Proof. intros e P. eapply head_ok, (proj1 (proj1 (every rs e P))). Qed.
Lemma wrap_head : forall l e, plain e = true -> wrap l e (text e) <> [] /\ hd T_EOF (wrap l e (text e)) <> T_COLON.
Proof. intros l e P. unfold wrap. destruct (level e <? l); [split; discriminate|now apply text_head]. Qed.
Lemma second_to : forall k w, w <> [] /\ hd T_EOF w <> T_COLON -> second (k :: w).
Proof. intros k w [N H]. rewrite <- (app_nil_r w). now apply second_cons. Qed.
Lemma second_one : forall k, second [k].
Proof. intros k r H. destruct r; [discriminate|exact H]. Qed.
Lemma head_app : forall w r, w <> [] /\ hd T_EOF w <> T_COLON -> w ++ r <> [] /\ hd T_EOF (w ++ r) <> T_COLON.
Proof. intros [|x w] r [N H]; [congruence|]. split; [discriminate|exact H]. Qed.
Lemma second_of : forall k1 k2 w, k2 <> T_COLON -> second (k1 :: k2 :: w).
Proof. intros k1 k2 w H r _. exact H. Qed.
Lemma second_wrap : forall l e, plain e = true -> second (text e) -> second (wrap l e (text e)).
Proof.
  intros l e P H. unfold wrap. destruct (level e <? l); [|exact H]. destruct (text_head e P). now apply second_cons.
Qed.
Lemma second_path : forall e w, PathOf rs e w -> second w.
Proof.
  intros e w (b & g & gs & _ & OK & _ & -> & _) r H. unfold pathText. destruct b; cbn [baseText app nth]; try discriminate.
  - destruct g as [[|p ds] [[a d]|]]; cbn; try discriminate. destruct gs as [|g gs]; cbn; [|discriminate]. destruct r; [discriminate|exact H].
  - destruct OK as [E N]. unfold segText. rewrite E. destruct (sCall g) as [[a d]|]; [discriminate|congruence].
Qed.
Lemma second_entries : forall short comma l, forallb (plainEntry plain (fun v => path v && plain v)) l = true ->
  second (arrayText short comma (map (entryText text (fun k => wrap 5 k (text k))) l)).
Proof.
  intros short comma l P. unfold arrayText. destruct short; [|now apply second_of]. apply second_to.
  destruct l as [|n l].
  - destruct comma; split; discriminate.
  - cbn [forallb] in P. apply andb_true_iff in P as [P _].
    assert (H : entryText text (fun k => wrap 5 k (text k)) n <> [] /\ hd T_EOF (entryText text (fun k => wrap 5 k (text k)) n) <> T_COLON).
    { destruct n as [a|k a|v|k v]; cbn [entryText]; cbn [plainEntry] in P.
      - now apply text_head.
      - apply head_app, wrap_head. now apply andb_true_iff in P.
      - split; discriminate.
      - apply head_app, wrap_head. now apply andb_true_iff in P. }
    apply head_app, head_app. destruct l as [|n' l]; [exact H|]. exact (head_app _ _ H).
Qed.
Lemma text_second : forall e, plain e = true -> second (text e).
Proof.
  induction e using ex_induction. intros P. pose proof (every rs e P) as (_ & _ & HP & HN & HE & _).
  destruct (path e) eqn:PE; [exact (second_path _ _ (HP eq_refl))|].
  destruct (ofNew e) eqn:NE.
  { destruct (HN eq_refl) as (c & args & gs & g & _ & _ & _ & -> & _). now apply second_of. }
  clear HP HN. revert PE NE HE.
  destruct e as [| |o a b|o a|o v a|a b c|a c|a|a|k a| | |l| |l|a i|a|a l|k|q l|s c l|c args|l|a|a|o|a|pre inc v|l a|o|a|f]; intros PE NE HE; try discriminate PE; cbn [plain] in P; cbn [text subs] in *.
  - apply second_one.
  - assert (PAB : plain a = true /\ plain b = true) by (destruct o; apply andb_true_iff in P as [P _]; apply andb_true_iff in P as [P _]; now apply andb_true_iff in P).
    apply second_app; [apply second_wrap; [apply PAB|apply H; [now left|apply PAB]]|destruct o; discriminate].
  - apply andb_true_iff in P as [P _]. now apply second_to, wrap_head.
  - apply andb_true_iff in P as [P _]. apply andb_true_iff in P as [P _]. apply andb_true_iff in P as [_ P].
    apply second_app; [apply second_wrap; [exact P|apply H; [now left|exact P]]|destruct o; discriminate].
  - apply andb_true_iff in P as [P _]. apply andb_true_iff in P as [P _]. apply andb_true_iff in P as [P _]. apply andb_true_iff in P as [P _].
    apply second_app; [apply second_wrap; [exact P|apply H; [now left|exact P]]|discriminate].
  - apply andb_true_iff in P as [P _]. apply andb_true_iff in P as [P _]. apply andb_true_iff in P as [P _].
    apply second_app; [apply second_wrap; [exact P|apply H; [now left|exact P]]|discriminate].
  - apply andb_true_iff in P as [P _]. now apply second_to, wrap_head.
  - apply andb_true_iff in P as [P _]. apply second_app; [apply second_wrap; [exact P|apply H; [now left|exact P]]|discriminate].
  - apply andb_true_iff in P as [P _]. now apply second_to, wrap_head.
  - apply second_one.
  - now apply second_of.
  - apply andb_true_iff in P as [P _]. apply andb_true_iff in P as [_ P].
    apply second_app; [apply second_wrap; [exact P|apply H; [now left|exact P]]|discriminate].
  - apply andb_true_iff in P as [_ P]. apply second_app; [apply second_wrap; [exact P|apply H; [now left|exact P]]|discriminate].
  - cbn [path ofNew] in PE, NE. rewrite PE, NE in P. cbn [orb andb] in P. destruct a; try discriminate P.
    apply andb_true_iff in P as [P _]. apply andb_true_iff in P as [_ P]. cbn [text]. destruct (fun_hd rs f P) as (k & w & E). unfold wrap. cbn [level]. rewrite E. now apply second_of.
  - destruct k; try apply second_one. now apply second_of.
  - destruct l as [|b l]; [destruct q; now apply second_of|]. destruct b; now apply second_of.
  - apply andb_true_iff in P as [P _]. now apply second_entries.
  - destruct c, args; now apply second_of.
  - now apply second_of.
  - now apply second_of.
  - now apply second_of.
  - destruct o as [[a|]|]; [now apply second_of..|apply second_one].
  - apply andb_true_iff in P as [P _]. now apply second_to, wrap_head.
  - apply andb_true_iff in P as [_ P]. destruct pre; [now apply second_to, wrap_head|].
    apply second_app; [apply second_wrap; [exact P|apply H; [now left|exact P]]|destruct inc; discriminate].
  - now apply second_of.
  - destruct o as [[[k|] a]|]; [|now apply second_to, wrap_head|apply second_one].
    apply andb_true_iff in P as [P _]. apply second_to, head_app. now apply wrap_head.
  - now apply second_to, wrap_head.
  - destruct (functions_read rs f P) as [[(w & E)|(w & E)] _]; rewrite E; now apply second_of.
Qed.
(** What begins with function is a function without a name. *)
Definition anon (w : list Tok) : Prop := hd T_EOF w = T_FUNCTION -> funBegins w.
Lemma text_anon : forall e, plain e = true -> anon (text e).
Proof.
  intros e P N. destruct (every rs e P) as (_ & _ & _ & _ & _ & _ & H). destruct (H N) as (f & w2 & OK & E & _).
  destruct (functions_read rs f OK) as [[(w & B)|(w & B)] _]; rewrite B in E; [left|right]; eexists; exact E.
Qed.
Lemma anon_holds : forall s w r, rest s = w ++ r -> w <> [] -> anon w -> holds CNotFunctionDeclaration s = true.
Proof.
  intros s w r R N A. cbn [holds]. destruct (teq (la 1 s) T_FUNCTION) eqn:E; [|now rewrite andb_false_l].
  apply teq_eq in E. unfold la in *. rewrite R in *. destruct w as [|k w]; [congruence|]. cbn in E. subst k.
  destruct (A eq_refl) as [(r0 & X)|(r0 & X)]; rewrite X; reflexivity.
Qed.

Lemma statement_reads : forall w e r s, Good rs 0 w e false -> second w -> anon w -> rest s = w ++ T_SEMICOLON :: r -> vst s = Normal ->
  exists t s', Runs rs (IN n_outerTopStatement) s (Ok [t] s') /\ statementOf t = Some e /\ post s r false s'.
Proof.
  intros w e r s [S0 G] SEC AN R V. pose proof (starts_tok _ _ _ _ S0 R) as HI.
  destruct (G (T_SEMICOLON :: r) ltac:(vm_compute; reflexivity) s R V) as (x & s1 & RU & RD & A1 & A2 & A3 & A4 & _).
  destruct (yylex_rest _ _ _ A1) as (Y1 & Y2 & Y3 & Y4 & _).
  assert (SM : exists b, Runs rs (IN n_semicolonOrCloseTag) s1 (Ok [Node n_semicolonOrCloseTag (pos s1) [Leaf T_SEMICOLON (pos s1)] b] (yylex s1))).
  { assert (Y : yytoken s1 = T_SEMICOLON) by exact (yytoken_cons _ _ _ A1). eexists.
    apply Runs_N_ok; [unfold enters; rewrite Y; reflexivity|]. cbn [rule alts].
    apply Runs_alt_l; [cbn [test]; unfold enters; rewrite Y; reflexivity|]. apply Runs_tok, Y. }
  destruct SM as [b SM].
  assert (RS : Runs rs (rule n_statement) s (Ok ([x] ++ [Node n_semicolonOrCloseTag (pos s1) [Leaf T_SEMICOLON (pos s1)] b]) (yylex s1))
               /\ enters (rule n_statement) s = true /\ enters (rule n_outerTopStatement) s = true /\ enters (rule n_topStatement) s = true
               /\ test (IN n_namespaceDeclarationStatement) s = false /\ test (IN n_topStatement) s = true
               /\ enters (IN n_statement) s = true).
  { assert (LA : la 1 s = yytoken s) by reflexivity.
    assert (L2 : teq (la 2 s) T_COLON = false).
    { apply teq_neq. unfold la. rewrite R. exact (SEC (T_SEMICOLON :: r) ltac:(discriminate)). }
    cbn in HI. repeat (destruct HI as [HI|HI]; [|]); try contradiction;
      (assert (EN : forall i, enters i s = nullable i || mem (yytoken s) (first i)) by reflexivity; rewrite <- HI in EN, LA;
       split; [|repeat split; cbn [test holds]; rewrite ?EN, ?LA; vm_compute; reflexivity];
       cbn [rule alts];
       repeat (apply Runs_alt_r; [cbn [test seqs]; rewrite EN; vm_compute; reflexivity|]);
       apply Runs_alt_l; [cbn [test seqs holds]; rewrite EN, LA, L2; vm_compute; reflexivity|];
       apply Runs_cond; cbn [seqs]; eapply Runs_seq_ok; [exact RU|exact SM]). }
  destruct RS as (RS & E1 & E2 & E3 & E4 & E5 & E6').
  assert (E6 : test (ICond CNotFunctionDeclaration (IN n_statement)) s = true) by (cbn [test]; rewrite (anon_holds _ _ _ R (proj1 S0) AN), E6'; reflexivity).
  eexists _, (yylex s1). split; [|split].
  - apply Runs_N_ok; [exact E2|]. cbn [rule alts]. apply Runs_alt_r; [exact E4|]. apply Runs_alt_l; [exact E5|].
    apply Runs_N_ok; [exact E3|]. cbn [rule alts]. apply Runs_alt_l; [exact E6|]. apply Runs_cond.
    apply Runs_N_ok; [exact E1|]. exact RS.
  - cbn [statementOf app]. rewrite RD. reflexivity.
  - repeat split; try congruence; discriminate.
Qed.

Lemma statements_read : forall es s, (forall e, In e es -> plain e = true) ->
  rest s = flat_map (fun e => text e ++ [T_SEMICOLON]) es -> vst s = Normal ->
  exists ts s', Runs rs (IStar (IN n_outerTopStatement)) s (Ok ts s') /\ map statementOf ts = map Some es
    /\ rest s' = [] /\ problems s' = problems s.
Proof.
  induction es as [|e es IH]; intros s P R V.
  - exists [], s. split; [|repeat split; exact R]. apply Runs_star_stop. cbn in R. rewrite (yytoken_nil _ R). vm_compute. reflexivity.
  - cbn [flat_map] in R. rewrite <- app_assoc in R. cbn [app] in R.
    assert (G : Good rs 0 (text e) e false).
    { apply (fine_0 rs), (every rs), P. now left. }
    destruct (statement_reads _ _ _ s G (text_second e (P e (or_introl eq_refl))) (text_anon e (P e (or_introl eq_refl))) R V) as (t & s1 & RU & ST & A1 & A2 & A3 & A4 & _).
    destruct (IH s1 (fun e H => P e (or_intror H)) A1 A3) as (ts & s' & RU2 & ST2 & B1 & B2).
    exists ([t] ++ ts), s'. split; [|cbn [map app]; rewrite ST, ST2; repeat split; congruence].
    eapply Runs_star_ok; [|exact RU|exact RU2].
    pose proof (starts_tok _ _ _ _ (proj1 G) R) as HI. cbn in HI.
    repeat (destruct HI as [HI|HI]; [rewrite <- HI; vm_compute; reflexivity|]). contradiction.
Qed.

Theorem file_read : forall es, (forall e, In e es -> plain e = true) ->
  exists t, expressionsOf t = Some (map Some es) /\ exists f0, forall f, f0 <= f -> parseFile rs f (fileOf es) = Some (Accepted t []).
Proof.
  intros es P. set (s := initial (fileOf es)).
  destruct (tag_shape s (flat_map (fun e => text e ++ [T_SEMICOLON]) es) eq_refl) as (t & RU & TS).
  destruct (statements_read es (yylex s) P eq_refl eq_refl) as (ts & s' & RU2 & ST2 & B1 & B2).
  assert (RR : Runs rs (rule n_start) s (Ok ([t] ++ ts) s')).
  { cbn [rule]. eapply Runs_star_ok; [vm_compute; reflexivity|exact RU|exact RU2]. }
  exists (Node n_start 0 ([t] ++ ts) (pos s')). split.
  - destruct TS as (a & b & c & d & e & x & y & ->). cbn [app expressionsOf]. now rewrite ST2.
  - destruct RR as [f0 RR]. exists f0. intros f F. unfold parseFile. fold s. rewrite (run_mono _ _ _ _ _ _ F RR), B1, B2. reflexivity.
Qed.
End File.
