(** Names, types, initial values and parameters. *)
From Coq Require Import List Bool NArith ZArith Lia Arith.
From Verif Require Import Chars LexModel ParseModel ParseSpec ParseProofs PexSpec PexProofs PexProofs2 PexProofs4 PexPath PexPath2 PexProofs5 PexEvery PexProofs6 StSpec StTakes.
Import ListNotations.
Open Scope nat_scope.

(** The next token is none of these. *)
Definition outside (L : list Tok) (r : list Tok) : Prop := inStop (hd T_EOF r) L = false.
Lemma out_neq : forall L k r, outside L r -> inStop k L = true -> hd T_EOF r <> k.
Proof. intros L k r H I0 E. unfold outside in H. congruence. Qed.
Lemma out_first : forall L a r, forallb (fun k => inStop k L || negb (mem k (first a))) allToks = true -> outside L r -> mem (hd T_EOF r) (first a) = false.
Proof.
  intros L a r F H. pose proof (forall_tok _ F (hd T_EOF r)) as X. cbv beta in X. unfold outside in H. rewrite H in X. now apply negb_true_iff in X.
Qed.
Lemma out_test : forall L i r, (forall c a, i <> ICond c a) -> forallb (fun k => inStop k L || negb (nullable i || mem k (first i))) allToks = true ->
  outside L r -> test i (at_ r) = false.
Proof.
  intros L i r NC F H. pose proof (forall_tok _ F (hd T_EOF r)) as X. cbv beta in X. unfold outside in H. rewrite H in X. apply negb_true_iff in X.
  rewrite enters_test by exact NC. unfold enters. rewrite (yytoken_hd (at_ r) r eq_refl). exact X.
Qed.
Lemma out_behind : forall L sep l r, inStop sep L = false -> outside L r -> outside L (behind_ sep l r).
Proof. intros L sep [|w l] r S0 H; [exact H|exact S0]. Qed.
Lemma out_less : forall L L' r, forallb (fun k => inStop k L) L' = true -> outside L r -> outside L' r.
Proof.
  intros L L' r F H. unfold outside in *. destruct (inStop (hd T_EOF r) L') eqn:E; [|reflexivity].
  unfold inStop in E. apply existsb_exists in E as (k & HK & EQ). apply teq_eq in EQ. pose proof (forallb_In _ _ _ _ F HK) as X. cbv beta in X. congruence.
Qed.
Lemma out_hd : forall L w r, w <> [] -> outside L w -> outside L (w ++ r).
Proof. intros L w r N H. unfold outside in *. now rewrite hd_app. Qed.
Lemma out_heads : forall L H w r, In (hd T_EOF w) H -> w <> [] -> forallb (fun k => negb (inStop k L)) H = true -> outside L (w ++ r).
Proof. intros L H w r HI N F. apply out_hd; [exact N|]. unfold outside. apply negb_true_iff. exact (forallb_In _ _ _ _ F HI). Qed.

Ltac yes := apply ts_alt_l; [vm_compute; reflexivity|].
Ltac no := apply ts_alt_r; [vm_compute; reflexivity|].
Ltac comp := vm_compute; reflexivity.

Section T.
Variable rs : Gen.
Context {Fs : Functions} {FsR : FunctionsRead rs}.
Notation TakesS := (TakesS rs).

(** ** Names *)
Definition partVals (n : nat) : list sv := inter T_BACKSLASH (map (fun _ : unit => WPart) (repeat tt (S n))).
Lemma parts_joined : forall n, parts n = joined T_BACKSLASH (map (fun _ : unit => [T_STRING]) (repeat tt (S n))).
Proof. induction n as [|n IH]; [reflexivity|]. cbn [parts]. rewrite IH. cbn [repeat map]. reflexivity. Qed.
Lemma pick_parts : forall n, pick getPart (partVals n) = Some (repeat tt (S n)).
Proof. intros n. unfold partVals. apply pick_inter. intros []. split; reflexivity. Qed.
Lemma partsOf_vals : forall n f, partsOf (partVals n) f = f n.
Proof. intros n f. unfold partsOf. rewrite pick_parts. cbn [gives repeat]. now rewrite repeat_length. Qed.
Lemma ts_ident : forall o r, TakesS o (IN n_identifier) [T_STRING] r [WPart].
Proof. intros o r. eapply ts_N; [reflexivity|comp|cbn [rule]; apply ts_tok|reflexivity]. Qed.
Lemma ts_parts : forall o n brk r, hd T_EOF r <> T_BACKSLASH -> brk <> Some T_STRING ->
  TakesS o (IList (IN n_identifier) T_BACKSLASH brk) (parts n) r (partVals n).
Proof.
  intros o n brk r N B. rewrite parts_joined. apply ts_sepBy; [discriminate| |exact N].
  intros x l1 l2 _. split; [apply ts_ident|]. destruct brk as [b|]; [|exact I]. cbn. congruence.
Qed.
Definition partValsB (n : nat) : list sv := flat_map (fun _ : unit => [WPart; WTok T_BACKSLASH]) (repeat tt (S n)).
Lemma parts_ended : forall n, parts n ++ [T_BACKSLASH] = flat_map (fun _ : unit => [T_STRING] ++ [T_BACKSLASH]) (repeat tt (S n)).
Proof. induction n as [|n IH]; [reflexivity|]. cbn [parts app]. rewrite IH. reflexivity. Qed.
Lemma ts_partsB : forall o n r, hd T_EOF r = T_LBRACE ->
  TakesS o (IList (IN n_identifier) T_BACKSLASH (Some T_LBRACE)) (parts n ++ [T_BACKSLASH]) r (partValsB n).
Proof.
  intros o n r E. rewrite parts_ended. apply (ts_ended rs o _ _ _ unit (fun _ => [T_STRING]) (fun _ => WPart)); [discriminate| |exact E].
  intros x l1 l2 _. split; [apply ts_ident|]. split; discriminate.
Qed.
Lemma partsOf_valsB : forall n f, partsOf (partValsB n) f = f n.
Proof.
  intros n f. unfold partsOf, partValsB. rewrite (pick_ended unit getPart (fun _ => WPart)) by (intros []; split; reflexivity).
  cbn [gives repeat]. now rewrite repeat_length.
Qed.
Lemma partVals_cons : forall n, exists r, partVals n = WPart :: r.
Proof. intros [|n]; eexists; reflexivity. Qed.
Lemma partValsB_cons : forall n, exists r, partValsB n = WPart :: r.
Proof. intros n; eexists; reflexivity. Qed.
Definition nameHeads : list Tok := [T_BACKSLASH; T_STRING].
Lemma parts_hd : forall n, exists w, parts n = T_STRING :: w.
Proof. intros [|n]; eexists; reflexivity. Qed.
Lemma name_heads : forall n, In (hd T_EOF (nameText n)) nameHeads /\ nameText n <> [].
Proof. intros [[|] n]; unfold nameText; cbn [absolute more app]; [split; [now left|discriminate]|]. destruct (parts_hd n) as [w ->]. split; [right; now left|discriminate]. Qed.
Lemma ts_name : forall o n r, outside [T_BACKSLASH] r -> TakesS o (IN n_namespacedIdentifier) (nameText n) r [WName n].
Proof.
  intros o n r N. assert (N' : hd T_EOF r <> T_BACKSLASH) by (eapply out_neq; [exact N|reflexivity]).
  destruct (name_heads n) as [HI HN].
  apply (ts_N rs o _ _ _ (if absolute n then WTok T_BACKSLASH :: partVals (more n) else partVals (more n))); [reflexivity|eapply enter_in; [exact HI|exact HN|comp]| |].
  - cbn [rule seqs alts]. unfold nameText. destruct n as [[|] n]; cbn [absolute more].
    + apply ts_seqv; [yes; apply ts_tok|]. apply ts_parts; [exact N'|discriminate].
    + apply ts_skip; [|apply ts_parts; [exact N'|discriminate]]. destruct (parts_hd n) as [w ->]. no. yes. apply ts_eps.
  - destruct n as [[|] n]; cbn [absolute more app nodeOf].
    + apply partsOf_vals.
    + rewrite partsOf_vals. destruct (partVals_cons n) as [x ->]. reflexivity.
Qed.
Lemma ts_names : forall o brk sep l r, l <> [] -> outside [T_BACKSLASH] r -> hd T_EOF r <> sep -> sep <> T_BACKSLASH -> brk = None ->
  TakesS o (IList (IN n_namespacedIdentifier) sep brk) (joined sep (map nameText l)) r (inter sep (map WName l)).
Proof.
  intros o brk sep l r N O E S0 ->. apply ts_sepBy; [exact N| |exact E]. intros x l1 l2 _. split; [|exact I].
  apply ts_name, out_behind; [|exact O]. cbn. rewrite (proj2 (teq_neq _ _) S0). reflexivity.
Qed.
Lemma ts_nameB : forall o n r, outside [T_BACKSLASH] r ->
  TakesS o (IN n_namespacedIdentifierBeforeGroupedNamespace) (nameText n) r [WName n].
Proof.
  intros o n r N. assert (N' : hd T_EOF r <> T_BACKSLASH) by (eapply out_neq; [exact N|reflexivity]).
  destruct (name_heads n) as [HI HN].
  apply (ts_N rs o _ _ _ (if absolute n then WTok T_BACKSLASH :: partVals (more n) else partVals (more n))); [reflexivity|eapply enter_in; [exact HI|exact HN|comp]| |].
  - cbn [rule seqs alts]. unfold nameText. destruct n as [[|] n]; cbn [absolute more].
    + apply ts_seqv; [yes; apply ts_tok|]. apply ts_parts; [exact N'|discriminate].
    + apply ts_skip; [|apply ts_parts; [exact N'|discriminate]]. destruct (parts_hd n) as [w ->]. no. yes. apply ts_eps.
  - destruct n as [[|] n]; cbn [absolute more app nodeOf].
    + apply partsOf_vals.
    + rewrite partsOf_vals. destruct (partVals_cons n) as [x ->]. reflexivity.
Qed.
Lemma ts_nameG : forall o n r,
  TakesS o (IN n_namespacedIdentifierBeforeGroupedNamespace) (nameText n ++ [T_BACKSLASH]) (T_LBRACE :: r) [WName n].
Proof.
  intros o n r. destruct (name_heads n) as [HI HN].
  apply (ts_N rs o _ _ _ (if absolute n then WTok T_BACKSLASH :: partValsB (more n) else partValsB (more n))); [reflexivity|rewrite <- app_assoc; eapply enter_in; [exact HI|exact HN|comp]| |].
  - cbn [rule seqs alts]. unfold nameText. rewrite <- app_assoc. destruct n as [[|] n]; cbn [absolute more].
    + apply ts_seqv; [yes; apply ts_tok|]. apply ts_partsB; reflexivity.
    + apply ts_skip; [|apply ts_partsB; reflexivity]. destruct (parts_hd n) as [w ->]. no. yes. apply ts_eps.
  - destruct n as [[|] n]; cbn [absolute more app nodeOf].
    + apply partsOf_valsB.
    + rewrite partsOf_valsB. destruct (partValsB_cons n) as [x ->]. reflexivity.
Qed.
Lemma ts_semiId : forall o r, TakesS o (IN n_semiReservedIdentifier) [T_STRING] r [WPart].
Proof. intros o r. eapply ts_N; [reflexivity|comp|cbn [rule alts]; yes; apply ts_ident|reflexivity]. Qed.
Lemma ts_varId : forall o r, TakesS o (IN n_variableIdentifier) [T_VARIABLE] r [WPart].
Proof. intros o r. eapply ts_N; [reflexivity|comp|cbn [rule]; apply ts_tok|reflexivity]. Qed.
Lemma ts_term : forall o q r, TakesS o (IN n_semicolonOrCloseTag) [termTok q] r [WQ q].
Proof.
  intros o q r. apply (ts_N rs o _ _ _ [WTok (termTok q)]); [reflexivity|destruct q; comp| |].
  - cbn [rule alts]. destruct q; cbn [termTok]; [yes; apply ts_tok|no; yes; apply ts_tok].
  - destruct q; reflexivity.
Qed.

(** ** Types *)
Definition hintHeads : list Tok := [T_QUESTION; T_BACKSLASH; T_STRING; T_ARRAY; T_CALLABLE; T_VOID].
Lemma hint_heads : forall h, In (hd T_EOF (hintText h)) hintHeads /\ hintText h <> [].
Proof.
  intros [[|] k]; unfold hintText; cbn [fst snd app]; [split; [now left|discriminate]|].
  destruct k as [n| | |]; try (split; [cbn; tauto|discriminate]). destruct (name_heads n) as [HI HN]. split; [|exact HN].
  cbn in HI. cbn. intuition.
Qed.
Definition kindText (k : hintKind) : list Tok :=
  match k with HName n => nameText n | HArray => [T_ARRAY] | HCallable => [T_CALLABLE] | HVoid => [T_VOID] end.
Lemma ts_generic : forall o k r, outside [T_BACKSLASH] r -> match k with HName _ | HArray => True | _ => False end ->
  TakesS o (IN n_genericTypeHint) (kindText k) r [WHint (false, k)].
Proof.
  intros o k r N K. destruct k as [n| | |]; try contradiction; cbn [kindText].
  - destruct (name_heads n) as [HI HN]. eapply ts_N; [reflexivity|eapply enter_in; [exact HI|exact HN|comp]| |].
    + cbn [rule alts]. apply ts_alt_l; [eapply test_in; [exact HI|exact HN|discriminate|comp]|]. apply ts_name, N.
    + reflexivity.
  - eapply ts_N; [reflexivity|comp|cbn [rule alts]; no; yes; apply ts_tok|reflexivity].
Qed.
Lemma kind_heads : forall k, In (hd T_EOF (kindText k)) [T_BACKSLASH; T_STRING; T_ARRAY; T_CALLABLE; T_VOID] /\ kindText k <> [].
Proof.
  intros k. destruct k as [n| | |]; try (split; [cbn; tauto|discriminate]). destruct (name_heads n) as [HI HN]. split; [|exact HN].
  cbn in HI. cbn. intuition.
Qed.
(** A hint, given what is taken behind the question mark *)
Lemma ts_question : forall o n b (q : bool) k r v, outside [T_BACKSLASH] r ->
  rule n = ISeq (IAlt (IT T_QUESTION) (IAlt IEps IFail)) b -> special n = false ->
  nullable (rule n) || mem T_QUESTION (first (rule n)) = true ->
  enters (rule n) (at_ (kindText k ++ r)) = true ->
  TakesS o b (kindText k) r [v] -> (v = WHint (false, k) \/ exists t, v = WTok t /\ kindOf t = Some k) ->
  (forall vs, nodeOf n vs = match vs with WTok T_QUESTION :: r => readHint true r | _ => readHint false vs end) ->
  TakesS o (IN n) (hintText (q, k)) r [WHint (q, k)].
Proof.
  intros o n b q k r v N RU SP E1 E2 T VV NO. unfold hintText. cbn [fst snd]. fold (kindText k).
  apply (ts_N rs o _ _ _ (if q then [WTok T_QUESTION; v] else [v])); [exact SP| | |].
  - destruct q; [exact E1|exact E2].
  - rewrite RU. destruct q.
    + apply ts_seqv; [yes; apply ts_tok|exact T].
    + apply ts_skip; [|exact T]. cbn [app]. destruct (kind_heads k) as [HI HN].
      apply ts_alt_r; [cbn [app]; eapply test_out; [exact HI|exact HN|discriminate|comp]|]. apply ts_alt_l; [reflexivity|]. apply ts_eps.
  - rewrite NO. destruct VV as [->|(t & -> & KO)]; [destruct q; reflexivity|].
    destruct q; [cbn [readHint]; now rewrite KO|].
    destruct t; try discriminate KO; cbn [readHint]; now rewrite KO.
Qed.
Lemma generic_test : forall k r, match k with HName _ | HArray => True | _ => False end -> test (IN n_genericTypeHint) (at_ (kindText k ++ r)) = true.
Proof.
  intros k r K. destruct k as [n| | |]; try contradiction; [|reflexivity]. destruct (name_heads n) as [HI HN].
  eapply test_in; [exact HI|exact HN|discriminate|comp].
Qed.
Lemma ts_paramHint : forall o h r, hintOk false h = true -> outside [T_BACKSLASH] r -> TakesS o (IN n_parameterTypeHint) (hintText h) r [WHint h].
Proof.
  intros o [q k] r OK N. assert (E : enters (rule n_parameterTypeHint) (at_ (kindText k ++ r)) = true).
  { destruct k as [n| | |]; try discriminate OK; try reflexivity. destruct (name_heads n) as [HI HN]. eapply enter_in; [exact HI|exact HN|comp]. }
  destruct k as [n| | |]; try discriminate OK;
    (eapply ts_question; [exact N|reflexivity|reflexivity|comp|exact E| | |intros vs; reflexivity]).
  1, 3: cbn [seqs alts]; apply ts_alt_l; [now apply generic_test|]; now apply ts_generic.
  1, 2: now left.
  - cbn [seqs alts]. no. yes. apply ts_tok.
  - right. eexists. split; reflexivity.
Qed.
Lemma ts_retHint : forall o h r, outside [T_BACKSLASH] r -> TakesS o (IN n_returnTypeHint) (hintText h) r [WHint h].
Proof.
  intros o [q k] r N. assert (E : enters (rule n_returnTypeHint) (at_ (kindText k ++ r)) = true).
  { destruct k as [n| | |]; try reflexivity. destruct (name_heads n) as [HI HN]. eapply enter_in; [exact HI|exact HN|comp]. }
  destruct k as [n| | |];
    (eapply ts_question; [exact N|reflexivity|reflexivity|comp|exact E| | |intros vs; reflexivity]).
  1, 3: cbn [seqs alts]; apply ts_alt_l; [now apply generic_test|]; now apply ts_generic.
  1, 2: now left.
  - cbn [seqs alts]. no. yes. apply ts_tok.
  - right. eexists. split; reflexivity.
  - cbn [seqs alts]. no. no. yes. apply ts_tok.
  - right. eexists. split; reflexivity.
Qed.
Lemma ts_propHint : forall o h r, propHintOk h = true -> outside [T_BACKSLASH] r -> TakesS o (IN n_propertyTypeHint) (hintText h) r [WHint h].
Proof.
  intros o [q k] r OK N. assert (E : enters (rule n_propertyTypeHint) (at_ (kindText k ++ r)) = true).
  { destruct k as [n| | |]; try discriminate OK; try reflexivity. destruct (name_heads n) as [HI HN]. eapply enter_in; [exact HI|exact HN|comp]. }
  destruct k as [n| | |]; try discriminate OK;
    (eapply ts_question; [exact N|reflexivity|reflexivity|comp|exact E| | |intros vs; reflexivity]);
    [cbn [seqs]; now apply ts_generic|now left|cbn [seqs]; now apply ts_generic|now left].
Qed.
Lemma type_heads : forall t, t <> [] -> In (hd T_EOF (typeText t)) hintHeads /\ typeText t <> [].
Proof.
  intros [|h t] N; [congruence|]. unfold typeText. cbn [map]. destruct (hint_heads h) as [HI HN]. destruct t as [|h2 t]; [split; assumption|].
  cbn [map]. rewrite joined_cons by discriminate. split; [rewrite hd_app by exact HN; exact HI|]. destruct (hintText h); [congruence|discriminate].
Qed.
Lemma ts_hints : forall o n t r, t <> [] -> outside [T_BACKSLASH; T_BIT_OR] r ->
  (forall h r, In h t -> outside [T_BACKSLASH] r -> TakesS o (IN n) (hintText h) r [WHint h]) ->
  TakesS o (IList (IN n) T_BIT_OR None) (typeText t) r (inter T_BIT_OR (map WHint t)).
Proof.
  intros o n t r N O H. apply ts_sepBy; [exact N| |eapply out_neq; [exact O|reflexivity]].
  intros x l1 l2 ->. split; [|exact I]. apply H; [apply in_or_app; right; now left|]. apply out_behind; [reflexivity|].
  eapply out_less; [|exact O]. reflexivity.
Qed.
Lemma pick_hints : forall t, pick getHint (inter T_BIT_OR (map WHint t)) = Some t.
Proof. intros t. apply pick_inter. intros x. split; reflexivity. Qed.
Definition paramHeads : list Tok := [T_QUESTION; T_BACKSLASH; T_STRING; T_ARRAY; T_CALLABLE].
Lemma paramType_heads : forall t, t <> [] -> forallb (hintOk false) t = true -> In (hd T_EOF (typeText t)) paramHeads /\ typeText t <> [].
Proof.
  intros [|h t] N OK; [congruence|]. destruct (type_heads (h :: t) N) as [_ HN]. split; [|exact HN]. cbn [forallb] in OK. apply andb_true_iff in OK as [OK _].
  assert (E : hd T_EOF (typeText (h :: t)) = hd T_EOF (hintText h)).
  { unfold typeText. cbn [map]. destruct (hint_heads h) as [_ HN2]. destruct t as [|h2 t]; [reflexivity|]. cbn [map]. rewrite joined_cons by discriminate. now apply hd_app. }
  rewrite E. destruct h as [[|] k]; unfold hintText; cbn [fst snd app]; [now left|].
  destruct k as [n| | |]; try discriminate OK; try (cbn; tauto). destruct (name_heads n) as [HI _]. cbn in HI. cbn. intuition.
Qed.
Lemma ts_paramType : forall o t r, t <> [] -> forallb (hintOk false) t = true -> outside [T_BACKSLASH; T_BIT_OR] r ->
  TakesS o (IN n_parameterType) (typeText t) r [WType t].
Proof.
  intros o t r N OK O. destruct (paramType_heads t N OK) as [HI HN].
  eapply ts_N; [reflexivity|eapply enter_in; [exact HI|exact HN|comp]| |].
  - cbn [rule]. eapply ts_N; [reflexivity|eapply enter_in; [exact HI|exact HN|comp]| |].
    + cbn [rule]. apply ts_hints; [exact N|exact O|]. intros h r' HH OH. apply ts_paramHint; [|exact OH]. exact (forallb_In _ _ _ _ OK HH).
    + cbn [nodeOf]. rewrite pick_hints. reflexivity.
  - reflexivity.
Qed.
Lemma ts_retType : forall o t r, t <> [] -> outside [T_BACKSLASH; T_BIT_OR] r -> TakesS o (IN n_returnType) (typeText t) r [WType t].
Proof.
  intros o t r N O. destruct (type_heads t N) as [HI HN].
  eapply ts_N; [reflexivity|eapply enter_in; [exact HI|exact HN|comp]| |].
  - cbn [rule]. eapply ts_N; [reflexivity|eapply enter_in; [exact HI|exact HN|comp]| |].
    + cbn [rule]. apply ts_hints; [exact N|exact O|]. intros h r' HH OH. now apply ts_retHint.
    + cbn [nodeOf]. rewrite pick_hints. reflexivity.
  - reflexivity.
Qed.
Definition propHeads : list Tok := [T_QUESTION; T_BACKSLASH; T_STRING; T_ARRAY].
Lemma propType_heads : forall t, t <> [] -> forallb propHintOk t = true -> In (hd T_EOF (typeText t)) propHeads /\ typeText t <> [].
Proof.
  intros [|h t] N OK; [congruence|]. destruct (type_heads (h :: t) N) as [_ HN]. split; [|exact HN]. cbn [forallb] in OK. apply andb_true_iff in OK as [OK _].
  assert (E : hd T_EOF (typeText (h :: t)) = hd T_EOF (hintText h)).
  { unfold typeText. cbn [map]. destruct (hint_heads h) as [_ HN2]. destruct t as [|h2 t]; [reflexivity|]. cbn [map]. rewrite joined_cons by discriminate. now apply hd_app. }
  rewrite E. destruct h as [[|] k]; unfold hintText; cbn [fst snd app]; [now left|].
  destruct k as [n| | |]; try discriminate OK; try (cbn; tauto). destruct (name_heads n) as [HI _]. cbn in HI. cbn. intuition.
Qed.
Lemma ts_propType : forall o t r, t <> [] -> forallb propHintOk t = true -> outside [T_BACKSLASH; T_BIT_OR] r ->
  TakesS o (IN n_propertyType) (typeText t) r [WType t].
Proof.
  intros o t r N OK O. destruct (propType_heads t N OK) as [HI HN].
  eapply ts_N; [reflexivity|eapply enter_in; [exact HI|exact HN|comp]| |].
  - cbn [rule]. eapply ts_N; [reflexivity|eapply enter_in; [exact HI|exact HN|comp]| |].
    + cbn [rule]. apply ts_hints; [exact N|exact O|]. intros h r' HH OH. apply ts_propHint; [|exact OH]. exact (forallb_In _ _ _ _ OK HH).
    + cbn [nodeOf]. rewrite pick_hints. reflexivity.
  - reflexivity.
Qed.
(** ( ':' type )? *)
Lemma ts_ret : forall o t r, outside [T_BACKSLASH; T_BIT_OR; T_COLON] r ->
  TakesS o (alts [seqs [IT T_COLON; IN n_returnType]; IEps]) (retText t) r (match t with [] => [] | _ => [WTok T_COLON; WType t] end).
Proof.
  intros o t r O. cbn [alts seqs]. destruct t as [|h t].
  - cbn [retText]. apply ts_alt_r; [|apply ts_alt_l; [reflexivity|apply ts_eps]]. cbn [app].
    eapply out_test; [discriminate| |exact O]. comp.
  - unfold retText. yes. apply ts_seqt. apply ts_retType; [discriminate|]. eapply out_less; [|exact O]. reflexivity.
Qed.

(** ** Initial values *)
Lemma sc_induction : forall P : sc -> Prop, P ScNum -> (forall n, P (ScConst n)) -> (forall n, P (ScClassConst n)) ->
  (forall x, P x -> P (ScPlus x)) -> (forall x, P x -> P (ScMinus x)) ->
  (forall b l, Forall (fun p => P (fst p) /\ match snd p with Some v => P v | None => True end) l -> P (ScArray b l)) -> forall x, P x.
Proof.
  intros P H1 H2 H3 H4 H5 H6. fix IH 1. intros x. destruct x as [|n|n|x|x|b l].
  - exact H1.
  - apply H2.
  - apply H3.
  - apply H4, IH.
  - apply H5, IH.
  - apply H6. induction l as [|[a o] l IHl]; constructor; [|exact IHl]. cbn [fst snd]. split; [apply IH|]. destruct o as [v|]; [apply IH|exact I].
Qed.
Definition scHeads : list Tok := [T_LNUMBER; T_BACKSLASH; T_STRING; T_PLUS; T_MINUS; T_LBRACKET; T_ARRAY].
Lemma sc_heads : forall x, In (hd T_EOF (scText x)) scHeads /\ scText x <> [].
Proof.
  intros x. destruct x as [|n|n|x|x|[|] l]; cbn [scText]; try (split; [cbn; tauto|discriminate]).
  - destruct (name_heads n) as [HI HN]. split; [|exact HN]. cbn in HI. cbn. intuition.
  - destruct (name_heads n) as [HI HN]. split; [rewrite hd_app by exact HN; cbn in HI; cbn; intuition|]. destruct (nameText n); [congruence|discriminate].
Qed.
Definition pairText (p : sc * option sc) : list Tok := scText (fst p) ++ match snd p with Some v => T_DOUBLE_ARROW :: scText v | None => [] end.
Lemma pair_heads : forall p, In (hd T_EOF (pairText p)) scHeads /\ pairText p <> [].
Proof.
  intros [x o]. unfold pairText. cbn [fst snd]. destruct (sc_heads x) as [HI HN]. split; [now rewrite hd_app|]. destruct (scText x); [congruence|discriminate].
Qed.
Definition scEnd (r : list Tok) : Prop := outside [T_BACKSLASH; T_PAAMAYIM_NEKUDOTAYIM] r.
Lemma ts_const : forall o n (c : bool) r, scEnd r ->
  TakesS o (IN n_constantOrClassConst) (nameText n ++ if c then [T_PAAMAYIM_NEKUDOTAYIM; T_STRING] else []) r [WSc (if c then ScClassConst n else ScConst n)].
Proof.
  intros o n c r E. destruct (name_heads n) as [HI HN].
  apply (ts_N rs o _ _ _ (WName n :: if c then [WTok T_PAAMAYIM_NEKUDOTAYIM; WPart] else [])); [reflexivity|rewrite <- app_assoc; eapply enter_in; [exact HI|exact HN|comp]| |].
  - cbn [rule seqs alts]. apply ts_seqv.
    + apply ts_name. destruct c; [reflexivity|]. eapply out_less; [|exact E]. reflexivity.
    + destruct c.
      * yes. apply ts_seqt. eapply ts_N; [reflexivity|comp|cbn [rule]; apply ts_semiId|reflexivity].
      * apply ts_alt_r; [eapply out_test; [discriminate| |exact E]; comp|]. apply ts_alt_l; [reflexivity|apply ts_eps].
  - destruct c; reflexivity.
Qed.
Lemma ts_scalar : forall x o r, scEnd r -> TakesS o (IN n_staticScalar) (scText x) r [WSc x].
Proof.
  induction x as [|n|n|x IH|x IH|b l IH] using sc_induction; intros o r E.
  - eapply ts_N; [reflexivity|comp| |].
    + cbn [rule alts scText]. yes. eapply ts_N; [reflexivity|comp|cbn [rule alts]; yes; apply ts_tok|reflexivity].
    + reflexivity.
  - cbn [scText]. destruct (name_heads n) as [HI HN]. eapply ts_N; [reflexivity|eapply enter_in; [exact HI|exact HN|comp]| |].
    + cbn [rule alts]. apply ts_alt_r; [eapply test_out; [exact HI|exact HN|discriminate|comp]|].
      apply ts_alt_l; [eapply test_in; [exact HI|exact HN|discriminate|comp]|].
      pose proof (ts_const o n false r E) as X. rewrite app_nil_r in X. exact X.
    + reflexivity.
  - cbn [scText]. destruct (name_heads n) as [HI HN]. eapply ts_N; [reflexivity|rewrite <- app_assoc; eapply enter_in; [exact HI|exact HN|comp]| |].
    + cbn [rule alts]. apply ts_alt_r; [rewrite <- app_assoc; eapply test_out; [exact HI|exact HN|discriminate|comp]|].
      apply ts_alt_l; [rewrite <- app_assoc; eapply test_in; [exact HI|exact HN|discriminate|comp]|]. exact (ts_const o n true r E).
    + reflexivity.
  - eapply ts_N; [reflexivity|comp| |].
    + cbn [rule alts scText seqs]. no. no. yes. apply ts_seqt, IH, E.
    + reflexivity.
  - eapply ts_N; [reflexivity|comp| |].
    + cbn [rule alts scText seqs]. no. no. no. yes. apply ts_seqt, IH, E.
    + reflexivity.
  - assert (PAIR : forall p r, In p l -> outside [T_BACKSLASH; T_PAAMAYIM_NEKUDOTAYIM; T_DOUBLE_ARROW] r -> TakesS o (IN n_staticArrayPairValue) (pairText p) r [WPair p]).
    { intros p r' HP OP. rewrite Forall_forall in IH. destruct (IH p HP) as [IH1 IH2]. destruct (pair_heads p) as [HI HN].
      assert (OP2 : scEnd r') by (eapply out_less; [|exact OP]; reflexivity).
      apply (ts_N rs o _ _ _ (WSc (fst p) :: match snd p with Some v => [WTok T_DOUBLE_ARROW; WSc v] | None => [] end)); [reflexivity|eapply enter_in; [exact HI|exact HN|comp]| |].
      - cbn [rule seqs alts]. unfold pairText. apply ts_seqv.
        + apply IH1. destruct (snd p); [reflexivity|exact OP2].
        + destruct (snd p) as [v|].
          * yes. apply ts_seqt, IH2, OP2.
          * apply ts_alt_r; [eapply out_test; [discriminate| |exact OP]; comp|]. apply ts_alt_l; [reflexivity|apply ts_eps].
      - destruct p as [a [v|]]; reflexivity. }
    assert (INNER : forall k r, (k = T_RPAREN \/ k = T_RBRACKET) ->
      TakesS o (alts [IList (IN n_staticArrayPairValue) T_COMMA (Some k); IEps]) (joined T_COMMA (map pairText l)) (k :: r) (inter T_COMMA (map WPair l))).
    { intros k r' HK. cbn [alts]. destruct l as [|p l].
      - apply ts_alt_r; [destruct HK as [->| ->]; comp|]. apply ts_alt_l; [reflexivity|apply ts_eps].
      - apply ts_alt_l.
        + destruct (pair_heads p) as [HI HN]. cbn [map]. rewrite joined_behind. eapply test_in; [exact HI|exact HN|discriminate|]. destruct HK as [->| ->]; comp.
        + apply ts_sepBy; [discriminate| |destruct HK as [->| ->]; discriminate].
          intros x l1 l2 EQ. split; [apply PAIR; [rewrite EQ; apply in_or_app; right; now left|apply out_behind; [reflexivity|destruct HK as [->| ->]; reflexivity]]|].
          destruct (pair_heads x) as [HI HN]. rewrite hd_app by exact HN. intros EX. rewrite EX in HI. destruct HK as [->| ->]; vm_compute in HI; intuition discriminate. }
    assert (PK : forall k vs, pick getPair (inter T_COMMA (map WPair l) ++ [WTok k]) = Some vs -> vs = l).
    { intros k vs. rewrite pick_app_tok, (pick_inter _ getPair WPair) by (intros; split; reflexivity). congruence. }
    cbn [scText]. fold pairText. destruct b.
    + eapply ts_N; [reflexivity|comp| |].
      * cbn [rule alts seqs]. do 5 no. yes. apply ts_seqt. apply ts_seq; [|apply ts_tok]. exact (INNER T_RBRACKET r (or_intror eq_refl)).
      * cbn [nodeOf]. rewrite pick_app_tok, (pick_inter _ getPair WPair) by (intros; split; reflexivity). reflexivity.
    + eapply ts_N; [reflexivity|comp| |].
      * cbn [rule alts seqs]. do 4 no. yes. apply ts_seqt. apply ts_seqt. apply ts_seq; [|apply ts_tok]. exact (INNER T_RPAREN r (or_introl eq_refl)).
      * cbn [nodeOf]. rewrite pick_tok, pick_app_tok, (pick_inter _ getPair WPair) by (intros; split; reflexivity). reflexivity.
Qed.
(** $x or $x = value *)
Lemma ts_varDecl : forall o n v r, rule n = seqs [IN n_variableIdentifier; alts [seqs [IT T_ASSIGN; IN n_staticScalar]; IEps]] -> special n = false ->
  nullable (rule n) || mem T_VARIABLE (first (rule n)) = true ->
  (forall vs, nodeOf n vs = match vs with [WPart] => WVarDecl None | [WPart; _; WSc x] => WVarDecl (Some x) | _ => WBad end) ->
  outside [T_ASSIGN; T_BACKSLASH; T_PAAMAYIM_NEKUDOTAYIM] r -> TakesS o (IN n) (varText v) r [WVarDecl v].
Proof.
  intros o n v r RU SP E NO O. unfold varText. apply (ts_N rs o _ _ _ (WPart :: match v with Some x => [WTok T_ASSIGN; WSc x] | None => [] end)); [exact SP|exact E| |].
  - rewrite RU. cbn [seqs alts]. change (T_VARIABLE :: optText T_ASSIGN (option_map scText v)) with ([T_VARIABLE] ++ optText T_ASSIGN (option_map scText v)).
    apply ts_seqv; [apply ts_varId|]. destruct v as [x|]; cbn [option_map optText].
    + yes. apply ts_seqt, ts_scalar. eapply out_less; [|exact O]. reflexivity.
    + apply ts_alt_r; [cbn [app]; eapply out_test; [discriminate| |exact O]; comp|]. apply ts_alt_l; [reflexivity|apply ts_eps].
  - rewrite NO. destruct v; reflexivity.
Qed.
Lemma ts_varDecls : forall o n vs r, rule n = seqs [IN n_variableIdentifier; alts [seqs [IT T_ASSIGN; IN n_staticScalar]; IEps]] -> special n = false ->
  nullable (rule n) || mem T_VARIABLE (first (rule n)) = true ->
  (forall vs, nodeOf n vs = match vs with [WPart] => WVarDecl None | [WPart; _; WSc x] => WVarDecl (Some x) | _ => WBad end) ->
  vs <> [] -> outside [T_ASSIGN; T_BACKSLASH; T_PAAMAYIM_NEKUDOTAYIM; T_COMMA] r ->
  TakesS o (IList (IN n) T_COMMA None) (joined T_COMMA (map varText vs)) r (inter T_COMMA (map WVarDecl vs)).
Proof.
  intros o n vs r RU SP E NO N O. apply ts_sepBy; [exact N| |eapply out_neq; [exact O|reflexivity]]. intros x l1 l2 _. split; [|exact I].
  apply ts_varDecl; try assumption. apply out_behind; [reflexivity|]. eapply out_less; [|exact O]. reflexivity.
Qed.
Lemma varText_hd : forall v, exists w, varText v = T_VARIABLE :: w.
Proof. intros v. eexists. reflexivity. Qed.
Lemma vars_hd : forall vs, vs <> [] -> exists w, joined T_COMMA (map varText vs) = T_VARIABLE :: w.
Proof. intros [|v vs] N; [congruence|]. cbn [map]. destruct vs as [|y vs]; [eexists; reflexivity|]. cbn [map]. rewrite joined_cons by discriminate. eexists. reflexivity. Qed.

(** ** Parameters *)
Lemma param_heads : forall p, paramOk p = true -> In (hd T_EOF (paramText p)) (T_BIT_AND :: T_ELLIPSIS :: T_VARIABLE :: paramHeads) /\ paramText p <> [].
Proof.
  intros [t b v d] OK. unfold paramOk in OK. cbn [p_type p_default] in OK. apply andb_true_iff in OK as [OK _]. unfold paramText. cbn [p_type p_ref p_variadic p_default].
  destruct t as [|h t].
  - cbn [typeText map joined app]. destruct b, v; cbn [flag app]; (split; [cbn; tauto|discriminate]).
  - destruct (paramType_heads (h :: t) ltac:(discriminate) OK) as [HI HN]. rewrite hd_app by exact HN. split; [right; right; right; exact HI|].
    destruct (typeText (h :: t)); [congruence|discriminate].
Qed.
Lemma ts_opt : forall o k (b : bool) r (L : list Tok), (forall c a, IT k <> ICond c a) -> (b = false -> outside [k] r) ->
  TakesS o (alts [IT k; IEps]) (flag b k) r (if b then [WTok k] else []).
Proof.
  intros o k b r L NC H. cbn [alts]. destruct b; cbn [flag].
  - apply ts_alt_l; [|apply ts_tok]. cbn [test]. unfold enters. cbn [nullable nullableT]. rewrite (yytoken_cons (at_ ([k] ++ r)) k r eq_refl).
    change (first (IT k)) with (single k). unfold mem, single. rewrite N.shiftl_spec_high', N.sub_diag by lia. reflexivity.
  - apply ts_alt_r; [|apply ts_alt_l; [reflexivity|apply ts_eps]]. cbn [app]. eapply out_test; [discriminate| |exact (H eq_refl)].
    apply forallb_forall. intros x _. unfold inStop. cbn [existsb]. rewrite orb_false_r. destruct (teq x k) eqn:T; [reflexivity|]. cbn [orb].
    change (nullable (IT k)) with false. cbn [orb]. change (first (IT k)) with (single k). unfold mem, single. apply negb_true_iff.
    rewrite N.shiftl_1_l. apply N.pow2_bits_false. intros E. apply teq_neq in T. apply T. unfold teq in *. clear - E.
    apply teq_eq. unfold teq. rewrite E. apply N.eqb_refl.
Qed.
Lemma ts_param : forall p r, paramOk p = true -> outside [T_ASSIGN] r -> stops 0 r -> TakesS None (IN n_parameter) (paramText p) r [WParam p].
Proof.
  intros p r OK O ST. destruct (param_heads p OK) as [HI HN].
  apply (ts_N rs None _ _ _ ((match p_type p with [] => [] | _ => [WType (p_type p)] end) ++ (if p_ref p then [WTok T_BIT_AND] else []) ++
    (if p_variadic p then [WTok T_ELLIPSIS] else []) ++ WPart :: match p_default p with Some e => [WTok T_ASSIGN; WEx e] | None => [] end)); [reflexivity|eapply enter_in; [exact HI|exact HN|comp]| |].
  - cbn [rule seqs]. destruct p as [t b v d]. unfold paramOk in OK. cbn [p_type p_default] in OK. apply andb_true_iff in OK as [OT OD].
    unfold paramText. cbn [p_type p_ref p_variadic p_default].
    apply (ts_seq rs _ _ _ _ _ _ (match t with [] => [] | _ => [WType t] end)).
    + destruct t as [|h t].
      * cbn [typeText map joined]. apply ts_alt_r; [destruct b, v; comp|]. apply ts_alt_l; [reflexivity|apply ts_eps].
      * apply ts_alt_l.
        -- destruct (paramType_heads (h :: t) ltac:(discriminate) OT) as [HI2 HN2]. eapply test_in; [exact HI2|exact HN2|discriminate|comp].
        -- apply ts_paramType; [discriminate|exact OT|]. destruct b, v; reflexivity.
    + apply ts_seq; [apply ts_opt; [exact []|discriminate|]; intros ->; destruct v; reflexivity|].
      apply ts_seq; [apply ts_opt; [exact []|discriminate|]; intros ->; reflexivity|].
      change (T_VARIABLE :: optText T_ASSIGN (option_map text d)) with ([T_VARIABLE] ++ optText T_ASSIGN (option_map text d)).
      apply ts_seqv; [apply ts_varId|]. cbn [alts seqs]. 
      destruct d as [e|]; cbn [option_map optText].
      * yes. apply ts_seqt, ts_expr; assumption.
      * apply ts_alt_r; [cbn [app]; eapply out_test; [discriminate| |exact O]; comp|]. apply ts_alt_l; [reflexivity|apply ts_eps].
  - destruct p as [[|h t] [|] [|] [d|]]; reflexivity.
Qed.
Lemma ts_params : forall ps r, forallb paramOk ps = true -> TakesS None (IN n_parameterList) (paramsText ps) (T_RPAREN :: r) [WParams ps].
Proof.
  intros ps r OK. apply (ts_N rs None _ _ _ (inter T_COMMA (map WParam ps))); [reflexivity|apply enter_nullable; comp| |].
  - cbn [rule alts]. destruct ps as [|p ps].
    + no. yes. apply ts_eps.
    + apply ts_alt_l.
      * cbn [forallb] in OK. apply andb_true_iff in OK as [OK _]. destruct (param_heads p OK) as [HI HN]. unfold paramsText. cbn [map]. rewrite joined_behind.
        eapply test_in; [exact HI|exact HN|discriminate|comp].
      * apply ts_sepBy; [discriminate| |discriminate]. intros x l1 l2 EQ.
        assert (OX : paramOk x = true) by (apply (forallb_In _ _ _ _ OK); rewrite EQ; apply in_or_app; right; now left).
        split; [apply ts_param; [exact OX|apply out_behind; reflexivity|]|].
        -- unfold stops. destruct l2; cbn [map behind_]; comp.
        -- destruct (param_heads x OX) as [HI HN]. rewrite hd_app by exact HN. intros EX. rewrite EX in HI. vm_compute in HI. intuition discriminate.
  - cbn [nodeOf]. rewrite (pick_inter _ getParam WParam) by (intros; split; reflexivity). reflexivity.
Qed.
End T.
