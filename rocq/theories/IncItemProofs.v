(** Proofs for IncItemModel.v: the text. *)
From Coq Require Import List Bool Arith NArith String Lia.
From Verif Require Import Chars IncItemModel IncItemSpec.
Import ListNotations.
Open Scope nat_scope.

Section Text.
Variable cc : CharClass.
Hypothesis OK : ascii_ok cc.
Hypothesis BLANK : forall c, isSpace cc c = true -> foldCase cc c = c.
Local Notation F := (map (foldCase cc)).

Lemma fold_small c : (c < 128)%N -> foldCase cc c = asciiToLower c.
Proof. apply ok_fold; exact OK. Qed.
Lemma F_str : forall s, Forall (fun c => (c < 128)%N) (str s) -> F (str s) = map asciiToLower (str s).
Proof. intros s H. apply map_ext_in. intros c I. apply fold_small. rewrite Forall_forall in H. apply H. exact I. Qed.
Ltac small := repeat (constructor; [reflexivity|]); constructor.

(** *** Case-insensitive prefixes *)
Lemma afterCI_some p s r : afterCI cc p s = Some r -> exists p', s = p' ++ r /\ F p' = F p.
Proof.
  revert s. induction p as [|a p IH]; intros s; cbn; [intros H; injection H as ->; exists []; auto|].
  destruct s as [|b s]; [discriminate|]. destruct (N.eqb_spec (foldCase cc a) (foldCase cc b)) as [E|]; [|discriminate].
  intros H. destruct (IH s H) as (p' & -> & E2). exists (b :: p'). split; [reflexivity|]. cbn. congruence.
Qed.
Lemma afterCI_same p k r : F k = F p -> afterCI cc p (k ++ r) = Some r.
Proof.
  revert k. induction p as [|a p IH]; intros [|b k] E; cbn in E |- *; try discriminate; [reflexivity|].
  injection E as E1 E2. rewrite E1, N.eqb_refl. apply IH. exact E2.
Qed.
Lemma afterCI_none p s : (forall x, F s <> F p ++ x) -> afterCI cc p s = None.
Proof.
  intros H. destruct (afterCI cc p s) as [r|] eqn:E; [|reflexivity]. apply afterCI_some in E. destruct E as (p' & -> & E).
  exfalso. apply (H (F r)). rewrite map_app, E. reflexivity.
Qed.

(** *** Blanks *)
Lemma space_not c : (c < 128)%N -> asciiSpace c = false -> isSpace cc c = false.
Proof. intros H E. rewrite (ok_space cc OK) by exact H. exact E. Qed.
(** a character that is a [k] but for case is no blank *)
Lemma fold_not_space c k : (k < 128)%N -> asciiSpace k = false -> foldCase cc c = k -> isSpace cc c = false.
Proof.
  intros H E X. destruct (isSpace cc c) eqn:Y; [|reflexivity]. pose proof (BLANK c Y) as Z. rewrite Z in X. subst c.
  rewrite (ok_space cc OK) in Y by exact H. congruence.
Qed.
Definition noSpace (s : qstring) : Prop := match s with c :: _ => isSpace cc c = false | [] => True end.
Lemma drop_blank b s : blank cc b -> noSpace s -> dropSpaces cc (b ++ s) = s.
Proof.
  induction 1 as [|c b C _ IH]; cbn; intros N; [|rewrite C; auto].
  destruct s as [|c s]; [reflexivity|]. cbn in N |- *. rewrite N. reflexivity.
Qed.
Lemma spaces_blank b s : blank cc b -> noSpace s -> spaces cc (b ++ s) = b.
Proof.
  induction 1 as [|c b C _ IH]; cbn; intros N; [|rewrite C, IH; auto].
  destruct s as [|c s]; [reflexivity|]. cbn in N |- *. rewrite N. reflexivity.
Qed.
Lemma drop_suffix s : exists b, s = b ++ dropSpaces cc s.
Proof.
  induction s as [|c s [b IH]]; [exists []; reflexivity|]. cbn. destruct (isSpace cc c); [|exists []; reflexivity].
  exists (c :: b). cbn. rewrite <- IH. reflexivity.
Qed.
Lemma after1_some c s r : after1 c s = Some r -> s = c :: r.
Proof. destruct s as [|d s]; cbn; [discriminate|]. destruct (N.eqb_spec c d) as [->|]; [|discriminate]. intros H. injection H as ->. reflexivity. Qed.
Lemma after1_same c r : after1 c (c :: r) = Some r.
Proof. cbn. rewrite N.eqb_refl. reflexivity. Qed.

Definition Suf (s r : qstring) : Prop := exists a, s = a ++ r.
Lemma suf_refl s : Suf s s. Proof. exists []. reflexivity. Qed.
Lemma suf_trans a b c : Suf a b -> Suf b c -> Suf a c.
Proof. intros [x ->] [y ->]. exists (x ++ y). rewrite app_assoc. reflexivity. Qed.
Lemma suf_drop s : Suf s (dropSpaces cc s). Proof. apply drop_suffix. Qed.
Lemma suf_ci p s r : afterCI cc p s = Some r -> Suf s r.
Proof. intros H. apply afterCI_some in H. destruct H as (p' & -> & _). exists p'. reflexivity. Qed.
Lemma suf_1 c s r : after1 c s = Some r -> Suf s r.
Proof. intros H. apply after1_some in H. exists [c]. exact H. Qed.
Lemma suf_dirname s : Suf s (dirnamePart cc s).
Proof.
  unfold dirnamePart. destruct (afterCI cc (str "dirname") s) as [s1|] eqn:E1; [|apply suf_refl].
  destruct (after1 40 (dropSpaces cc s1)) as [s2|] eqn:E2; [|apply suf_refl].
  destruct (afterCI cc (str "__FILE__") (dropSpaces cc s2)) as [s3|] eqn:E3; [|apply suf_refl].
  destruct (after1 41 (dropSpaces cc s3)) as [s4|] eqn:E4; [|apply suf_refl].
  destruct (after1 46 (dropSpaces cc s4)) as [s5|] eqn:E5; [|apply suf_refl].
  apply suf_ci in E1, E3. apply suf_1 in E2, E4, E5.
  repeat (eapply suf_trans; [eassumption|]; eapply suf_trans; [apply suf_drop|]). apply suf_refl.
Qed.

(** *** Where the pattern matches *)
Definition begins (l : qstring) : Prop := (exists x, l = 105%N :: 110%N :: x) \/ (exists x, l = 114%N :: 101%N :: 113%N :: x).
Lemma match_begins s x : matchAt cc s = Some x -> begins (F s).
Proof.
  unfold matchAt. destruct (afterCI cc (str "include") s) as [r|] eqn:E.
  - intros _. apply afterCI_some in E. destruct E as (p & -> & E). left. rewrite map_app, E, F_str by small. eexists. reflexivity.
  - destruct (afterCI cc (str "require") s) as [r|] eqn:E2; [|discriminate].
    intros _. apply afterCI_some in E2. destruct E2 as (p & -> & E2). right. rewrite map_app, E2, F_str by small. eexists. reflexivity.
Qed.
Lemma match_quote s x : matchAt cc s = Some x -> exists q, quote q /\ In q s.
Proof.
  unfold matchAt. match goal with |- context [match ?o with Some r => _ | None => None end] => destruct o as [r|] eqn:E end; [|discriminate].
  assert (Suf s r) as S.
  { destruct (afterCI cc (str "include") s) as [r'|] eqn:E1; [injection E as <-; exact (suf_ci _ _ _ E1)|exact (suf_ci _ _ _ E)]. }
  clear E. cbv zeta. set (r1 := dropSpaces cc (match afterCI cc (str "_once") r with Some r' => r' | None => r end)).
  assert (Suf s r1) as S1.
  { eapply suf_trans; [exact S|]. unfold r1. destruct (afterCI cc (str "_once") r) as [r'|] eqn:E; [|apply suf_drop].
    eapply suf_trans; [exact (suf_ci _ _ _ E)|apply suf_drop]. }
  destruct (match after1 40 r1 with Some r' => (true, r') | None => (false, r1) end) as [par r2] eqn:E.
  assert (Suf s r2) as S2.
  { destruct (after1 40 r1) as [r'|] eqn:E1; injection E as <- <-; [|exact S1]. eapply suf_trans; [exact S1|exact (suf_1 _ _ _ E1)]. }
  destruct (dirnamePart cc (dropSpaces cc r2)) as [|q r3] eqn:E3; [discriminate|].
  assert (Suf s (q :: r3)) as [a ->].
  { rewrite <- E3. eapply suf_trans; [exact S2|]. eapply suf_trans; [apply suf_drop|apply suf_dirname]. }
  destruct (N.eqb_spec q cQUOTE) as [->|]; [|destruct (N.eqb_spec q cDQUOTE) as [->|]; [|discriminate]]; intros _;
    eexists; (split; [|apply in_or_app; right; left; reflexivity]); [left|right]; reflexivity.
Qed.
Lemma last_noquote s : (forall q, quote q -> ~ In q s) -> lastMatch cc s = None.
Proof.
  induction s as [|c s IH]; intros H; [reflexivity|]. cbn [lastMatch]. rewrite IH by (intros q Q I; apply (H q Q); right; exact I).
  destruct (matchAt cc (c :: s)) as [x|] eqn:E; [|reflexivity]. apply match_quote in E. destruct E as (q & Q & I). destruct (H q Q I).
Qed.
Lemma last_app pre s x : lastMatch cc s = Some x -> lastMatch cc (pre ++ s) = Some x.
Proof. intros H. induction pre as [|c pre IH]; [exact H|]. cbn [app lastMatch]. rewrite IH. reflexivity. Qed.
(** nothing begins in [l], in front of [r] *)
Fixpoint quiet (l r : qstring) : Prop := match l with [] => True | _ :: l' => ~ begins (l ++ r) /\ quiet l' r end.
Lemma last_quiet a s : quiet (F a) (F s) -> lastMatch cc s = None -> lastMatch cc (a ++ s) = None.
Proof.
  induction a as [|c a IH]; intros Q H; [exact H|]. destruct Q as [Q1 Q2]. cbn [app lastMatch]. rewrite IH by assumption.
  destruct (matchAt cc (c :: a ++ s)) as [x|] eqn:E; [|reflexivity]. apply match_begins in E. exfalso. apply Q1.
  cbn in E |- *. rewrite map_app in E. exact E.
Qed.
Lemma quiet_app a b r : quiet a (b ++ r) -> quiet b r -> quiet (a ++ b) r.
Proof. induction a as [|c a IH]; intros H1 H2; [exact H2|]. destruct H1 as [A B]. split; [rewrite <- app_comm_cons in A; cbn; rewrite <- app_assoc; exact A|apply IH; assumption]. Qed.
Lemma quiet_cold l r : Forall (fun c => c <> 105%N /\ c <> 114%N) l -> quiet l r.
Proof. induction 1 as [|c l [A B] _ IH]; [exact I|]. split; [|exact IH]. intros [[x E]|[x E]]; injection E as ->; congruence. Qed.
Lemma blank_cold b : blank cc b -> Forall (fun c => c <> 105%N /\ c <> 114%N) (F b).
Proof.
  induction 1 as [|c b C _ IH]; [constructor|]. constructor; [|exact IH]. rewrite (BLANK c C).
  split; intros ->; rewrite (ok_space cc OK) in C by reflexivity; discriminate.
Qed.

(** *** The opening of an include *)
Definition words : list string := ["include"; "include_once"; "require"; "require_once"]%string.
(** the head of what follows the keyword: a blank, parenthesis, quote or d *)
Definition soft (s : qstring) : Prop := match F s with c :: _ => c <> 113%N /\ c <> 95%N | [] => True end.
Lemma keyword_quiet k kw r : In kw words -> sameCI cc k kw -> soft r -> quiet (tl (F k)) (F r).
Proof.
  intros I S N. unfold sameCI in S. rewrite S. unfold soft in N.
  repeat (destruct I as [<-|I]; [rewrite F_str by small; cbn [str map tl asciiToLower]|]); [..|destruct I]; cbn.
  all: repeat split; try (intros [[x E]|[x E]]; discriminate E).
  all: intros [[x E]|[x E]]; [discriminate E|]; destruct (F r) as [|c l]; [discriminate E|]; injection E as -> _; tauto.
Qed.
Lemma map_split {A B} (f : A -> B) l a b : map f l = a ++ b -> exists l1 l2, l = l1 ++ l2 /\ map f l1 = a /\ map f l2 = b.
Proof. intros H. apply map_eq_app in H. destruct H as (l1 & l2 & -> & A1 & A2). eauto. Qed.
Lemma keyword_match k kw r : In kw words -> sameCI cc k kw -> soft r ->
  matchAt cc (k ++ r) =
    let r := dropSpaces cc r in
    let '(par, r) := match after1 40 r with Some r' => (true, r') | None => (false, r) end in
    match dirnamePart cc (dropSpaces cc r) with
    | q :: _ => if (N.eqb q cQUOTE || N.eqb q cDQUOTE)%bool then Some (par, if par then spaces cc r else [], q) else None
    | [] => None
    end.
Proof.
  intros I S N.
  assert (afterCI cc (str "_once") r = None) as NO.
  { apply afterCI_none. intros x E. unfold soft in N. rewrite E, F_str in N by small. cbn in N. destruct N as [_ N]. apply N. reflexivity. }
  unfold sameCI in S. unfold matchAt.
  repeat (destruct I as [<-|I]); [..|destruct I].
  - rewrite (afterCI_same _ k r S), NO. reflexivity.
  - change (str "include_once") with (str "include" ++ str "_once") in S. rewrite map_app in S. apply map_split in S.
    destruct S as (k1 & k2 & -> & S1 & S2). rewrite <- app_assoc, (afterCI_same _ k1 _ S1), (afterCI_same _ k2 r S2). reflexivity.
  - rewrite (afterCI_none (str "include")).
    2: { intros x E. rewrite map_app, S, !F_str in E by small. discriminate E. }
    rewrite (afterCI_same _ k r S), NO. reflexivity.
  - rewrite (afterCI_none (str "include")).
    2: { intros x E. rewrite map_app, S, !F_str in E by small. discriminate E. }
    change (str "require_once") with (str "require" ++ str "_once") in S. rewrite map_app in S. apply map_split in S.
    destruct S as (k1 & k2 & -> & S1 & S2). rewrite <- app_assoc, (afterCI_same _ k1 _ S1), (afterCI_same _ k2 r S2). reflexivity.
Qed.

Lemma quote_fold q : quote q -> foldCase cc q = q.
Proof. intros [-> | ->]; rewrite fold_small by reflexivity; reflexivity. Qed.
Lemma quote_nospace q : quote q -> isSpace cc q = false.
Proof. intros [-> | ->]; apply space_not; reflexivity. Qed.

(** the dirname part in front of a quote *)
Lemma dirname_part d q r : DirName cc d -> quote q -> dirnamePart cc (d ++ q :: r) = q :: r.
Proof.
  intros D Q. inversion D as [E|d1 b1 b2 f b3 b4 b5 S1 S2 B1 B2 B3 B4 B5 E]; subst.
  - cbn [app]. unfold dirnamePart. rewrite afterCI_none; [reflexivity|].
    intros x E. cbn in E. rewrite quote_fold in E by exact Q. injection E as E _. rewrite fold_small in E by reflexivity.
    destruct Q as [-> | ->]; discriminate E.
  - unfold sameCI in S1, S2. rewrite <- !app_assoc. unfold dirnamePart.
    assert (forall x, noSpace (str "(" ++ x)) as N1 by (intros x; apply space_not; reflexivity).
    assert (forall x, noSpace (str ")" ++ x)) as N2 by (intros x; apply space_not; reflexivity).
    assert (forall x, noSpace (str "." ++ x)) as N3 by (intros x; apply space_not; reflexivity).
    assert (forall x, noSpace (f ++ x)) as N4.
    { intros x. destruct f as [|c f]; [discriminate S2|]. cbn in S2. injection S2 as S2 _. rewrite (fold_small 95) in S2 by reflexivity.
      exact (fold_not_space c 95 eq_refl eq_refl S2). }
    rewrite (afterCI_same _ d1 _ S1), (drop_blank b1) by auto. cbn [str app]. rewrite after1_same, (drop_blank b2) by auto.
    rewrite (afterCI_same _ f _ S2), (drop_blank b3) by (auto; apply N2). rewrite after1_same, (drop_blank b4) by (auto; apply N3).
    rewrite after1_same, (drop_blank b5); [reflexivity|exact B5|]. cbn. apply quote_nospace. exact Q.
Qed.
Lemma dirname_head d q r : DirName cc d -> quote q -> noSpace (d ++ q :: r) /\ (forall y, d ++ q :: r <> 40%N :: y) /\ soft (d ++ q :: r).
Proof.
  intros D Q. inversion D as [E|d1 b1 b2 f b3 b4 b5 S1 S2 B1 B2 B3 B4 B5 E]; subst.
  - cbn [app]. split; [exact (quote_nospace q Q)|]. unfold soft. cbn [map]. rewrite quote_fold by exact Q. destruct Q as [-> | ->]; repeat split; discriminate.
  - destruct d1 as [|c d1]; [discriminate S1|]. cbn in S1. injection S1 as S1 _. rewrite (fold_small 100) in S1 by reflexivity. cbn [app].
    split; [exact (fold_not_space c 100 eq_refl eq_refl S1)|]. split.
    + intros y E. injection E as -> _. rewrite (fold_small 40) in S1 by reflexivity. discriminate S1.
    + unfold soft. cbn [map]. rewrite S1. split; discriminate.
Qed.
Lemma dirname_quiet d r : DirName cc d -> quiet (F d) r.
Proof.
  intros D. inversion D as [E|d1 b1 b2 f b3 b4 b5 S1 S2 B1 B2 B3 B4 B5 E]; subst; [exact I|].
  unfold sameCI in S1, S2. rewrite !map_app, S1, S2, !F_str by small.
  repeat (apply quiet_app); try (apply quiet_cold, blank_cold; assumption).
  all: cbn; repeat split; intros [[x E]|[x E]]; discriminate E.
Qed.

Lemma blank_soft b s : blank cc b -> soft s -> soft (b ++ s).
Proof.
  intros B N. inversion B as [|c b' C _ E]; subst; [exact N|]. unfold soft. cbn. rewrite (BLANK c C).
  split; intros ->; rewrite (ok_space cc OK) in C by reflexivity; discriminate.
Qed.

Lemma opening_match q o close dir : Opening cc q o close -> (forall q, quote q -> ~ In q dir) ->
  exists par b, lastMatch cc (o ++ dir) = Some (par, b, q) /\ close = q :: (if par then b ++ [41%N] else []) ++ [59%N].
Proof.
  intros O ND. inversion O as [k kw b d I S B D Q E1 E2|k kw b1 b2 d I S B1 B2 D Q E1 E2]; subst.
  - exists false, []. split; [|reflexivity]. rewrite <- !app_assoc. cbn [app].
    destruct (dirname_head d q dir D Q) as (H1 & H2 & H3). pose proof (blank_soft b _ B H3) as SF.
    assert (lastMatch cc (b ++ d ++ q :: dir) = None) as LN.
    { apply last_quiet; [apply quiet_cold, blank_cold, B|]. apply last_quiet; [apply dirname_quiet, D|].
      apply (last_quiet [q] dir); [|apply last_noquote; exact ND]. apply quiet_cold. constructor; [|constructor].
      rewrite quote_fold by exact Q. destruct Q as [-> | ->]; split; discriminate. }
    pose proof (keyword_quiet k kw _ I S SF) as KQ. pose proof (keyword_match k kw _ I S SF) as KM.
    destruct k as [|c k]; [exfalso; unfold sameCI in S; repeat (destruct I as [<-|I]; [discriminate S|]); exact I|].
    cbn [app lastMatch]. cbn [map tl] in KQ. rewrite (last_quiet k _ KQ LN). cbn [app] in KM. rewrite KM. cbv zeta.
    rewrite (drop_blank b _ B H1).
    assert (after1 40 (d ++ q :: dir) = None) as ->.
    { destruct (after1 40 (d ++ q :: dir)) as [y|] eqn:E; [|reflexivity]. apply after1_some in E. destruct (H2 y E). }
    pose proof (drop_blank [] _ (Forall_nil _) H1) as DB. cbn [app] in DB. rewrite DB, (dirname_part d q dir D Q).
    destruct Q as [-> | ->]; reflexivity.
  - exists true, b2. split; [|cbn; rewrite <- app_assoc; reflexivity]. rewrite <- !app_assoc. cbn [app].
    destruct (dirname_head d q dir D Q) as (H1 & H2 & H3).
    assert (soft (str "(" ++ b2 ++ d ++ q :: dir)) as SP by (unfold soft; cbn; rewrite fold_small by reflexivity; split; discriminate).
    pose proof (blank_soft b1 _ B1 SP) as SF.
    assert (lastMatch cc (b1 ++ str "(" ++ b2 ++ d ++ q :: dir) = None) as LN.
    { apply last_quiet; [apply quiet_cold, blank_cold, B1|].
      apply last_quiet; [apply quiet_cold; constructor; [|constructor]; rewrite fold_small by reflexivity; split; discriminate|].
      apply last_quiet; [apply quiet_cold, blank_cold, B2|]. apply last_quiet; [apply dirname_quiet, D|].
      apply (last_quiet [q] dir); [|apply last_noquote; exact ND]. apply quiet_cold. constructor; [|constructor].
      rewrite quote_fold by exact Q. destruct Q as [-> | ->]; split; discriminate. }
    pose proof (keyword_quiet k kw _ I S SF) as KQ. pose proof (keyword_match k kw _ I S SF) as KM.
    destruct k as [|c k]; [exfalso; unfold sameCI in S; repeat (destruct I as [<-|I]; [discriminate S|]); exact I|].
    cbn [app lastMatch]. cbn [map tl] in KQ. cbn [str app] in *. rewrite (last_quiet k _ KQ LN). rewrite KM. cbv zeta.
    rewrite (drop_blank b1 _ B1) by (cbn; apply space_not; reflexivity). rewrite after1_same.
    rewrite (drop_blank b2 _ B2 H1), (spaces_blank b2 _ B2 H1), (dirname_part d q dir D Q).
    destruct Q as [-> | ->]; reflexivity.
Qed.

(** *** What is behind *)
Lemma removed_old q old s pos : ~ In q old -> Forall (fun c => isSpace cc c = false) old -> removed cc q (old ++ s) pos = removed cc q s (List.length old + pos).
Proof.
  revert pos. induction old as [|c old IH]; intros pos N H; [reflexivity|]. inversion H as [|? ? H1 H2]; subst. cbn.
  rewrite H1. destruct (N.eqb_spec c q) as [->|_]; [destruct N; left; reflexivity|]. rewrite IH; [f_equal; lia|intros X; apply N; right; exact X|exact H2].
Qed.
Lemma line_long s n : n <= lineLength s -> Nat.min n (lineLength s) = n.
Proof. lia. Qed.
Lemma line_app a s : ~ In 10%N a -> lineLength (a ++ s) = List.length a + lineLength s.
Proof.
  induction a as [|c a IH]; intros H; [reflexivity|]. cbn. destruct (N.eqb_spec c 10) as [->|_]; [destruct H; left; reflexivity|].
  rewrite IH by (intros X; apply H; right; exact X). reflexivity.
Qed.
Lemma nospace_line a : Forall (fun c => isSpace cc c = false) a -> ~ In 10%N a.
Proof. intros H X. rewrite Forall_forall in H. apply H in X. rewrite (ok_space cc OK) in X by reflexivity. discriminate. Qed.
Lemma semicolon_end b s i pos : Forall (fun c => (isSpace cc c = true /\ c <> 10%N) \/ c = 41%N) b -> semicolon cc (b ++ 59%N :: s) i pos = i + List.length b + 1.
Proof.
  intros H. revert i. induction H as [|c b C _ IH]; intros i; cbn; [lia|].
  assert (N.eqb c 59 = false) as ->.
  { apply N.eqb_neq. intros ->. destruct C as [[C _]|C]; [|discriminate]. rewrite (ok_space cc OK) in C by reflexivity. discriminate. }
  assert ((negb (isSpace cc c) && negb (N.eqb c 41))%bool = false) as ->.
  { destruct C as [[C _]| ->]; [rewrite C; reflexivity|rewrite andb_false_r; reflexivity]. }
  rewrite IH. lia.
Qed.
Lemma skip_app {A} (a s : list A) n : n = List.length a -> skipn n (a ++ s) = s.
Proof. intros ->. rewrite skipn_app, skipn_all, Nat.sub_diag. reflexivity. Qed.

Lemma behind_removed q after rest : quote q -> Behind cc q after rest ->
  skipn (Nat.min (removed cc q after 0) (lineLength after)) after = rest.
Proof.
  intros Q B. inversion B as [old r N S R E1 E2|old b r N S C E1 E2]; subst.
  - rewrite removed_old by assumption. assert (removed cc q rest (List.length old + 0) = List.length old) as ->.
    { destruct R as [->|(c & x & -> & X)]; cbn; [lia|]. rewrite X. lia. }
    rewrite line_long; [apply skip_app; reflexivity|]. rewrite line_app by (apply nospace_line; exact S). lia.
  - rewrite removed_old by assumption. cbn [app removed]. rewrite quote_nospace, N.eqb_refl by exact Q.
    change (str ";" ++ rest) with (59%N :: rest). rewrite semicolon_end by exact C.
    assert (~ In 10%N (old ++ q :: b ++ [59%N])) as NL.
    { intros X. apply in_app_or in X. destruct X as [X|[->|X]]; [exact (nospace_line old S X)|destruct Q; discriminate|].
      apply in_app_or in X. destruct X as [X|[X|[]]]; [|discriminate]. rewrite Forall_forall in C. destruct (C _ X) as [[_ Y]|Y]; [congruence|discriminate]. }
    replace (old ++ q :: b ++ 59%N :: rest) with ((old ++ q :: b ++ [59%N]) ++ rest) by (rewrite <- app_assoc; cbn; rewrite <- app_assoc; reflexivity).
    rewrite line_app by exact NL. rewrite Nat.min_l; [apply skip_app|]; rewrite app_length; cbn; rewrite app_length; cbn; lia.
Qed.

Lemma opening_quote q o close : Opening cc q o close -> quote q.
Proof. intros O. inversion O; assumption. Qed.
Lemma execute_text pre q o close dir after rest i : Opening cc q o close -> (forall q, quote q -> ~ In q dir) -> Behind cc q after rest ->
  execute cc (pre ++ o ++ dir) after i = pre ++ o ++ dir ++ entry i ++ close ++ rest.
Proof.
  intros O ND B. destruct (opening_match q o close dir O ND) as (par & b & L & ->).
  unfold execute, newText, closing. rewrite (last_app pre _ _ L), (behind_removed q after rest (opening_quote _ _ _ O) B).
  unfold entry. change (str "/") with [47%N]. rewrite <- !app_assoc. cbn [app]. rewrite <- ?app_assoc. reflexivity.
Qed.
Lemma cursor_text before n rest : firstn (cursorAfter before {| iname := n; idir := true |}) (before ++ (n ++ str "/") ++ rest) = before ++ n ++ str "/".
Proof.
  unfold cursorAfter. cbn [iname]. change (str "/") with [47%N]. rewrite app_assoc.
  rewrite firstn_app, firstn_all2 by (rewrite !app_length; cbn; lia).
  replace (_ - _) with 0 by (rewrite !app_length; cbn; lia). cbn. rewrite app_nil_r. reflexivity.
Qed.
End Text.
