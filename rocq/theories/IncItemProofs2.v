(** Proofs for IncItemModel.v: the files offered. *)
From Coq Require Import List Bool Arith NArith String Lia.
From Verif Require Import Chars IncItemModel IncItemSpec.
Import ListNotations.
Open Scope nat_scope.

(** ** Paths *)
Lemma split_slash a b cur : splitPath (a ++ 47%N :: b) cur = splitPath a cur ++ splitPath b [].
Proof.
  revert cur. induction a as [|c a IH]; intros cur; cbn.
  - destruct cur; reflexivity.
  - destruct (N.eqb c 47); [|apply IH]. destruct cur; rewrite IH; reflexivity.
Qed.
Lemma split_name n cur : ~ In 47%N n -> splitPath n cur = match cur ++ n with [] => [] | l => [l] end.
Proof.
  revert cur. induction n as [|c n IH]; intros cur H; cbn.
  - rewrite app_nil_r. destruct cur; reflexivity.
  - destruct (N.eqb_spec c 47) as [->|_]; [destruct H; left; reflexivity|]. rewrite IH by (intros X; apply H; right; exact X).
    rewrite <- app_assoc. cbn. destruct (cur ++ c :: n) eqn:E; [destruct cur; discriminate|reflexivity].
Qed.
Lemma split_name1 n : n <> [] -> ~ In 47%N n -> splitPath n [] = [n].
Proof. intros A B. rewrite split_name by exact B. cbn. destruct n; [congruence|reflexivity]. Qed.
Definition upTo (t : qstring) : Prop := t = [] \/ exists t', t = t' ++ str "/".
Lemma split_last t n : upTo t -> n <> [] -> ~ In 47%N n -> splitPath (t ++ n) [] = splitPath t [] ++ [n].
Proof.
  intros [->|[t' ->]] A B; [cbn; apply split_name1; assumption|]. change (str "/") with [47%N]. rewrite <- app_assoc. cbn [app].
  rewrite !split_slash, (split_name1 n) by assumption. cbn. rewrite app_nil_r. reflexivity.
Qed.
Lemma absolute_last t n : upTo t -> ~ In 47%N n -> absolute (t ++ n) = absolute t.
Proof.
  intros [->|[t' ->]] B; [|destruct t'; reflexivity]. destruct n as [|c n]; [reflexivity|]. cbn.
  apply N.eqb_neq. intros ->. apply B. left. reflexivity.
Qed.

Lemma clean_proper l acc : Forall proper l -> fold_left clean1 l acc = acc ++ l.
Proof.
  intros H. revert acc. induction H as [|n l (A & B & C & D) _ IH]; intros acc; [cbn; rewrite app_nil_r; reflexivity|].
  cbn [fold_left]. unfold clean1 at 2. destruct (eqs n (str "..")) eqn:E; [apply eqs_eq in E; congruence|].
  destruct (eqs n (str ".")) eqn:E2; [apply eqs_eq in E2; congruence|]. rewrite IH, <- app_assoc. reflexivity.
Qed.
Lemma path_eq dir t : Forall proper dir -> path dir t = fold_left clean1 (splitPath t []) (if absolute t then [] else dir).
Proof.
  intros H. unfold path, cleanPath. destruct (absolute t); [reflexivity|]. rewrite fold_left_app, (clean_proper dir []) by exact H. reflexivity.
Qed.
Lemma path_last dir t n : Forall proper dir -> upTo t -> n <> [] -> ~ In 47%N n -> path dir (t ++ n) = clean1 (path dir t) n.
Proof. intros H U A B. rewrite !path_eq, split_last, absolute_last, fold_left_app by assumption. reflexivity. Qed.
Lemma path_denotes dir t p : Forall proper dir -> Denotes dir t p -> path dir t = p.
Proof.
  intros H. induction 1 as [| |t p D IH NE|t p n D IH U A B C E|t p D IH U|t p D IH U].
  - rewrite path_eq by exact H. reflexivity.
  - rewrite path_eq by exact H. reflexivity.
  - rewrite path_eq in IH |- * by exact H. change (str "/") with [47%N]. rewrite split_slash. cbn [splitPath]. rewrite app_nil_r.
    replace (absolute (t ++ [47%N])) with (absolute t) by (destruct t; [congruence|reflexivity]). exact IH.
  - rewrite path_last, IH by assumption. unfold clean1. destruct (eqs n (str "..")) eqn:X; [apply eqs_eq in X; congruence|].
    destruct (eqs n (str ".")) eqn:Y; [apply eqs_eq in Y; congruence|]. reflexivity.
  - rewrite path_last, IH; try assumption; [reflexivity|discriminate|cbn; intros [X|[]]; discriminate].
  - rewrite path_last, IH; try assumption; [reflexivity|discriminate|cbn; intros [X|[X|[]]]; discriminate].
Qed.

Lemma ends_slash t : endsSlash (t ++ str "/") = true.
Proof. unfold endsSlash. rewrite rev_app_distr. reflexivity. Qed.
Lemma ends_name t n : proper n -> endsSlash (t ++ n) = false.
Proof.
  intros (A & B & _). unfold endsSlash. rewrite rev_app_distr. destruct (rev n) as [|c r] eqn:E.
  - apply (f_equal (@rev N)) in E. rewrite rev_involutive in E. cbn in E. congruence.
  - cbn. apply N.eqb_neq. intros ->. apply B. apply in_rev. rewrite E. left. reflexivity.
Qed.

Lemma base_typed dir folder word p : Forall proper dir -> typed folder word -> Denotes dir folder p ->
  base dir false (folder ++ word) = p /\
  (folder ++ word <> [] -> (if endsSlash (folder ++ word) then path dir (folder ++ word) else parent (path dir (folder ++ word))) = p).
Proof.
  intros H [U W] D. pose proof (path_denotes dir folder p H D) as P.
  assert (folder ++ word <> [] -> (if endsSlash (folder ++ word) then path dir (folder ++ word) else parent (path dir (folder ++ word))) = p) as K.
  { intros NE. destruct W as [->|W].
    - rewrite app_nil_r in NE |- *. destruct U as [->|[f ->]]; [congruence|]. rewrite ends_slash. exact P.
    - rewrite ends_name by exact W. destruct W as (A & B & C & E). rewrite path_last, P by assumption. unfold clean1.
      destruct (eqs word (str "..")) eqn:X; [apply eqs_eq in X; congruence|]. destruct (eqs word (str ".")) eqn:Y; [apply eqs_eq in Y; congruence|].
      unfold parent. apply removelast_last. }
  split; [|exact K]. unfold base. cbn [negb]. cbv zeta. destruct (folder ++ word) as [|c r] eqn:E.
  - apply app_eq_nil in E. destruct E as [-> ->]. exact P.
  - apply K. discriminate.
Qed.
Lemma base_dirname dir folder word p : Forall proper dir -> typed folder word -> absolute (folder ++ word) = false -> Denotes dir folder p ->
  base dir true (str "/" ++ folder ++ word) = p.
Proof.
  intros H T AB D. destruct (base_typed dir folder word p H T D) as [_ K]. change (str "/" ++ folder ++ word) with (47%N :: folder ++ word). unfold base. cbn [negb]. cbv zeta. cbn [absolute tl].
  change (N.eqb 47 47) with true. cbv iota.
  destruct (folder ++ word) as [|c r] eqn:E.
  - apply app_eq_nil in E. destruct E as [-> ->]. exact (path_denotes dir [] p H D).
  - assert (endsSlash (47%N :: c :: r) = endsSlash (c :: r)) as ->; [|apply K; discriminate].
    unfold endsSlash. cbn [rev]. destruct (rev r ++ [c]) as [|x y] eqn:X; [|reflexivity]. destruct (rev r); discriminate X.
Qed.

(** ** Folders *)
Section List_.
Variable pre : qstring -> qstring.
Hypothesis INJ : forall a b, pre a = pre b -> a = b.

Lemma memq_in x l : memq x l = true <-> In x l.
Proof.
  unfold memq. rewrite existsb_exists. split.
  - intros (y & A & B). apply eqs_eq in B. congruence.
  - intros A. exists x. split; [exact A|apply eqs_eq; reflexivity].
Qed.
Lemma offer_spec isDir l : forall added is a, offer pre isDir l added = (is, a) ->
  (forall n, In n a <-> In n added \/ In n l) /\
  (forall x, In x is -> exists n, x = {| iname := pre n; idir := isDir |} /\ In n l /\ ~ In n added) /\
  (forall n, In n l -> In n added \/ In {| iname := pre n; idir := isDir |} is) /\
  NoDup (map iname is).
Proof.
  induction l as [|m l IH]; intros added is a E; cbn in E.
  - injection E as <- <-. repeat split; cbn; try tauto. constructor.
  - destruct (memq m added) eqn:M.
    + destruct (IH _ _ _ E) as (A & B & C & D). apply memq_in in M. repeat split.
      * intros X. apply A in X. cbn. tauto.
      * intros [X|[->|X]]; apply A; tauto.
      * intros x X. destruct (B x X) as (n & -> & Y & Z). exists n. cbn. tauto.
      * intros n [->|X]; [left; exact M|exact (C n X)].
      * exact D.
    + destruct (offer pre isDir l (added ++ [m])) as [is1 a1] eqn:E1. injection E as <- <-.
      destruct (IH _ _ _ E1) as (A & B & C & D).
      assert (~ In m added) as NM by (intros X; apply memq_in in X; congruence). repeat split.
      * intros X. apply A in X. rewrite in_app_iff in X. cbn in X |- *. tauto.
      * intros X. apply A. rewrite in_app_iff. cbn in X |- *. tauto.
      * intros x [<-|X]; [exists m; cbn; auto|]. destruct (B x X) as (n & -> & Y & Z). exists n. rewrite in_app_iff in Z. cbn in Z |- *. tauto.
      * intros n [->|X]; [right; left; reflexivity|]. destruct (C n X) as [Y|Y]; [|right; right; exact Y].
        apply in_app_or in Y. destruct Y as [Y|[->|[]]]; [left; exact Y|right; left; reflexivity].
      * cbn. constructor; [|exact D]. intros X. apply in_map_iff in X. destruct X as (x & X1 & X2). destruct (B x X2) as (n & -> & _ & Z).
        cbn in X1. apply INJ in X1. subst n. apply Z. apply in_or_app. right. left. reflexivity.
Qed.

Variable expr : qstring.
Lemma listing_eq f r added : listing pre expr (Some f :: r) added =
  let '(a, added1) := offer pre false (files f) added in
  let '(b, added2) := offer pre true (folders f) added1 in
  a ++ b ++ (if (negb (inFolder f) && match expr with [] => true | _ => false end)%bool then [up] else []) ++ listing pre expr r added2.
Proof. reflexivity. Qed.

Lemma listing_sound l : forall added x, In x (listing pre expr l added) ->
  (x = up /\ expr = [] /\ exists f, In (Some f) l /\ inFolder f = false) \/
  exists n, iname x = pre n /\ ~ In n added /\ contents l n (idir x).
Proof.
  induction l as [|[f|] l IH]; intros added x; [intros []| |intros []]. rewrite listing_eq.
  destruct (offer pre false (files f) added) as [a added1] eqn:E1. destruct (offer pre true (folders f) added1) as [b added2] eqn:E2.
  destruct (offer_spec _ _ _ _ _ E1) as (A1 & B1 & C1 & D1). destruct (offer_spec _ _ _ _ _ E2) as (A2 & B2 & C2 & D2).
  intros H. apply in_app_or in H. destruct H as [H|H].
  { right. destruct (B1 x H) as (n & -> & Y & Z). exists n. split; [reflexivity|]. split; [exact Z|]. exists f. split; [left; reflexivity|exact Y]. }
  apply in_app_or in H. destruct H as [H|H].
  { right. destruct (B2 x H) as (n & -> & Y & Z). exists n. split; [reflexivity|]. split; [intros X; apply Z, A1; left; exact X|].
    exists f. split; [left; reflexivity|exact Y]. }
  apply in_app_or in H. destruct H as [H|H].
  { left. destruct (inFolder f) eqn:F; cbn in H; [destruct H|]. destruct expr; cbn in H; [|destruct H]. destruct H as [<-|[]].
    split; [reflexivity|]. split; [reflexivity|]. exists f. split; [left; reflexivity|exact F]. }
  destruct (IH added2 x H) as [(-> & E & g & G1 & G2)|(n & N1 & N2 & g & G1 & G2)].
  - left. split; [reflexivity|]. split; [exact E|]. exists g. split; [right; exact G1|exact G2].
  - right. exists n. split; [exact N1|]. split; [intros X; apply N2, A2; left; apply A1; left; exact X|]. exists g. split; [right; exact G1|exact G2].
Qed.
Lemma listing_complete l : Forall (fun f => f <> None) l -> forall added n d, contents l n d -> In n added \/ exists x, In x (listing pre expr l added) /\ iname x = pre n.
Proof.
  induction 1 as [|f l NF _ IH]; intros added n d (g & G1 & G2); [destruct G1|]. destruct f as [f|]; [|congruence]. rewrite listing_eq.
  destruct (offer pre false (files f) added) as [a added1] eqn:E1. destruct (offer pre true (folders f) added1) as [b added2] eqn:E2.
  destruct (offer_spec _ _ _ _ _ E1) as (A1 & B1 & C1 & D1). destruct (offer_spec _ _ _ _ _ E2) as (A2 & B2 & C2 & D2).
  assert (forall m, In m added2 -> In m added \/ exists x, (In x a \/ In x b) /\ iname x = pre m) as K.
  { intros m M. apply A2 in M. destruct M as [M|M].
    - apply A1 in M. destruct M as [M|M]; [left; exact M|]. destruct (C1 m M) as [X|X]; [left; exact X|right; eexists; split; [left; exact X|reflexivity]].
    - destruct (C2 m M) as [X|X]; [|right; eexists; split; [right; exact X|reflexivity]]. apply A1 in X. destruct X as [X|X]; [left; exact X|].
      destruct (C1 m X) as [Y|Y]; [left; exact Y|right; eexists; split; [left; exact Y|reflexivity]]. }
  assert (In n added2 \/ exists x, In x (listing pre expr l added2) /\ iname x = pre n) as Q.
  { destruct G1 as [G1|G1]; [|apply (IH added2 n d); exists g; auto]. injection G1 as ->. left. apply A2. destruct d; [right; exact G2|left; apply A1; right; exact G2]. }
  destruct Q as [Q|(x & X1 & X2)].
  - destruct (K n Q) as [X|(x & X & Y)]; [left; exact X|right]. exists x. split; [|exact Y]. rewrite !in_app_iff. tauto.
  - right. exists x. split; [|exact X2]. rewrite !in_app_iff. tauto.
Qed.
Lemma nodup_app {A} (a b : list A) : NoDup a -> NoDup b -> (forall x, In x a -> ~ In x b) -> NoDup (a ++ b).
Proof.
  induction 1 as [|x a N _ IH]; intros B D; [exact B|]. cbn. constructor.
  - intros X. apply in_app_or in X. destruct X as [X|X]; [exact (N X)|exact (D x (or_introl eq_refl) X)].
  - apply IH; [exact B|]. intros y Y. apply D. right. exact Y.
Qed.
Lemma filter_nodup l : NoDup (map iname l) -> NoDup (map iname (filter notUp l)).
Proof.
  induction l as [|x l IH]; cbn; intros H; [constructor|]. inversion H as [|? ? A B]; subst. destruct (notUp x); [|exact (IH B)].
  cbn. constructor; [|exact (IH B)]. intros X. apply A. apply in_map_iff in X. destruct X as (y & Y1 & Y2). apply filter_In in Y2. apply in_map_iff. exists y. tauto.
Qed.
Lemma listing_once l : forall added, NoDup (map iname (filter notUp (listing pre expr l added))).
Proof.
  induction l as [|[f|] l IH]; intros added; [constructor| |constructor]. rewrite listing_eq.
  destruct (offer pre false (files f) added) as [a added1] eqn:E1. destruct (offer pre true (folders f) added1) as [b added2] eqn:E2.
  destruct (offer_spec _ _ _ _ _ E1) as (A1 & B1 & C1 & D1). destruct (offer_spec _ _ _ _ _ E2) as (A2 & B2 & C2 & D2).
  rewrite !filter_app, !map_app. assert (forall P : bool, filter notUp (if P then [up] else []) = []) as -> by (intros []; reflexivity). cbn [map app].
  assert (forall y, In y (map iname (filter notUp (listing pre expr l added2))) -> forall n, y = pre n -> ~ In n added2) as K.
  { intros y Y n -> X. apply in_map_iff in Y. destruct Y as (x & Y1 & Y2). apply filter_In in Y2. destruct Y2 as [Y2 Y3].
    destruct (listing_sound l added2 x Y2) as [(-> & _)|(m & M1 & M2 & _)]; [discriminate Y3|]. rewrite M1 in Y1. apply INJ in Y1. congruence. }
  apply nodup_app; [apply filter_nodup, D1| |].
  - apply nodup_app; [apply filter_nodup, D2|apply IH|]. intros y Y Z. apply in_map_iff in Y. destruct Y as (x & <- & Y). apply filter_In in Y. destruct Y as [Y _].
    destruct (B2 x Y) as (n & -> & N1 & N2). apply (K _ Z n eq_refl). apply A2. right. exact N1.
  - intros y Y Z. apply in_map_iff in Y. destruct Y as (x & <- & Y). apply filter_In in Y. destruct Y as [Y _].
    destruct (B1 x Y) as (n & -> & N1 & N2). apply in_app_or in Z. destruct Z as [Z|Z].
    + apply in_map_iff in Z. destruct Z as (x & Z1 & Z2). apply filter_In in Z2. destruct Z2 as [Z2 _]. destruct (B2 x Z2) as (m & -> & M1 & M2).
      cbn in Z1. apply INJ in Z1. subst m. apply M2, A1. right. exact N1.
    + apply (K _ Z n eq_refl). apply A2. left. apply A1. right. exact N1.
Qed.
End List_.

Lemma prepend_inj a e x y : prepend a e x = prepend a e y -> x = y.
Proof. unfold prepend. destruct (a && negb (absolute e))%bool; [intros H; injection H as ->; reflexivity|auto]. Qed.

Lemma listing_exact pre expr l n d : (forall a b, pre a = pre b -> a = b) -> pre n <> str ".." -> Forall (fun f => f <> None) l -> apart l ->
  (In {| iname := pre n; idir := d |} (listing pre expr l []) <-> contents l n d).
Proof.
  intros INJ NU NN AP. split.
  - intros H. destruct (listing_sound pre INJ expr l [] _ H) as [(E & _)|(m & M1 & _ & M3)].
    + injection E as E _. destruct (NU E).
    + cbn in M1, M3. apply INJ in M1. subst m. exact M3.
  - intros C. destruct (listing_complete pre INJ expr l NN [] n d C) as [[]|(x & X1 & X2)].
    destruct (listing_sound pre INJ expr l [] x X1) as [(-> & _)|(m & M1 & _ & M3)]; [symmetry in X2; destruct (NU X2)|].
    rewrite X2 in M1. apply INJ in M1. subst m. destruct x as [xn xd]. cbn in X2, M3. subst xn.
    destruct d, xd; try exact X1; destruct (AP n); assumption.
Qed.

Lemma offered_plain at_ dir fo word p n d : Forall proper dir -> typed fo word -> Denotes dir fo p ->
  Forall (fun f => f <> None) (at_ p) -> apart (at_ p) -> proper n ->
  (In {| iname := n; idir := d |} (offered at_ dir false (fo ++ word)) <-> contents (at_ p) n d) /\ Denotes dir (fo ++ n) (p ++ [n]).
Proof.
  intros H T D NN AP (A & B & C & E). split.
  - unfold offered. destruct (base_typed dir fo word p H T D) as [-> _].
    apply (listing_exact (prepend false (fo ++ word)) (fo ++ word) (at_ p) n d (prepend_inj _ _)); assumption.
  - apply N_name; try assumption. apply T.
Qed.
Lemma offered_dirname at_ dir fo word p n d : Forall proper dir -> typed fo word -> absolute (fo ++ word) = false -> Denotes dir fo p ->
  Forall (fun f => f <> None) (at_ p) -> apart (at_ p) -> proper n ->
  (In {| iname := n; idir := d |} (offered at_ dir true (str "/" ++ fo ++ word)) <-> contents (at_ p) n d) /\ Denotes dir (fo ++ n) (p ++ [n]).
Proof.
  intros H T AB D NN AP (A & B & C & E). split.
  - unfold offered. rewrite (base_dirname dir fo word p H T AB D).
    apply (listing_exact (prepend true (str "/" ++ fo ++ word)) (str "/" ++ fo ++ word) (at_ p) n d (prepend_inj _ _)); assumption.
  - apply N_name; try assumption. apply T.
Qed.
Lemma offered_empty at_ dir n d : Forall proper dir -> Forall (fun f => f <> None) (at_ dir) -> apart (at_ dir) -> proper n ->
  (In {| iname := str "/" ++ n; idir := d |} (offered at_ dir true []) <-> contents (at_ dir) n d) /\ Denotes dir n (dir ++ [n]).
Proof.
  intros H NN AP (A & B & C & E). split.
  - apply (listing_exact (prepend true []) [] (at_ dir) n d (prepend_inj _ _)); try assumption. discriminate.
  - apply (N_name dir [] dir n); try assumption; [constructor|left; reflexivity].
Qed.
Lemma offered_once at_ dir a expr : NoDup (map iname (filter notUp (offered at_ dir a expr))).
Proof. apply listing_once. apply prepend_inj. Qed.
Lemma offered_only at_ dir a expr x : In x (offered at_ dir a expr) ->
  (x = up /\ expr = [] /\ exists f, In (Some f) (at_ (base dir a expr)) /\ inFolder f = false) \/
  exists n, contents (at_ (base dir a expr)) n (idir x) /\ (iname x = n \/ (a = true /\ iname x = str "/" ++ n)).
Proof.
  intros H. destruct (listing_sound _ (prepend_inj a expr) expr _ _ _ H) as [X|(n & N1 & _ & N3)]; [left; exact X|right].
  exists n. split; [exact N3|]. rewrite N1. unfold prepend. destruct a; cbn; [destruct (absolute expr); cbn; auto|auto].
Qed.
Lemma no_slash : forall dir c r, c <> 47%N -> ~ In 47%N r -> base dir true (c :: r) = removelast dir.
Proof.
  intros dir c r H N. unfold base. cbn [negb absolute]. cbv zeta. replace (N.eqb c 47) with false by (symmetry; apply N.eqb_neq; exact H).
  replace (endsSlash (c :: r)) with false; [reflexivity|]. unfold endsSlash. cbn [rev].
  destruct (rev r ++ [c]) as [|x y] eqn:E; [reflexivity|]. symmetry. apply N.eqb_neq. intros ->.
  assert (In 47%N (rev r ++ [c])) as X by (rewrite E; left; reflexivity). apply in_app_or in X.
  destruct X as [X|[X|[]]]; [apply N; apply in_rev; exact X|congruence].
Qed.
Lemma two_up : forall dir, Forall proper dir -> base dir false (str "..") = removelast (removelast dir) /\ Denotes dir (str "..") (removelast dir).
Proof.
  intros dir H. split; [|apply (N_up dir [] dir); [constructor|left; reflexivity]].
  change (base dir false (str "..")) with (removelast (path dir (str ".."))).
  rewrite (path_denotes dir (str "..") (removelast dir) H); [reflexivity|]. apply (N_up dir [] dir); [constructor|left; reflexivity].
Qed.
