(** Reading parts of a text: combinators. *)
From Coq Require Import List Bool NArith ZArith Lia Arith.
From Verif Require Import Chars LexModel ParseModel ParseSpec ParseProofs PexSpec PexProofs PexProofs2 PexProofs4 PexPath PexPath2 PexProofs5 PexEvery PexProofs6 StSpec.
Import ListNotations.
Open Scope nat_scope.

Section T.
Variable rs : Gen.
Context {Fs : Functions} {FsR : FunctionsRead rs}.

(** The kind of import stays, where that matters. *)
Definition keeps (o : option Imp) (s : PS) : Prop := match o with None => True | Some k => imp s = k end.
Definition TakesS (o : option Imp) (i : item) (w r : list Tok) (vs : list sv) : Prop :=
  forall s, rest s = w ++ r -> vst s = Normal -> keeps o s ->
  exists ts s', Runs rs i s (Ok ts s') /\ map readS ts = vs /\ calm s r s' /\ keeps o s'.

Lemma keeps_imp : forall o s s', imp s' = imp s -> keeps o s -> keeps o s'.
Proof. intros [k|] s s' E H; [cbn in *; congruence|exact I]. Qed.
Lemma calm_refl : forall s r, rest s = r -> vst s = Normal -> calm s r s.
Proof. intros s r R V. repeat split; assumption. Qed.
Lemma calm_trans : forall s r s1 r' s2, calm s r s1 -> calm s1 r' s2 -> calm s r' s2.
Proof. intros s r s1 r' s2 (A1 & A2 & A3 & A4) (B1 & B2 & B3 & B4). repeat split; congruence. Qed.
Lemma calm_lex : forall s k r, rest s = k :: r -> vst s = Normal -> calm s r (yylex s).
Proof. intros s k r R V. destruct (yylex_rest _ _ _ R) as (Y1 & Y2 & Y3 & Y4 & _). repeat split; congruence. Qed.
Lemma imp_lex : forall s, imp (yylex s) = imp s.
Proof. intros s. unfold yylex. now destruct (rest s). Qed.

Lemma ts_seq : forall o a b w1 w2 r v1 v2, TakesS o a w1 (w2 ++ r) v1 -> TakesS o b w2 r v2 ->
  TakesS o (ISeq a b) (w1 ++ w2) r (v1 ++ v2).
Proof.
  intros o a b w1 w2 r v1 v2 A B s R V K. rewrite <- app_assoc in R.
  destruct (A s R V K) as (t1 & s1 & RU1 & RD1 & C1 & K1). destruct (B s1 (proj1 C1) (proj1 (proj2 (proj2 C1))) K1) as (t2 & s2 & RU2 & RD2 & C2 & K2).
  exists (t1 ++ t2), s2. split; [eapply Runs_seq_ok; eassumption|]. split; [rewrite map_app; congruence|].
  split; [eapply calm_trans; eassumption|exact K2].
Qed.
Lemma ts_tok : forall o k r, TakesS o (IT k) [k] r [WTok k].
Proof.
  intros o k r s R V K. cbn [app] in R.
  exists [Leaf k (pos s)], (yylex s). split; [apply Runs_tok; exact (yytoken_cons _ _ _ R)|]. split; [reflexivity|].
  split; [eapply calm_lex; eassumption|]. eapply keeps_imp; [apply imp_lex|exact K].
Qed.
Lemma ts_eps : forall o r, TakesS o IEps [] r [].
Proof. intros o r s R V K. exists [], s. split; [apply Runs_eps|]. split; [reflexivity|]. split; [apply calm_refl; assumption|exact K]. Qed.
Lemma ts_seqt : forall o k b w r v, TakesS o b w r v -> TakesS o (ISeq (IT k) b) (k :: w) r (WTok k :: v).
Proof. intros o k b w r v B. apply (ts_seq o _ _ [k] w r [WTok k] v); [apply ts_tok|exact B]. Qed.
Lemma ts_seq0 : forall o a b w r v1 v2, TakesS o a [] (w ++ r) v1 -> TakesS o b w r v2 -> TakesS o (ISeq a b) w r (v1 ++ v2).
Proof. intros o a b w r v1 v2 A B. exact (ts_seq o a b [] w r v1 v2 A B). Qed.
Lemma ts_seqn : forall o a b w r v1 v2, TakesS o a w r v1 -> TakesS o b [] r v2 -> TakesS o (ISeq a b) w r (v1 ++ v2).
Proof. intros o a b w r v1 v2 A B. rewrite <- (app_nil_r w). apply ts_seq; assumption. Qed.
(** one value in front *)
Lemma ts_seqv : forall o a b w1 w2 r v v2, TakesS o a w1 (w2 ++ r) [v] -> TakesS o b w2 r v2 ->
  TakesS o (ISeq a b) (w1 ++ w2) r (v :: v2).
Proof. intros o a b w1 w2 r v v2 A B. exact (ts_seq o a b w1 w2 r [v] v2 A B). Qed.
Lemma ts_skip : forall o a b w r v, TakesS o a [] (w ++ r) [] -> TakesS o b w r v -> TakesS o (ISeq a b) w r v.
Proof. intros o a b w r v A B. exact (ts_seq o a b [] w r [] v A B). Qed.
Lemma ts_wrap : forall o i w r vs v, TakesS o i w r vs -> vs = v -> TakesS o i w r v.
Proof. intros o i w r vs v T <-. exact T. Qed.

Definition special (n : NT) : bool := match n with n_expr | n_variable => true | _ => false end.
Lemma ts_N : forall o n w r vs v, special n = false -> enters (rule n) (at_ (w ++ r)) = true ->
  TakesS o (rule n) w r vs -> nodeOf n vs = v -> TakesS o (IN n) w r [v].
Proof.
  intros o n w r vs v SP E T RN s R V K. destruct (T s R V K) as (ts & s' & RU & RD & C & K').
  eexists _, s'. split; [apply Runs_N_ok; [|exact RU]|split; [|split; [exact C|exact K']]].
  - unfold enters, yytoken, la in *. rewrite R. exact E.
  - cbn [map]. rewrite <- RN, <- RD. cbn [readS]. destruct n; try discriminate SP; reflexivity.
Qed.
Lemma ts_alt_l : forall o a b w r vs, test a (at_ (w ++ r)) = true -> TakesS o a w r vs -> TakesS o (IAlt a b) w r vs.
Proof.
  intros o a b w r vs E T s R V K. destruct (T s R V K) as (ts & s' & RU & C). exists ts, s'. split; [|exact C].
  apply Runs_alt_l; [rewrite test_at, R by exact V; exact E|exact RU].
Qed.
Lemma ts_alt_r : forall o a b w r vs, test a (at_ (w ++ r)) = false -> TakesS o b w r vs -> TakesS o (IAlt a b) w r vs.
Proof.
  intros o a b w r vs E T s R V K. destruct (T s R V K) as (ts & s' & RU & C). exists ts, s'. split; [|exact C].
  apply Runs_alt_r; [rewrite test_at, R by exact V; exact E|exact RU].
Qed.
Lemma ts_cond : forall o c a w r vs, TakesS o a w r vs -> TakesS o (ICond c a) w r vs.
Proof. intros o c a w r vs T s R V K. destruct (T s R V K) as (ts & s' & RU & C). exists ts, s'. split; [apply Runs_cond, RU|exact C]. Qed.
Lemma ts_star_stop : forall o a r, mem (hd T_EOF r) (first a) = false -> TakesS o (IStar a) [] r [].
Proof.
  intros o a r E s R V K. exists [], s. split; [|split; [reflexivity|split; [apply calm_refl; assumption|exact K]]].
  apply Runs_star_stop. rewrite (yytoken_hd _ _ R). exact E.
Qed.
Lemma ts_star_go : forall o a w1 w2 r v1 v2, mem (hd T_EOF (w1 ++ w2 ++ r)) (first a) = true ->
  TakesS o a w1 (w2 ++ r) v1 -> TakesS o (IStar a) w2 r v2 -> TakesS o (IStar a) (w1 ++ w2) r (v1 ++ v2).
Proof.
  intros o a w1 w2 r v1 v2 E A B s R V K. rewrite <- app_assoc in R.
  destruct (A s R V K) as (t1 & s1 & RU1 & RD1 & C1 & K1). destruct (B s1 (proj1 C1) (proj1 (proj2 (proj2 C1))) K1) as (t2 & s2 & RU2 & RD2 & C2 & K2).
  exists (t1 ++ t2), s2. split; [eapply Runs_star_ok; [rewrite (yytoken_hd _ _ R); exact E|exact RU1|exact RU2]|].
  split; [rewrite map_app; congruence|]. split; [eapply calm_trans; eassumption|exact K2].
Qed.
Lemma ts_many : forall o a (A : Type) (tx : A -> list Tok) (v : A -> sv) l r,
  (forall x l1 l2, l = l1 ++ x :: l2 -> mem (hd T_EOF (tx x ++ flat_map tx l2 ++ r)) (first a) = true /\ TakesS o a (tx x) (flat_map tx l2 ++ r) [v x]) ->
  mem (hd T_EOF r) (first a) = false -> TakesS o (IStar a) (flat_map tx l) r (map v l).
Proof.
  intros o a A tx v. induction l as [|x l IH]; intros r H E; [now apply ts_star_stop|].
  cbn [flat_map map]. destruct (H x [] l eq_refl) as [M T]. apply (ts_star_go o a (tx x) (flat_map tx l) r [v x]); [exact M|exact T|].
  apply IH; [|exact E]. intros y l1 l2 ->. now apply (H y (x :: l1) l2).
Qed.
Lemma ts_rollback : forall o a b w r vs, TakesS o a w r vs -> TakesS o (IRollback a b) w r vs.
Proof.
  intros o a b w r vs T s R V K. destruct (T (setBlocked s true) R V K) as (ts & s' & RU & RD & (A1 & A2 & A3 & A4) & K').
  exists ts, (setBlocked s' (blocked s)). split; [now apply Runs_rollback_ok|]. split; [exact RD|]. cbn in *. split; [repeat split; assumption|exact K'].
Qed.
Lemma ts_recover : forall o n w r vs, TakesS o (IN n) w r vs -> TakesS o (IRecover n) w r vs.
Proof.
  intros o n w r vs T s R V K. destruct (T (setBlocked s (blocked s && negb (unblocks rs))) R V K) as (ts & s' & RU & RD & (A1 & A2 & A3 & A4) & K').
  exists ts, (setBlocked s' (blocked s)). split; [exact (Runs_recover rs _ _ _ RU)|]. split; [exact RD|]. cbn in *. split; [repeat split; assumption|exact K'].
Qed.
Lemma ts_loop : forall o a stop w r vs, TakesS o a w r vs -> inStop (hd T_EOF r) stop = true -> TakesS o (ILoop a stop) w r vs.
Proof.
  intros o a stop w r vs T E s R V K. destruct (T s R V K) as (ts & s' & RU & RD & C & K'). exists ts, s'. split; [|auto].
  apply Runs_loop_stop; [exact RU|]. rewrite (yytoken_hd _ _ (proj1 C)). exact E.
Qed.
Lemma ts_peek : forall o k r, hd T_EOF r = k -> TakesS o (IPeek k) [] r [].
Proof.
  intros o k r E s R V K. exists [], s. split; [|split; [reflexivity|split; [apply calm_refl; assumption|exact K]]].
  pose proof (Runs_peek rs k s) as X. rewrite (yytoken_hd _ _ R) in X. cbn [app] in X. rewrite E in X. rewrite teq_refl in X. exact X.
Qed.

(** Lists with separators *)
Fixpoint inter (sep : Tok) (vs : list sv) : list sv :=
  match vs with [] => [] | [v] => [v] | v :: r => v :: WTok sep :: inter sep r end.
Lemma joined_cons : forall sep w l, l <> [] -> joined sep (w :: l) = w ++ sep :: joined sep l.
Proof. intros sep w [|x l] N; [congruence|reflexivity]. Qed.
Lemma inter_cons : forall sep w l, l <> [] -> inter sep (w :: l) = w :: WTok sep :: inter sep l.
Proof. intros sep w [|x l] N; [congruence|reflexivity]. Qed.
(** what follows an element *)
Definition behind_ (sep : Tok) (l : list (list Tok)) (r : list Tok) : list Tok :=
  match l with [] => r | _ => sep :: joined sep l ++ r end.
Lemma joined_behind : forall sep w l r, joined sep (w :: l) ++ r = w ++ behind_ sep l r.
Proof. intros sep w [|x l] r; [reflexivity|]. rewrite joined_cons by discriminate. cbn [behind_]. now rewrite <- app_assoc. Qed.
Lemma ts_sepBy : forall o a sep brk (A : Type) (tx : A -> list Tok) (v : A -> sv) l r, l <> [] ->
  (forall x l1 l2, l = l1 ++ x :: l2 -> TakesS o a (tx x) (behind_ sep (map tx l2) r) [v x]
     /\ match brk with None => True | Some b => hd T_EOF (tx x ++ behind_ sep (map tx l2) r) <> b end) ->
  hd T_EOF r <> sep -> TakesS o (IList a sep brk) (joined sep (map tx l)) r (inter sep (map v l)).
Proof.
  intros o a sep brk A tx v. induction l as [|x l IH]; intros r N H E; [congruence|]. intros s R V K.
  cbn [map] in R. rewrite joined_behind in R. destruct (H x [] l eq_refl) as [T _]. destruct (T s R V K) as (t1 & s1 & RU1 & RD1 & C1 & K1).
  destruct l as [|y l].
  - exists t1, s1. split; [|auto]. apply Runs_list_stop; [exact RU1|]. rewrite (yytoken_hd _ _ (proj1 C1)). apply teq_neq. exact E.
  - pose proof (proj1 C1) as R1. cbn [behind_ map] in R1. pose proof (calm_lex _ _ _ R1 (proj1 (proj2 (proj2 C1)))) as CL.
    assert (H' : forall z l1 l2, y :: l = l1 ++ z :: l2 -> TakesS o a (tx z) (behind_ sep (map tx l2) r) [v z]
       /\ match brk with None => True | Some b => hd T_EOF (tx z ++ behind_ sep (map tx l2) r) <> b end).
    { intros z l1 l2 EQ. apply (H z (x :: l1) l2). cbn. now rewrite EQ. }
    destruct (IH r ltac:(discriminate) H' E (yylex s1) (proj1 CL) (proj1 (proj2 (proj2 CL))) (keeps_imp _ _ _ (imp_lex s1) K1)) as (t2 & s2 & RU2 & RD2 & C2 & K2).
    exists (t1 ++ Leaf sep (pos s1) :: t2), s2. split; [|split; [|split]].
    + refine (Runs_list_go rs _ _ brk _ _ _ _ RU1 _ _ RU2).
      * rewrite (yytoken_cons _ _ _ R1). apply teq_refl.
      * destruct brk as [b|]; [|reflexivity]. unfold breaks. apply teq_neq. rewrite (yytoken_hd _ _ (proj1 CL)).
        destruct (H' y [] l eq_refl) as [_ B]. change (tx y :: map tx l) with (map tx (y :: l)). cbn [map]. now rewrite joined_behind.
    + change (map v (x :: y :: l)) with (v x :: map v (y :: l)). rewrite inter_cons by discriminate. rewrite map_app, RD1. cbn [map app readS] in *. rewrite RD2. reflexivity.
    + eapply calm_trans; [exact C1|]. eapply calm_trans; [exact CL|exact C2].
    + exact K2.
Qed.
(** A list where every element has the separator behind it. *)
Lemma ts_ended : forall o a sep b (A : Type) (tx : A -> list Tok) (v : A -> sv) l r, l <> [] ->
  (forall x l1 l2, l = l1 ++ x :: l2 -> TakesS o a (tx x) (sep :: flat_map (fun x => tx x ++ [sep]) l2 ++ r) [v x] /\ tx x <> [] /\ hd T_EOF (tx x) <> b) ->
  hd T_EOF r = b -> TakesS o (IList a sep (Some b)) (flat_map (fun x => tx x ++ [sep]) l) r (flat_map (fun x => [v x; WTok sep]) l).
Proof.
  intros o a sep b A tx v. induction l as [|x l IH]; intros r N H E; [congruence|]. intros s R V K.
  cbn [flat_map] in R. rewrite <- !app_assoc in R. destruct (H x [] l eq_refl) as (T & _ & _). destruct (T s R V K) as (t1 & s1 & RU1 & RD1 & C1 & K1).
  pose proof (proj1 C1) as R1. pose proof (calm_lex _ _ _ R1 (proj1 (proj2 (proj2 C1)))) as CL.
  destruct l as [|y l].
  - exists (t1 ++ [Leaf sep (pos s1)]), (yylex s1). split; [|split; [|split]].
    + apply Runs_list_break; [exact RU1|rewrite (yytoken_cons _ _ _ R1); apply teq_refl|].
      unfold breaks. rewrite (yytoken_hd _ _ (proj1 CL)). cbn [flat_map app]. rewrite E. apply teq_refl.
    + rewrite map_app, RD1. reflexivity.
    + eapply calm_trans; [exact C1|exact CL].
    + eapply keeps_imp; [apply imp_lex|exact K1].
  - assert (H' : forall z l1 l2, y :: l = l1 ++ z :: l2 -> TakesS o a (tx z) (sep :: flat_map (fun x => tx x ++ [sep]) l2 ++ r) [v z] /\ tx z <> [] /\ hd T_EOF (tx z) <> b).
    { intros z l1 l2 EQ. apply (H z (x :: l1) l2). cbn. now rewrite EQ. }
    destruct (IH r ltac:(discriminate) H' E (yylex s1) (proj1 CL) (proj1 (proj2 (proj2 CL))) (keeps_imp _ _ _ (imp_lex s1) K1)) as (t2 & s2 & RU2 & RD2 & C2 & K2).
    exists (t1 ++ Leaf sep (pos s1) :: t2), s2. split; [|split; [|split]].
    + refine (Runs_list_go rs _ _ (Some b) _ _ _ _ RU1 _ _ RU2).
      * rewrite (yytoken_cons _ _ _ R1). apply teq_refl.
      * unfold breaks. apply teq_neq. rewrite (yytoken_hd _ _ (proj1 CL)). destruct (H' y [] l eq_refl) as (_ & NE & B).
        cbn [flat_map]. rewrite <- !app_assoc. rewrite hd_app by exact NE. exact B.
    + rewrite map_app, RD1. cbn [map readS]. rewrite RD2. reflexivity.
    + eapply calm_trans; [exact C1|]. eapply calm_trans; [exact CL|exact C2].
    + exact K2.
Qed.

(** Parts of one kind *)
Definition isTokV (v : sv) : bool := match v with WTok _ => true | _ => false end.
Lemma pick_tok : forall A (f : sv -> option A) k l, pick f (WTok k :: l) = pick f l.
Proof. reflexivity. Qed.
Lemma pick_cons : forall A (f : sv -> option A) v a l, isTokV v = false -> f v = Some a -> pick f (v :: l) = option_map (cons a) (pick f l).
Proof. intros A f v a l N E. destruct v; try discriminate N; cbn [pick]; rewrite E; destruct (pick f l); reflexivity. Qed.
Lemma pick_app_tok : forall A (f : sv -> option A) l k, pick f (l ++ [WTok k]) = pick f l.
Proof.
  intros A f l k. induction l as [|v l IH]; [reflexivity|]. cbn [app]. destruct v; cbn [pick] in *; rewrite ?IH; reflexivity.
Qed.
Lemma pick_map : forall A (f : sv -> option A) (v : A -> sv) l, (forall x, isTokV (v x) = false /\ f (v x) = Some x) -> pick f (map v l) = Some l.
Proof.
  intros A f v l H. induction l as [|x l IH]; [reflexivity|]. destruct (H x) as [H1 H2]. cbn [map]. rewrite (pick_cons _ _ _ x) by assumption. now rewrite IH.
Qed.
Lemma pick_inter : forall A (f : sv -> option A) (v : A -> sv) sep l, (forall x, isTokV (v x) = false /\ f (v x) = Some x) -> pick f (inter sep (map v l)) = Some l.
Proof.
  intros A f v sep l H. induction l as [|x l IH]; [reflexivity|]. destruct (H x) as [H1 H2]. destruct l as [|y l].
  - cbn [map inter]. rewrite (pick_cons _ _ _ x) by assumption. reflexivity.
  - change (map v (x :: y :: l)) with (v x :: map v (y :: l)). rewrite inter_cons by discriminate.
    rewrite (pick_cons _ _ _ x) by assumption. rewrite pick_tok, IH. reflexivity.
Qed.
Lemma pick_ended : forall A (f : sv -> option A) (v : A -> sv) sep l, (forall x, isTokV (v x) = false /\ f (v x) = Some x) ->
  pick f (flat_map (fun x => [v x; WTok sep]) l) = Some l.
Proof.
  intros A f v sep l H. induction l as [|x l IH]; [reflexivity|]. destruct (H x) as [H1 H2].
  cbn [flat_map app]. rewrite (pick_cons _ _ _ x) by assumption. rewrite pick_tok, IH. reflexivity.
Qed.

(** Tests on the first token *)
Lemma enters_test : forall i s, (forall c a, i <> ICond c a) -> test i s = enters i s.
Proof. intros i s NC. destruct i; try reflexivity. exfalso. eapply NC. reflexivity. Qed.
Lemma test_in : forall i w r L, In (hd T_EOF w) L -> w <> [] -> (forall c a, i <> ICond c a) ->
  forallb (fun k => nullable i || mem k (first i)) L = true -> test i (at_ (w ++ r)) = true.
Proof.
  intros i w r L HI N NC F. rewrite enters_test by exact NC. unfold enters. rewrite (yytoken_hd (at_ (w ++ r)) (w ++ r) eq_refl), hd_app by exact N.
  exact (forallb_In _ _ _ _ F HI).
Qed.
Lemma test_out : forall i w r L, In (hd T_EOF w) L -> w <> [] -> (forall c a, i <> ICond c a) ->
  forallb (fun k => negb (nullable i || mem k (first i))) L = true -> test i (at_ (w ++ r)) = false.
Proof.
  intros i w r L HI N NC F. rewrite enters_test by exact NC. unfold enters. rewrite (yytoken_hd (at_ (w ++ r)) (w ++ r) eq_refl), hd_app by exact N.
  apply negb_true_iff. exact (forallb_In _ _ _ _ F HI).
Qed.
Lemma enter_in : forall i w r L, In (hd T_EOF w) L -> w <> [] ->
  forallb (fun k => nullable i || mem k (first i)) L = true -> enters i (at_ (w ++ r)) = true.
Proof.
  intros i w r L HI N F. unfold enters. rewrite (yytoken_hd (at_ (w ++ r)) (w ++ r) eq_refl), hd_app by exact N. exact (forallb_In _ _ _ _ F HI).
Qed.
Lemma enter_nullable : forall i w, nullable i = true -> enters i (at_ w) = true.
Proof. intros i w N. unfold enters. now rewrite N. Qed.

(** Expressions and variables *)
Lemma node_shape : forall n s ts s', Runs rs (IN n) s (Ok ts s') -> exists p ch b, ts = [Node n p ch b].
Proof.
  intros n s ts s' [f H]. destruct f as [|f]; [discriminate|]. cbn [run] in H. destruct (enters (rule n) s); [|discriminate].
  destruct (run rs f (rule n) s) as [[t s1|s1]|]; try discriminate. injection H as <- <-. eauto.
Qed.
Lemma good0 : forall e, plain e = true -> Good rs 0 (text e) e false.
Proof. intros e P. apply (fine_0 rs), (every rs), P. Qed.
Lemma ts_expr : forall e r, plain e = true -> stops 0 r -> TakesS None (IN n_expr) (text e) r [WEx e].
Proof.
  intros e r P ST s R V _. destruct (takes_expr rs _ _ _ (good0 e P) ST s R V) as (ts & s' & RU & RD & C). exists ts, s'. split; [exact RU|]. split; [|split; [exact C|exact I]].
  destruct (node_shape _ _ _ _ RU) as (p & ch & b & ->). cbn [map] in *. assert (E : read (Node n_expr p ch b) = VEx e) by congruence.
  cbn [readS]. now rewrite E.
Qed.
Lemma ts_variable : forall e r, plain e = true -> path e = true -> endsPath r -> TakesS None (IN n_variable) (text e) r [WEx e].
Proof.
  intros e r P PE ST s R V _. destruct (proj1 (proj2 (proj2 (every rs e P))) PE) as (b0 & g & gs & G & OK & GS & EW & EE & _). rewrite EW in R.
  destruct (takes_variable rs b0 g gs r G OK GS ST s R V) as (ts & s' & RU & RD & C). exists ts, s'. split; [exact RU|]. split; [|split; [exact C|exact I]].
  destruct (node_shape _ _ _ _ RU) as (p & ch & b & ->). cbn [map] in *. assert (E : read (Node n_variable p ch b) = VEx e) by congruence.
  cbn [readS]. now rewrite E.
Qed.
Lemma text_heads : forall e, plain e = true -> In (hd T_EOF (text e)) (heads 0) /\ text e <> [].
Proof. intros e P. exact (head0 rs _ _ _ (good0 e P)). Qed.
End T.
