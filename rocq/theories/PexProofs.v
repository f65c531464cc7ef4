(** The parser reads every expression back as it was written: the levels. *)
From Coq Require Import List Bool NArith ZArith Lia Arith.
From Verif Require Import Chars LexModel ParseModel ParseSpec ParseProofs PexSpec.
Import ListNotations.
Open Scope nat_scope.

Definition ladder : list NT :=
  [n_expr; n_logicalOrExpression; n_logicalXorExpression; n_logicalAndExpression; n_printExpression;
   n_assignmentExpression; n_conditionalExpression; n_nullCoalesceExpression; n_booleanOrExpression;
   n_booleanAndExpression; n_bitOrExpression; n_bitXorExpression; n_bitAndExpression; n_equalityExpression;
   n_relationalExpression; n_shiftExpression; n_additiveExpression; n_multiplicativeExpression;
   n_unaryExpression; n_unaryExpressionNotPlusminus; n_varExpression; n_varExpressionNormal].
Definition ntOf (l : nat) : NT := nth l ladder n_varExpressionNormal.

(** The level at which the grammar has an operator. *)
Definition gOp (o : binop) : nat := match o with OExp => 17 | _ => opLevel o end.
(** The tokens that continue an expression of level [l]. *)
Definition cont (l : nat) : N :=
  setOf ([T_BACKSLASH; T_LBRACKET; T_LBRACE; T_LPAREN; T_OBJECT_OPERATOR; T_PAAMAYIM_NEKUDOTAYIM]
         ++ (if l <=? 19 then [T_INC; T_DEC] else [])
         ++ map opTok (filter (fun o => l <=? gOp o) allBin)
         ++ (if l <=? 14 then [T_INSTANCEOF] else [])
         ++ (if l <=? 6 then [T_QUESTION] else [])
         ++ (if l <=? 5 then map asgTok allAsg else [])
         ++ (if l <=? 4 then T_DOUBLE_ARROW :: filter (fun k => mem k (first (IN n_printExpression))) allToks else [])).
Definition stops (l : nat) (r : list Tok) : Prop := mem (hd T_EOF r) (cont l) = false.

(** The tokens an expression of a level begins with. *)
Definition atoms : list Tok :=
  [T_VARIABLE; T_LNUMBER; T_LPAREN; T_STRING; T_DNUMBER; T_CONSTANT_ENCAPSED_STRING; T_LINE; T_DIR; T_FILE; T_CLASS_C; T_TRAIT_C;
   T_METHOD_C; T_FUNC_C; T_NAMESPACE_C; T_START_NOWDOC; T_DOUBLE_QUOTE; T_START_HEREDOC; T_BACKTICK; T_ISSET; T_EMPTY; T_NEW; T_CLONE; T_FUNCTION].
Definition headTable : list (nat * list Tok) :=
  [(21, atoms); (20, [T_ARRAY; T_LBRACKET; T_YIELD; T_YIELD_FROM]); (19, [T_INC; T_DEC]);
   (18, map unTok allUn ++ [T_EXIT; T_EVAL; T_LIST; T_INCLUDE; T_INCLUDE_ONCE; T_REQUIRE; T_REQUIRE_ONCE]); (4, [T_PRINT])].
Definition heads (l : nat) : list Tok := flat_map (fun p => if l <=? fst p then snd p else []) headTable.

Lemma In_allToks : forall k, In k allToks.
Proof. intros k. eapply nth_error_In. apply pid_nth. Qed.
Lemma forall_tok : forall f : Tok -> bool, forallb f allToks = true -> forall k, f k = true.
Proof. intros f H k. rewrite forallb_forall in H. apply H, In_allToks. Qed.

Definition below (n : nat) : list nat := seq 0 n.
Lemma forall_level : forall n (f : nat -> bool), forallb f (below n) = true -> forall l, l < n -> f l = true.
Proof. intros n f H l L. rewrite forallb_forall in H. apply H. apply in_seq. lia. Qed.

Lemma implb_use : forall a b, implb a b = true -> a = true -> b = true.
Proof. intros a b H ->. exact H. Qed.
Lemma contChecked : forallb (fun l => forallb (fun k => implb (mem k (cont (S l))) (mem k (cont l))) allToks) (below 21) = true.
Proof. vm_compute. reflexivity. Qed.
Lemma cont_S : forall l k, l < 21 -> mem k (cont (S l)) = true -> mem k (cont l) = true.
Proof.
  intros l k L M. pose proof (forall_level _ _ contChecked) as A. cbv beta in A. specialize (A l L).
  pose proof (forall_tok _ A k) as B. cbv beta in B. exact (implb_use _ _ B M).
Qed.
Lemma stops_S : forall l r, l < 21 -> stops l r -> stops (S l) r.
Proof.
  intros l r L St. unfold stops in *. destruct (mem (hd T_EOF r) (cont (S l))) eqn:E; [|reflexivity].
  rewrite (cont_S _ _ L E) in St. discriminate.
Qed.
Lemma stops_le : forall l l' r, l <= l' -> l' <= 21 -> stops l r -> stops l' r.
Proof.
  intros l l' r H. induction H as [|m H IH]; intros L St; [exact St|]. apply stops_S; [lia|]. apply IH; [lia|exact St].
Qed.
Lemma heads_S : forall l k, In k (heads (S l)) -> In k (heads l).
Proof.
  intros l k H. unfold heads in *. rewrite in_flat_map in *. destruct H as (p & HP & H). exists p. split; [exact HP|].
  destruct (S l <=? fst p) eqn:E; [|contradiction]. apply Nat.leb_le in E.
  replace (l <=? fst p) with true by (symmetry; apply Nat.leb_le; lia). exact H.
Qed.
Lemma heads_le : forall l l' k, l <= l' -> In k (heads l') -> In k (heads l).
Proof. intros l l' k H. induction H; intros I0; [exact I0|]. apply IHle, heads_S, I0. Qed.

(** Every level is entered with one of its heads. *)
Lemma headChecked : forallb (fun l => forallb (fun k => nullable (rule (ntOf l)) || mem k (first (rule (ntOf l)))) (heads l)) (below 22) = true.
Proof. vm_compute. reflexivity. Qed.
Lemma forallb_In : forall (A : Type) (f : A -> bool) l x, forallb f l = true -> In x l -> f x = true.
Proof. intros A f l x H. rewrite forallb_forall in H. apply H. Qed.
Lemma enters_head : forall l s, l <= 21 -> In (yytoken s) (heads l) -> enters (rule (ntOf l)) s = true.
Proof.
  intros l s L H. unfold enters. assert (L' : l < 22) by lia.
  pose proof (forall_level _ _ headChecked) as A. cbv beta in A. specialize (A l L').
  pose proof (forallb_In _ _ _ _ A H) as B. cbv beta in B. exact B.
Qed.

Section Levels.
Variable rs : Gen.
Context {Fs : Functions}.

Lemma Runs_seq_ok : forall a b s t1 s1 t2 s2, Runs rs a s (Ok t1 s1) -> Runs rs b s1 (Ok t2 s2) ->
  Runs rs (ISeq a b) s (Ok (t1 ++ t2) s2).
Proof. intros. exact (Runs_seq rs _ _ _ _ _ _ H H0). Qed.
Lemma Runs_star_ok : forall a s t1 s1 t2 s2, mem (yytoken s) (first a) = true ->
  Runs rs a s (Ok t1 s1) -> Runs rs (IStar a) s1 (Ok t2 s2) -> Runs rs (IStar a) s (Ok (t1 ++ t2) s2).
Proof. intros. exact (Runs_star_go rs _ _ _ _ _ H H0 H1). Qed.
Lemma Runs_list_ok : forall a sep s t1 s1 t2 s2, Runs rs a s (Ok t1 s1) -> teq (yytoken s1) sep = true ->
  Runs rs (IList a sep None) (yylex s1) (Ok t2 s2) ->
  Runs rs (IList a sep None) s (Ok (t1 ++ Leaf sep (pos s1) :: t2) s2).
Proof. intros. exact (Runs_list_go rs _ _ None _ _ _ _ H H0 eq_refl H1). Qed.
Lemma Runs_tok : forall k s, yytoken s = k -> Runs rs (IT k) s (Ok [Leaf k (pos s)] (yylex s)).
Proof. intros k s H. pose proof (Runs_T rs k s) as R. rewrite H, teq_refl in R. exact R. Qed.

(** [s'] is [s] after an expression, [r] is left; [iv]: it was a variable. *)
Definition post (s : PS) (r : list Tok) (iv : bool) (s' : PS) : Prop :=
  rest s' = r /\ problems s' = problems s /\ vst s' = Normal /\ blocked s' = blocked s
  /\ (iv = true -> isVar s' = true).
(** At every state where the text [w] comes next, followed by [r], rule [l] reads [e]. *)
Definition Reads (l : nat) (w : list Tok) (e : ex) (iv : bool) (r : list Tok) : Prop :=
  forall s, rest s = w ++ r -> vst s = Normal ->
  exists t s', Runs rs (IN (ntOf l)) s (Ok [t] s') /\ read t = VEx e /\ post s r iv s'.

Lemma yylex_rest : forall s k r, rest s = k :: r ->
  rest (yylex s) = r /\ problems (yylex s) = problems s /\ vst (yylex s) = vst s /\ blocked (yylex s) = blocked s
  /\ isVar (yylex s) = isVar s /\ pos (yylex s) = S (pos s).
Proof. intros s k r H. unfold yylex. rewrite H. cbn. repeat split; reflexivity. Qed.
Lemma yytoken_hd : forall s r, rest s = r -> yytoken s = hd T_EOF r.
Proof. intros s r H. unfold yytoken, la. rewrite H. now destruct r. Qed.
Lemma hd_app : forall (w r : list Tok) k, w <> [] -> hd k (w ++ r) = hd k w.
Proof. intros [|x w] r k H; [congruence|reflexivity]. Qed.

Definition starts (l : nat) (w : list Tok) : Prop := w <> [] /\ In (hd T_EOF w) (heads l).
Lemma starts_tok : forall l w r s, starts l w -> rest s = w ++ r -> In (yytoken s) (heads l).
Proof. intros l w r s [N I0] R. rewrite (yytoken_hd _ _ R), hd_app by exact N. exact I0. Qed.
Lemma starts_le : forall l l' w, l <= l' -> starts l' w -> starts l w.
Proof. intros l l' w L [N I0]. split; [exact N|]. eapply heads_le; eassumption. Qed.

(** The levels that are lists: or, xor, and, ||, &&, |, ^, &. *)
Definition listLevel (l : nat) : bool := existsb (Nat.eqb l) [1; 2; 3; 8; 9; 10; 11; 12].
Definition sepOf (l : nat) : Tok :=
  match l with
  | 1 => T_LOGICAL_OR | 2 => T_LOGICAL_XOR | 3 => T_LOGICAL_AND | 7 => T_NULL_COALESCE | 8 => T_BOOLEAN_OR
  | 9 => T_BOOLEAN_AND | 10 => T_BIT_OR | 11 => T_BIT_XOR | _ => T_BIT_AND
  end.
Lemma level_cases : forall l, listLevel l = true -> In l [1; 2; 3; 8; 9; 10; 11; 12].
Proof. intros l H. apply existsb_exists in H as (x & I0 & E). apply Nat.eqb_eq in E. now subst x. Qed.
Lemma rule_list : forall l, listLevel l = true \/ l = 7 -> rule (ntOf l) = IList (IN (ntOf (S l))) (sepOf l) None.
Proof.
  intros l [H| ->]; [|reflexivity]. apply level_cases in H. cbn in H.
  repeat (destruct H as [<-|H]; [reflexivity|]). contradiction.
Qed.

(** What is to be known about functions without a name: how they begin, and that the parser reads them. *)
Definition funBegins (w : list Tok) : Prop :=
  (exists r, w = T_FUNCTION :: T_LPAREN :: r) \/ (exists r, w = T_FUNCTION :: T_BIT_AND :: T_LPAREN :: r).
Class FunctionsRead : Prop := functions_read : forall f, funOk f = true -> funBegins (funText f) /\
  forall r s, rest s = funText f ++ r -> vst s = Normal -> exists t s', Runs rs (IN n_closure) s (Ok [t] s')
    /\ read t = VEx (EClosure f) /\ rest s' = r /\ problems s' = problems s /\ vst s' = Normal /\ blocked s' = blocked s.

(** Operands of level [S l] with operators of level [l] between them. *)
Definition piece := (Tok * list Tok * ex)%type.
Definition chainText (ps : list piece) : list Tok := flat_map (fun p => fst (fst p) :: snd (fst p)) ps.
Definition chainVals (ps : list piece) : list val := flat_map (fun p => [VTok (fst (fst p)); VEx (snd p)]) ps.
Definition chainRests (ps : list piece) : list val := map (fun p => VRest (fst (fst p)) (snd p)) ps.

(** [w] is a text of [e] for level [l], whatever comes behind it that does not go on with it. *)
Definition Good (l : nat) (w : list Tok) (e : ex) (iv : bool) : Prop :=
  starts l w /\ forall r, stops l r -> Reads l w e iv r.
Definition goodPiece (l : nat) (p : piece) : Prop := Good (S l) (snd (fst p)) (snd p) false.

Lemma list_reads : forall l, (listLevel l = true \/ l = 7) -> forall (ps : list piece) w e iv r s,
  Good (S l) w e iv -> Forall (goodPiece l) ps -> Forall (fun p => fst (fst p) = sepOf l) ps ->
  rest s = w ++ chainText ps ++ r -> vst s = Normal -> stops l r ->
  exists ts s', Runs rs (IList (IN (ntOf (S l))) (sepOf l) None) s (Ok ts s')
    /\ map read ts = VEx e :: chainVals ps
    /\ post s r (match ps with [] => iv | _ => false end) s'.
Proof.
  intros l HL. assert (L : l < 21).
  { destruct HL as [H| ->]; [|lia]. apply level_cases in H. cbn in H. lia. }
  assert (SEP : mem (sepOf l) (cont (S l)) = false /\ sepOf l <> T_EOF /\ mem (sepOf l) (cont l) = true).
  { destruct HL as [H| ->]; [|split; [vm_compute; reflexivity|split; [discriminate|vm_compute; reflexivity]]]. apply level_cases in H. cbn in H.
    repeat (destruct H as [<-|H]; [split; [vm_compute; reflexivity|split; [discriminate|vm_compute; reflexivity]]|]). contradiction. }
  destruct SEP as (SEP1 & SEP2 & SEP3).
  induction ps as [|[[k1 w1] e1] ps IH]; intros w e iv r s W PS PK R V ST.
  - cbn [chainText flat_map app] in R. destruct (proj2 W r (stops_S _ _ L ST) s R V) as (t & s' & RU & RD & PO).
    exists [t], s'. split; [|split; [cbn; now rewrite RD|exact PO]].
    apply Runs_list_stop; [exact RU|]. destruct PO as (PR & _). rewrite (yytoken_hd _ _ PR). apply teq_neq. intros E.
    unfold stops in ST. rewrite E in ST. congruence.
  - inversion PS as [|x y P1 PS']; subst x y. inversion PK as [|x y K1 PK']; subst x y. cbn [fst snd] in P1, K1. subst k1.
    unfold goodPiece in P1. cbn [fst snd] in P1.
    cbn [chainText flat_map fst snd] in R. fold (chainText ps) in R. cbn [app] in R. rewrite <- app_assoc in R.
    destruct (proj2 W (sepOf l :: w1 ++ chainText ps ++ r) SEP1 s R V) as (t & s1 & RU & RD & PR & PP & PV & PB & _).
    destruct (yylex_rest _ _ _ PR) as (Y1 & Y2 & Y3 & Y4 & _).
    destruct (IH w1 e1 false r (yylex s1) P1 PS' PK' Y1 ltac:(congruence) ST) as (ts & s' & RU2 & RD2 & Q1 & Q2 & Q3 & Q4 & _).
    exists ([t] ++ Leaf (sepOf l) (pos s1) :: ts), s'. split; [|split].
    + eapply Runs_list_ok; [exact RU| |exact RU2]. rewrite (yytoken_cons _ _ _ PR). apply teq_refl.
    + cbn. rewrite RD, RD2. reflexivity.
    + repeat split; try congruence; discriminate.
Qed.

Lemma read_node : forall n a ch b, n <> n_closure -> read (Node n a ch b) = readNode n (map read ch).
Proof. intros n a ch b H. cbn [read]. destruct n; try reflexivity. congruence. Qed.
Lemma nt_not : forall l, ntOf l <> n_closure.
Proof. intros l. do 22 (destruct l as [|l]; [discriminate|]). unfold ntOf, ladder. cbn [nth]. destruct l; discriminate. Qed.
Definition isClosure (n : NT) : bool := match n with n_closure => true | _ => false end.
Lemma isClosure_no : forall n, isClosure n = false -> n <> n_closure.
Proof. intros n H E. subst n. discriminate H. Qed.
Lemma Runs_level : forall l s ts s', l <= 21 -> In (yytoken s) (heads l) -> Runs rs (rule (ntOf l)) s (Ok ts s') ->
  Runs rs (IN (ntOf l)) s (Ok [Node (ntOf l) (pos s) ts (pos s')] s').
Proof. intros l s ts s' L H R. apply Runs_N_ok; [now apply enters_head|exact R]. Qed.

(** What has to be shown for a text of level [l]. *)
Lemma good_intro : forall l w e iv, l <= 21 -> starts l w ->
  (forall r s, stops l r -> rest s = w ++ r -> vst s = Normal ->
   exists ts s', Runs rs (rule (ntOf l)) s (Ok ts s') /\ readNode (ntOf l) (map read ts) = VEx e /\ post s r iv s') ->
  Good l w e iv.
Proof.
  intros l w e iv L S0 H. split; [exact S0|]. intros r ST s R V. destruct (H r s ST R V) as (ts & s' & RU & RD & PO).
  eexists. exists s'. split; [apply Runs_level; [exact L|eapply starts_tok; eassumption|exact RU]|]. split; [rewrite (read_node _ _ _ _ (nt_not l)); exact RD|exact PO].
Qed.

(** What comes next does not begin [i]. *)
Lemma not_in : forall k a b, N.ldiff a b = 0%N -> mem k b = false -> mem k a = false.
Proof.
  intros k a b H B. unfold mem in *. destruct (N.testbit a (pid k)) eqn:A; [|reflexivity].
  assert (X : N.testbit (N.ldiff a b) (pid k) = true) by (rewrite N.ldiff_spec, A, B; reflexivity). rewrite H, N.bits_0 in X. discriminate.
Qed.
Lemma no_enter : forall i s r l, rest s = r -> stops l r -> nullable i = false -> N.ldiff (first i) (cont l) = 0%N -> enters i s = false.
Proof.
  intros i s r l R S0 N0 D. unfold enters. rewrite N0, (yytoken_hd _ _ R). exact (not_in _ _ _ D S0).
Qed.
End Levels.
