(** Invariants of the lexer model: every handler preserves them, stays inside the buffer and
    makes progress.  Proof file: nothing here is part of the statement of a property except
    through LexSpec.v. *)
From Verif Require Export LexModel.
From Coq Require Import Sorted.
Open Scope nat_scope.

(** * Generic facts *)
Lemma peek_some (it : list N) k : k <= List.length it -> exists c, peek it k = Some c.
Proof.
  revert k; induction it as [|x it IH]; intros [|k] H; simpl in *; try lia; eauto.
  apply IH; lia.
Qed.

Lemma peek_skipn it k j : j <= List.length it -> peek (skipn j it) k = peek it (j + k).
Proof.
  revert j; induction it as [|x it IH]; intros [|j] H; simpl in *; auto; try lia.
  apply IH; lia.
Qed.

Lemma peek_lt it k c : peek it k = Some c -> c <> 0%N -> k < List.length it.
Proof.
  revert k; induction it as [|x it IH]; intros [|k] H Hc; simpl in *; try congruence; try lia.
  apply IH in H; auto; lia.
Qed.

Definition scanResult (p : N -> bool) (it : list N) (n : nat) : Prop :=
  n <= List.length it /\ Forall (fun c => p c = true) (firstn n it) /\
  (forall c, nth_error it n = Some c -> p c = false).

Lemma skipWhile_spec p it i :
  exists n, skipWhile p it i = (i + n, skipn n it) /\ scanResult p it n.
Proof.
  unfold scanResult. revert i; induction it as [|c it IH]; intros i; simpl.
  - exists 0; simpl; rewrite Nat.add_0_r; repeat split; auto. intros c H; discriminate.
  - destruct (p c) eqn:E.
    + destruct (IH (S i)) as [n [Hn [Hl [Hf Hx]]]]. exists (S n); simpl. rewrite Hn.
      repeat split; auto; try lia. f_equal; lia.
    + exists 0; simpl; rewrite Nat.add_0_r; repeat split; auto; try lia.
      intros c' H; inversion H; subst; auto.
Qed.

Lemma newlinesFrom_app s t b :
  newlinesFrom (s ++ t) b = newlinesFrom s b ++ newlinesFrom t (b + List.length s).
Proof.
  revert b; induction s as [|c s IH]; intros b; simpl.
  - now rewrite Nat.add_0_r.
  - rewrite IH. replace (S b + List.length s) with (b + S (List.length s)) by lia.
    destruct (c =? 10)%N; reflexivity.
Qed.

Lemma newlinesFrom_none s b : (forall c, In c s -> c <> 10%N) -> newlinesFrom s b = [].
Proof.
  revert b; induction s as [|c s IH]; intros b H; simpl; auto.
  destruct (N.eqb_spec c 10) as [->|].
  - exfalso; apply (H 10%N); simpl; auto.
  - apply IH; intros; apply H; simpl; auto.
Qed.

Lemma newlinesFrom_range s b x : In x (newlinesFrom s b) -> b <= x < b + List.length s.
Proof.
  revert b; induction s as [|c s IH]; intros b; simpl; [tauto|].
  destruct (c =? 10)%N; simpl; intros H.
  - destruct H as [<-|H]; [lia|]. apply IH in H; lia.
  - apply IH in H; lia.
Qed.

Lemma newlinesFrom_shift s b : newlinesFrom s b = map (Nat.add b) (newlinesFrom s 0).
Proof.
  revert b; induction s as [|c s IH]; intros b; simpl; auto.
  destruct (c =? 10)%N; rewrite (IH (S b)), (IH 1); simpl; rewrite map_map;
    [f_equal; [lia|]|]; apply map_ext; intros; lia.
Qed.

Lemma newlinesFrom_sorted s b : StronglySorted lt (newlinesFrom s b).
Proof.
  revert b; induction s as [|c s IH]; intros b; simpl; [constructor|].
  destruct (c =? 10)%N; auto. constructor; auto.
  apply Forall_forall; intros x Hx. apply newlinesFrom_range in Hx; lia.
Qed.

Lemma firstn_length_le' {A} (l : list A) n : n <= List.length l -> List.length (firstn n l) = n.
Proof. intros; rewrite firstn_length; lia. Qed.

Lemma scanWhile_spec p it i :
  exists n, scanWhile p it i = (i + n, newlinesFrom (firstn n it) i) /\ scanResult p it n.
Proof.
  unfold scanResult. revert i; induction it as [|c it IH]; intros i; simpl.
  - exists 0; simpl; rewrite Nat.add_0_r; repeat split; auto. intros c H; discriminate.
  - destruct (p c) eqn:E.
    + destruct (IH (S i)) as [n [Hn [Hl [Hf Hx]]]]. exists (S n); simpl. rewrite Hn.
      repeat split; auto; try lia. f_equal; lia.
    + exists 0; simpl; rewrite Nat.add_0_r; repeat split; auto; try lia.
      intros c' H; inversion H; subst; auto.
Qed.

(** * The invariant *)

(** Which mode may lie directly on which. *)
Definition allowedOn (s below : LState) : bool :=
  match s with
  | SString | StringBacktick =>
      match below with DefaultState | StringVariableCurly => true | _ => false end
  | StringHeredoc | StringNowdoc => match below with DefaultState => true | _ => false end
  | StringVariableCurly =>
      match below with
      | SString | StringBacktick | StringHeredoc | StringVariableCurly => true | _ => false end
  | StringVariable | StringVarname =>
      match below with SString | StringBacktick | StringHeredoc => true | _ => false end
  | StringVariableBracket => match below with StringVariable => true | _ => false end
  | StringVariableObjectOperator =>
      match below with DefaultState | StringVariableCurly | StringVariable => true | _ => false end
  | _ => false
  end.
Fixpoint wfS (st : list LState) : Prop :=
  match st with
  | [] => False
  | s :: t =>
      match s with
      | HtmlState => t = [ErrorState]
      | DefaultState => t = [HtmlState; ErrorState]
      | _ => match t with s' :: _ => allowedOn s s' = true /\ wfS t | [] => False end
      end
  end.

Section Inv.
Variable cc : CharClass.
Hypothesis OK : ascii_ok cc.

Definition needsIdent (s : LState) : bool :=
  match s with StringVarname | StringVariableObjectOperator => true | _ => false end.
Definition isDoc (s : LState) : bool :=
  match s with StringHeredoc | StringNowdoc => true | _ => false end.

Record Inv (st : list LState) (id : qstring) (before it : list N) : Prop := {
  inv_wf : wfS st;
  inv_before : 3 < List.length st -> exists c, In c before /\ c <> 92%N;
  inv_id : existsb isDoc st = true -> id <> [];
  inv_idnl : ~ In 10%N id;
  inv_ident : forall s t, st = s :: t -> needsIdent s = true ->
              exists c r, it = c :: r /\ isIdent cc c = true
}.

Lemma isIdent_nul : isIdent cc 0%N = false.
Proof.
  unfold isIdent. rewrite (ok_letter _ OK), (ok_digit _ OK) by lia. reflexivity.
Qed.
Lemma isIdentStart_nul : isIdentStart cc 0%N = false.
Proof. unfold isIdentStart. now rewrite isIdent_nul. Qed.
Lemma isSpace_nul : isSpace cc 0%N = false.
Proof. rewrite (ok_space _ OK) by lia. reflexivity. Qed.
Lemma isDigit_nul : isDigit cc 0%N = false.
Proof. rewrite (ok_digit _ OK) by lia. reflexivity. Qed.
Lemma isLetter_nul : isLetter cc 0%N = false.
Proof. rewrite (ok_letter _ OK) by lia. reflexivity. Qed.
Lemma lower_nul : toLower cc 0%N = 0%N.
Proof. rewrite (ok_lower _ OK) by lia. reflexivity. Qed.
Lemma isSpace_nl : isSpace cc 10%N = true.
Proof. rewrite (ok_space _ OK) by lia. reflexivity. Qed.
Lemma isIdent_nl : isIdent cc 10%N = false.
Proof. unfold isIdent. rewrite (ok_letter _ OK), (ok_digit _ OK) by lia. reflexivity. Qed.
Lemma isDigit_nl : isDigit cc 10%N = false.
Proof. rewrite (ok_digit _ OK) by lia. reflexivity. Qed.
Lemma isLetter_nl : isLetter cc 10%N = false.
Proof. rewrite (ok_letter _ OK) by lia. reflexivity. Qed.
Lemma isIdentStart_ident c : isIdentStart cc c = true -> isIdent cc c = true.
Proof. unfold isIdentStart. now intros [? _]%andb_true_iff. Qed.

(** * What every handler guarantees *)

(** The tokens whose newlines the lexer does not record where they are. *)
Definition isCast (t : Tok) : bool :=
  match t with
  | T_INT_CAST | T_DOUBLE_CAST | T_STRING_CAST | T_ARRAY_CAST | T_OBJECT_CAST | T_BOOL_CAST
  | T_UNSET_CAST => true
  | _ => false end.
Definition nlException (o : Out) (it : list N) : Prop :=
  (isCast (o_tok o) = true \/ o_tok o = T_YIELD_FROM \/
   (o_tok o = T_CONSTANT_ENCAPSED_STRING /\ o_len o = List.length it)).

(** An unterminated block comment. *)
Definition openComment (it : list N) : Prop :=
  exists r, it = [cSLASH; cSTAR] ++ r /\ forall a b, r <> a ++ [cSTAR; cSLASH] ++ b.

(** [digit] directly behind an opening brace and a dollar *)
Definition digitCurly (it : list N) : Prop :=
  exists d r, it = [cLBRACE; cDOLLAR; d] ++ r /\ isDigit cc d = true.

Definition topIs (st : list LState) (s : LState) : Prop := exists t, st = s :: t.

Record Good (st : list LState) (id : qstring) (before it : list N) (o : Out) : Prop := {
  g_len : o_len o <= S (List.length it) \/
          (o_len o = List.length it + 2 /\ openComment it /\
           (o_tok o = T_COMMENT \/ o_tok o = T_DOC_COMMENT));
  g_over : List.length it < o_len o ->
           o_tok o = T_INLINE_HTML \/ o_tok o = T_COMMENT \/ o_tok o = T_DOC_COMMENT;
  g_inv : Inv (o_st o) (o_id o) (rev (firstn (o_len o) it) ++ before) (skipn (o_len o) it);
  g_prog : 0 < o_len o \/
           (topIs st StringVariable /\ ~ topIs (o_st o) StringVariable /\
            o_tok o = T_ENCAPSED_AND_WHITESPACE) \/
           (digitCurly it /\ o_tok o = T_ENCAPSED_AND_WHITESPACE);
  g_nl : o_nl o = newlinesFrom (firstn (o_len o) it) 0 \/
         (nlException o it /\ (~ In 10%N (firstn (o_len o) it) -> o_nl o = []));
  g_nls : StronglySorted lt (o_nl o);
  g_nlr : Forall (fun x => x < o_len o) (o_nl o);
  g_noeof : o_tok o <> T_EOF
}.

(** [yield] so close to the end that the four characters looked at are not all there. *)
Definition yieldNearEnd (it : list N) : Prop :=
  exists y w r, it = y ++ w ++ r /\ map (foldCase cc) y = str "yield" /\
                forallb (isSpace cc) w = true /\ List.length r < 3.

Definition wp {A} (x : option A) (ub : Prop) (Q : A -> Prop) : Prop :=
  match x with Some a => Q a | None => ub end.

(** Inv is kept by leaving the modes alone, if the top does not need an identifier. *)
Lemma Inv_keep st id before it n :
  Inv st id before it -> (forall s t, st = s :: t -> needsIdent s = false) ->
  Inv st id (rev (firstn n it) ++ before) (skipn n it).
Proof.
  intros [Hw Hb Hi Hnl Hd] Hn. constructor; auto.
  - intros Hl. destruct (Hb Hl) as [c [? ?]]. exists c; split; auto. apply in_or_app; auto.
  - intros s t E Hs. rewrite (Hn s t E) in Hs; discriminate.
Qed.

Lemma Good_simple st id before it t n :
  Inv st id before it -> (forall s r, st = s :: r -> needsIdent s = false) ->
  0 < n <= List.length it -> (forall c, In c (firstn n it) -> c <> 10%N) -> t <> T_EOF ->
  Good st id before it {| o_tok := t; o_len := n; o_nl := []; o_st := st; o_id := id |}.
Proof.
  intros HI Hn Hl Hc Ht. constructor; simpl; auto; try lia.
  - apply Inv_keep; auto.
  - left. symmetry. now apply newlinesFrom_none.
  - constructor.
Qed.

End Inv.
