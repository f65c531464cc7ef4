(** The generated parser: basic facts, and that it always comes to an end. *)
From Coq Require Import List Bool NArith ZArith Lia Arith.
From Verif Require Import Chars LexModel ParseModel.
Import ListNotations.
Open Scope nat_scope.

Lemma pid_nth : forall k, nth_error allToks (N.to_nat (pid k)) = Some k.
Proof. destruct k; reflexivity. Qed.
Lemma pid_inj : forall a b, pid a = pid b -> a = b.
Proof.
  intros a b H. pose proof (pid_nth a) as A. pose proof (pid_nth b) as B. rewrite H in A.
  rewrite A in B. injection B as <-. reflexivity.
Qed.
Lemma teq_eq : forall a b, teq a b = true <-> a = b.
Proof.
  intros a b. unfold teq. rewrite N.eqb_eq. split; intros H; [now apply pid_inj|now subst].
Qed.
Lemma teq_neq : forall a b, teq a b = false <-> a <> b.
Proof.
  intros a b. rewrite <- teq_eq. destruct (teq a b); split; congruence.
Qed.
Lemma teq_refl : forall a, teq a a = true.
Proof. intros. now apply teq_eq. Qed.
Lemma mem_single : forall a b, mem a (single b) = teq a b.
Proof.
  intros a b. unfold mem, single, teq. rewrite N.shiftl_1_l, N.pow2_bits_eqb. apply N.eqb_sym.
Qed.
Lemma mem_lor : forall a x y, mem a (N.lor x y) = mem a x || mem a y.
Proof. intros. unfold mem. apply N.lor_spec. Qed.
Lemma mem_0 : forall a, mem a 0%N = false.
Proof. intros. unfold mem. apply N.bits_0. Qed.
Lemma allNT_all : forall n, In n allNT.
Proof. intros n. apply nth_error_In with (n := ntId n). destruct n; reflexivity. Qed.

Lemma yytoken_cons : forall s k r, rest s = k :: r -> yytoken s = k.
Proof. intros s k r H. unfold yytoken, la. rewrite H. reflexivity. Qed.
Lemma yytoken_nil : forall s, rest s = [] -> yytoken s = T_EOF.
Proof. intros s H. unfold yytoken, la. rewrite H. reflexivity. Qed.

(** More fuel does not change the result. *)
Lemma run_S : forall rs f i s r, run rs f i s = Some r -> run rs (S f) i s = Some r.
Proof.
  intros rs. induction f as [|f IH]; intros i s r H; [discriminate|].
  remember (S f) as g. rewrite Heqg in H.
  destruct i; cbn [run] in H |- *; try exact H; subst g.
  - destruct (enters (rule n) s); [|exact H].
    destruct (run rs f (rule n) s) as [x|] eqn:E; [|discriminate]. now rewrite (IH _ _ _ E).
  - destruct (run rs f i1 s) as [x|] eqn:E; [|discriminate]. rewrite (IH _ _ _ E).
    destruct x as [t1 s1|s1]; [|exact H].
    destruct (run rs f i2 s1) as [y|] eqn:E2; [|discriminate]. now rewrite (IH _ _ _ E2).
  - destruct (test i1 s); now apply IH.
  - now apply IH.
  - destruct (mem (yytoken s) (first i)); [|exact H].
    destruct (run rs f i s) as [x|] eqn:E; [|discriminate]. rewrite (IH _ _ _ E).
    destruct x as [t1 s1|s1]; [|exact H].
    destruct (run rs f (IStar i) s1) as [y|] eqn:E2; [|discriminate]. now rewrite (IH _ _ _ E2).
  - destruct (run rs f i s) as [x|] eqn:E; [|discriminate]. rewrite (IH _ _ _ E).
    destruct x as [t1 s1|s1]; [|exact H].
    destruct (teq (yytoken s1) sep); [|exact H]. cbv zeta in H |- *.
    destruct (match brk with Some b => teq (yytoken (yylex s1)) b | None => false end); [exact H|].
    destruct (run rs f (IList i sep brk) (yylex s1)) as [y|] eqn:E2; [|discriminate]. now rewrite (IH _ _ _ E2).
  - destruct (run rs f i1 (setBlocked s true)) as [x|] eqn:E; [|discriminate]. rewrite (IH _ _ _ E).
    destruct x as [t1 s1|s1]; [exact H|]. now apply IH.
  - destruct (run rs f (IN n) (setBlocked s (blocked s && negb (unblocks rs)))) as [x|] eqn:E; [|discriminate]. rewrite (IH _ _ _ E). exact H.
  - destruct (run rs f i s) as [x|] eqn:E; [|discriminate]. rewrite (IH _ _ _ E).
    destruct x as [t1 s1|s1]; [|exact H]. destruct (inStop (yytoken s1) stop); [exact H|].
    destruct (run rs f (ILoopAgain i stop) (yylex (report SevError 1 s1))) as [y|] eqn:E2; [|discriminate].
    now rewrite (IH _ _ _ E2).
  - destruct (run rs f i s) as [x|] eqn:E; [|discriminate]. rewrite (IH _ _ _ E).
    destruct x as [t1 s1|s1]; [|exact H]. destruct (inStop (yytoken s1) stop); [exact H|].
    destruct (run rs f (ILoopAgain i stop) (yylex s1)) as [y|] eqn:E2; [|discriminate].
    now rewrite (IH _ _ _ E2).
Qed.
Lemma run_mono : forall rs f g i s r, f <= g -> run rs f i s = Some r -> run rs g i s = Some r.
Proof. intros rs f g i s r L. induction L; intros H; [exact H|]. apply run_S. auto. Qed.

(** The result of running [i] at [s], whatever the fuel. *)
Definition Runs (rs : Gen) (i : item) (s : PS) (r : res) : Prop :=
  exists f, run rs f i s = Some r.
Lemma Runs_det : forall rs i s r r', Runs rs i s r -> Runs rs i s r' -> r = r'.
Proof.
  intros rs i s r r' [f H] [g H'].
  apply (run_mono _ _ (f + g)) in H; [|lia]. apply (run_mono _ _ (f + g)) in H'; [|lia]. congruence.
Qed.

Section Intro.
Variable rs : Gen.
Ltac give f := exists (S f); cbn [run].

Lemma Runs_T : forall k s, Runs rs (IT k) s (if teq (yytoken s) k then Ok [Leaf k (pos s)] (yylex s) else Fail (expected s)).
Proof. intros. give 0. reflexivity. Qed.
Lemma Runs_eps : forall s, Runs rs IEps s (Ok [] s).
Proof. intros. give 0. reflexivity. Qed.
Lemma Runs_fail : forall s, Runs rs IFail s (Fail s).
Proof. intros. give 0. reflexivity. Qed.
Lemma Runs_act : forall x s, Runs rs (IAct x) s (doAct x s).
Proof. intros. give 0. reflexivity. Qed.
Lemma Runs_peek : forall k s, Runs rs (IPeek k) s (if teq (yytoken s) k then Ok [] s else Fail (expected s)).
Proof. intros. give 0. reflexivity. Qed.
Lemma Runs_N_no : forall n s, enters (rule n) s = false -> Runs rs (IN n) s (Fail (expected s)).
Proof. intros n s H. give 0. now rewrite H. Qed.
Lemma Runs_N_ok : forall n s t s', enters (rule n) s = true -> Runs rs (rule n) s (Ok t s') ->
  Runs rs (IN n) s (Ok [Node n (pos s) t (pos s')] s').
Proof. intros n s t s' H [f R]. give f. now rewrite H, R. Qed.
Lemma Runs_N_fail : forall n s s', enters (rule n) s = true -> Runs rs (rule n) s (Fail s') ->
  Runs rs (IN n) s (Fail (expected s')).
Proof. intros n s s' H [f R]. give f. now rewrite H, R. Qed.
Lemma Runs_seq : forall a b s t1 s1 r, Runs rs a s (Ok t1 s1) -> Runs rs b s1 r ->
  Runs rs (ISeq a b) s (match r with Ok t2 s2 => Ok (t1 ++ t2) s2 | Fail s2 => Fail s2 end).
Proof.
  intros a b s t1 s1 r [f A] [g B]. give (f + g).
  rewrite (run_mono _ f (f + g) _ _ _ ltac:(lia) A), (run_mono _ g (f + g) _ _ _ ltac:(lia) B).
  destruct r; reflexivity.
Qed.
Lemma Runs_seq_fail : forall a b s s1, Runs rs a s (Fail s1) -> Runs rs (ISeq a b) s (Fail s1).
Proof. intros a b s s1 [f A]. give f. now rewrite A. Qed.
Lemma Runs_alt_l : forall a b s r, test a s = true -> Runs rs a s r -> Runs rs (IAlt a b) s r.
Proof. intros a b s r T [f A]. give f. now rewrite T. Qed.
Lemma Runs_alt_r : forall a b s r, test a s = false -> Runs rs b s r -> Runs rs (IAlt a b) s r.
Proof. intros a b s r T [f A]. give f. now rewrite T. Qed.
Lemma Runs_cond : forall c a s r, Runs rs a s r -> Runs rs (ICond c a) s r.
Proof. intros c a s r [f A]. give f. exact A. Qed.
Lemma Runs_star_stop : forall a s, mem (yytoken s) (first a) = false -> Runs rs (IStar a) s (Ok [] s).
Proof. intros a s M. give 0. now rewrite M. Qed.
Lemma Runs_star_go : forall a s t1 s1 r, mem (yytoken s) (first a) = true ->
  Runs rs a s (Ok t1 s1) -> Runs rs (IStar a) s1 r ->
  Runs rs (IStar a) s (match r with Ok t2 s2 => Ok (t1 ++ t2) s2 | Fail s2 => Fail s2 end).
Proof.
  intros a s t1 s1 r M [f A] [g B]. give (f + g).
  rewrite M, (run_mono _ f (f + g) _ _ _ ltac:(lia) A), (run_mono _ g (f + g) _ _ _ ltac:(lia) B).
  destruct r; reflexivity.
Qed.
Lemma Runs_star_fail : forall a s s1, mem (yytoken s) (first a) = true ->
  Runs rs a s (Fail s1) -> Runs rs (IStar a) s (Fail s1).
Proof. intros a s s1 M [f A]. give f. now rewrite M, A. Qed.
Definition breaks (brk : option Tok) (s : PS) : bool :=
  match brk with Some b => teq (yytoken s) b | None => false end.
Lemma Runs_list_fail : forall a sep brk s s1, Runs rs a s (Fail s1) -> Runs rs (IList a sep brk) s (Fail s1).
Proof. intros a sep brk s s1 [f A]. give f. now rewrite A. Qed.
Lemma Runs_list_stop : forall a sep brk s t1 s1, Runs rs a s (Ok t1 s1) -> teq (yytoken s1) sep = false ->
  Runs rs (IList a sep brk) s (Ok t1 s1).
Proof. intros a sep brk s t1 s1 [f A] N. give f. now rewrite A, N. Qed.
Lemma Runs_list_break : forall a sep brk s t1 s1, Runs rs a s (Ok t1 s1) -> teq (yytoken s1) sep = true ->
  breaks brk (yylex s1) = true -> Runs rs (IList a sep brk) s (Ok (t1 ++ [Leaf sep (pos s1)]) (yylex s1)).
Proof.
  intros a sep brk s t1 s1 [f A] N B. unfold breaks in B. give f. rewrite A, N. cbv zeta. now rewrite B.
Qed.
Lemma Runs_list_go : forall a sep brk s t1 s1 r, Runs rs a s (Ok t1 s1) -> teq (yytoken s1) sep = true ->
  breaks brk (yylex s1) = false -> Runs rs (IList a sep brk) (yylex s1) r ->
  Runs rs (IList a sep brk) s
    (match r with Ok t2 s2 => Ok (t1 ++ Leaf sep (pos s1) :: t2) s2 | Fail s2 => Fail s2 end).
Proof.
  intros a sep brk s t1 s1 r [f A] N B [g L]. unfold breaks in B. give (f + g).
  rewrite (run_mono _ f (f + g) _ _ _ ltac:(lia) A), N. cbv zeta. rewrite B.
  rewrite (run_mono _ g (f + g) _ _ _ ltac:(lia) L). destruct r; reflexivity.
Qed.
Lemma Runs_rollback_ok : forall a b s t s', Runs rs a (setBlocked s true) (Ok t s') ->
  Runs rs (IRollback a b) s (Ok t (setBlocked s' (blocked s))).
Proof. intros a b s t s' [f A]. give f. now rewrite A. Qed.
Lemma Runs_rollback_catch : forall a b s s' r, Runs rs a (setBlocked s true) (Fail s') ->
  Runs rs b (rewind s (restoreState s (setBlocked s' (blocked s)))) r -> Runs rs (IRollback a b) s r.
Proof.
  intros a b s s' r [f A] [g B]. give (f + g).
  rewrite (run_mono _ f (f + g) _ _ _ ltac:(lia) A), (run_mono _ g (f + g) _ _ _ ltac:(lia) B). reflexivity.
Qed.
Lemma Runs_recover : forall n s r, Runs rs (IN n) (setBlocked s (blocked s && negb (unblocks rs))) r ->
  Runs rs (IRecover n) s (match r with
                          | Ok t s' => Ok t (setBlocked s' (blocked s))
                          | Fail s' => Ok [] (recover (resync rs n) s (setBlocked s' (blocked s)))
                          end).
Proof. intros n s r [f A]. exists (S f). destruct f as [|f]; [discriminate A|]. remember (S f) as g. cbn [run]. rewrite A. destruct r; reflexivity. Qed.
Lemma Runs_loop_fail : forall a stop s s1, Runs rs a s (Fail s1) -> Runs rs (ILoop a stop) s (Fail s1).
Proof. intros a stop s s1 [f A]. give f. now rewrite A. Qed.
Lemma Runs_loop_stop : forall a stop s t1 s1, Runs rs a s (Ok t1 s1) -> inStop (yytoken s1) stop = true ->
  Runs rs (ILoop a stop) s (Ok t1 s1).
Proof. intros a stop s t1 s1 [f A] N. give f. now rewrite A, N. Qed.
Lemma Runs_loop_go : forall a stop s t1 s1 r, Runs rs a s (Ok t1 s1) -> inStop (yytoken s1) stop = false ->
  Runs rs (ILoopAgain a stop) (yylex (report SevError 1 s1)) r ->
  Runs rs (ILoop a stop) s (match r with Ok t2 s2 => Ok (t1 ++ t2) s2 | Fail s2 => Fail s2 end).
Proof.
  intros a stop s t1 s1 r [f A] N [g L]. give (f + g).
  rewrite (run_mono _ f (f + g) _ _ _ ltac:(lia) A), N, (run_mono _ g (f + g) _ _ _ ltac:(lia) L).
  destruct r; reflexivity.
Qed.
Lemma Runs_again_fail : forall a stop s s1, Runs rs a s (Fail s1) -> Runs rs (ILoopAgain a stop) s (Fail s1).
Proof. intros a stop s s1 [f A]. give f. now rewrite A. Qed.
Lemma Runs_again_stop : forall a stop s t1 s1, Runs rs a s (Ok t1 s1) -> inStop (yytoken s1) stop = true ->
  Runs rs (ILoopAgain a stop) s (Ok t1 s1).
Proof. intros a stop s t1 s1 [f A] N. give f. now rewrite A, N. Qed.
Lemma Runs_again_go : forall a stop s t1 s1 r, Runs rs a s (Ok t1 s1) -> inStop (yytoken s1) stop = false ->
  Runs rs (ILoopAgain a stop) (yylex s1) r ->
  Runs rs (ILoopAgain a stop) s (match r with Ok t2 s2 => Ok (t1 ++ t2) s2 | Fail s2 => Fail s2 end).
Proof.
  intros a stop s t1 s1 r [f A] N [g L]. give (f + g).
  rewrite (run_mono _ f (f + g) _ _ _ ltac:(lia) A), N, (run_mono _ g (f + g) _ _ _ ltac:(lia) L).
  destruct r; reflexivity.
Qed.
End Intro.

(** Tokens are only taken from the front: what is left is a tail of what was there, and the position
    moves by the number of tokens taken. *)
Definition stateOf (r : res) : PS := match r with Ok _ s | Fail s => s end.
Definition after (s s' : PS) : Prop :=
  exists l, rest s = l ++ rest s' /\ pos s' = pos s + List.length l /\ size s' = size s /\ blocked s' = blocked s.

Lemma after_refl : forall s, after s s.
Proof. intros s. exists []. cbn. repeat split; lia. Qed.
Lemma after_trans : forall a b c, after a b -> after b c -> after a c.
Proof.
  intros a b c (l & A & B & C & D) (m & E & F & G & H). exists (l ++ m). rewrite app_length.
  repeat split; [|lia|congruence|congruence]. rewrite <- app_assoc. congruence.
Qed.
Lemma after_same : forall s s', rest s' = rest s -> pos s' = pos s -> size s' = size s ->
  blocked s' = blocked s -> after s s'.
Proof. intros s s' A B C D. exists []. cbn. repeat split; try congruence; lia. Qed.
Lemma after_yylex : forall s, after s (yylex s).
Proof.
  intros s. unfold yylex. destruct (rest s) as [|k r] eqn:E; [apply after_refl|].
  exists [k]. cbn. rewrite E. repeat split; lia.
Qed.
Lemma after_report : forall sev b s, after s (report sev b s).
Proof. intros. unfold report. destruct (_ <=? _); [apply after_refl|apply after_same; reflexivity]. Qed.
Lemma after_expected : forall s, after s (expected s).
Proof. intros. unfold expected. destruct (blocked s); [apply after_refl|apply after_report]. Qed.
Lemma after_skipTo : forall stop l s, after s (skipTo stop l s).
Proof.
  intros stop l. induction l as [|k r IH]; intros s; [apply after_refl|]. cbn.
  destruct (stop k); [apply after_refl|]. eapply after_trans; [apply after_yylex|apply IH].
Qed.
Lemma after_recover : forall stop s0 s s1, after s0 s -> after s s1 -> after s0 (recover stop s s1).
Proof.
  intros stop s0 s s1 A B. unfold recover. eapply after_trans; [|apply after_skipTo].
  eapply after_trans; [eapply after_trans; [exact A|exact B]|].
  eapply after_trans; [apply (after_same s1 (restoreState s s1)); reflexivity|].
  destruct (_ =? _); [apply after_yylex|apply after_refl].
Qed.
Lemma after_act : forall x s, after s (stateOf (doAct x s)).
Proof.
  intros x s. destruct x; cbn [doAct stateOf]; try (apply after_same; reflexivity); try apply after_report.
  - destruct (teq _ _); [|apply after_same; reflexivity].
    eapply after_trans; [apply after_report|apply after_same; reflexivity].
  - destruct (isVar s); [apply after_refl|apply after_report].
  - destruct (imp s), (cimp s); try apply after_refl; apply after_report.
Qed.

Lemma run_after : forall rs f i s r, run rs f i s = Some r -> after s (stateOf r).
Proof.
  intros rs. induction f as [|f IH]; intros i s r H; [discriminate|].
  destruct i; cbn [run] in H.
  - injection H as <-. destruct (teq _ _); [apply after_yylex|apply after_expected].
  - destruct (enters (rule n) s); [|injection H as <-; apply after_expected].
    destruct (run rs f (rule n) s) as [[t s'|s']|] eqn:E; [| |discriminate]; injection H as <-.
    + exact (IH _ _ _ E).
    + eapply after_trans; [exact (IH _ _ _ E)|apply after_expected].
  - injection H as <-. apply after_refl.
  - injection H as <-. apply after_refl.
  - destruct (run rs f i1 s) as [[t1 s1|s1]|] eqn:E; [| |discriminate].
    + destruct (run rs f i2 s1) as [[t2 s2|s2]|] eqn:E2; [| |discriminate]; injection H as <-;
        (eapply after_trans; [exact (IH _ _ _ E)|exact (IH _ _ _ E2)]).
    + injection H as <-. exact (IH _ _ _ E).
  - destruct (test i1 s); exact (IH _ _ _ H).
  - exact (IH _ _ _ H).
  - destruct (mem _ _); [|injection H as <-; apply after_refl].
    destruct (run rs f i s) as [[t1 s1|s1]|] eqn:E; [| |discriminate].
    + destruct (run rs f (IStar i) s1) as [[t2 s2|s2]|] eqn:E2; [| |discriminate]; injection H as <-;
        (eapply after_trans; [exact (IH _ _ _ E)|exact (IH _ _ _ E2)]).
    + injection H as <-. exact (IH _ _ _ E).
  - destruct (run rs f i s) as [[t1 s1|s1]|] eqn:E; [| |discriminate].
    + destruct (teq _ _); [|injection H as <-; exact (IH _ _ _ E)]. cbv zeta in H.
      destruct (match brk with Some b => _ | None => false end).
      * injection H as <-. eapply after_trans; [exact (IH _ _ _ E)|apply after_yylex].
      * destruct (run rs f (IList i sep brk) (yylex s1)) as [[t2 s2|s2]|] eqn:E2; [| |discriminate]; injection H as <-;
          (eapply after_trans; [eapply after_trans; [exact (IH _ _ _ E)|apply after_yylex]|exact (IH _ _ _ E2)]).
    + injection H as <-. exact (IH _ _ _ E).
  - destruct (run rs f i1 (setBlocked s true)) as [[t1 s1|s1]|] eqn:E; [| |discriminate].
    + injection H as <-. destruct (IH _ _ _ E) as (l & A & B & C & D). exists l. cbn in *. auto.
    + destruct (IH _ _ _ E) as (l0 & A0 & B0 & C0 & D0). destruct (IH _ _ _ H) as (l & A & B & C & D).
      exists l. cbn in *. repeat split; auto; congruence.
  - destruct (run rs f (IN n) (setBlocked s (blocked s && negb (unblocks rs)))) as [[t1 s1|s1]|] eqn:E; [| |discriminate]; injection H as <-;
      destruct (IH _ _ _ E) as (l & A & B & C & D); cbn in A, B, C, D.
    + exists l. cbn. auto.
    + apply after_recover; [apply after_refl|]. exists l. cbn. auto.
  - injection H as <-. apply after_act.
  - destruct (run rs f i s) as [[t1 s1|s1]|] eqn:E; [| |discriminate].
    + destruct (inStop _ _); [injection H as <-; exact (IH _ _ _ E)|].
      destruct (run rs f (ILoopAgain i stop) _) as [[t2 s2|s2]|] eqn:E2; [| |discriminate]; injection H as <-;
        (eapply after_trans; [eapply after_trans; [eapply after_trans; [exact (IH _ _ _ E)|apply after_report]|apply after_yylex]|exact (IH _ _ _ E2)]).
    + injection H as <-. exact (IH _ _ _ E).
  - destruct (run rs f i s) as [[t1 s1|s1]|] eqn:E; [| |discriminate].
    + destruct (inStop _ _); [injection H as <-; exact (IH _ _ _ E)|].
      destruct (run rs f (ILoopAgain i stop) _) as [[t2 s2|s2]|] eqn:E2; [| |discriminate]; injection H as <-;
        (eapply after_trans; [eapply after_trans; [exact (IH _ _ _ E)|apply after_yylex]|exact (IH _ _ _ E2)]).
    + injection H as <-. exact (IH _ _ _ E).
  - injection H as <-. destruct (teq _ _); [apply after_refl|apply after_expected].
Qed.
Lemma after_length : forall s s', after s s' -> List.length (rest s') <= List.length (rest s).
Proof. intros s s' (l & A & _). rewrite A, app_length. lia. Qed.
