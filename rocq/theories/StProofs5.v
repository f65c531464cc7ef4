(** Every statement, then files. *)
From Coq Require Import List Bool NArith ZArith Lia Arith.
From Verif Require Import Chars LexModel ParseModel ParseSpec ParseProofs PexSpec PexProofs PexProofs2 PexProofs4 PexPath PexPath2 PexProofs5 PexEvery PexProofs6 StSpec StTakes StNames StParts StProofs StProofs2 StProofs3 StProofs4.
Import ListNotations.
Open Scope nat_scope.

Section T.
Variable rs : Gen.
Context {Fs : Functions} {FsR : FunctionsRead rs}.
Notation TakesS := (TakesS rs).
Notation Stm := (Stm rs).
Notation Lst := (Lst rs).
Notation Top := (Top rs).

Lemma flat_in : forall A (f : A -> list Tok) l x, In x l -> List.length (f x) <= List.length (flat_map f l).
Proof.
  intros A f l x. induction l as [|y l IH]; [intros []|]. cbn [flat_map]. rewrite app_length. intros [->|HI]; [lia|]. specialize (IH HI). lia.
Qed.
Ltac len := repeat match goal with H : _ = true |- _ => clear H end; cbn [stText List.length app] in *; unfold forText, foreachText, declareText, parens in *; repeat (rewrite !app_length in *; cbn [List.length app] in *); lia.
Ltac both H := let H2 := fresh "OK" in apply andb_true_iff in H as [H H2].

Lemma every_st : forall n s, List.length (stText s) <= n -> stOk s = true -> Top s /\ (simple s = true -> Stm s).
Proof.
  induction n as [|n IH]; intros s LE OK.
  { exfalso. destruct (top_heads rs s OK) as [_ N]. destruct (stText s); [congruence|]. cbn in LE. lia. }
  assert (LST : forall l, forallb stOk l = true -> List.length (flat_map stText l) <= n -> Lst l).
  { intros l OL LL. apply (lst_all rs); [exact OL|]. intros x IX. apply IH; [|exact (forallb_In _ _ _ _ OL IX)]. pose proof (flat_in _ stText l x IX). lia. }
  assert (STM : forall x, stOk x = true -> simple x = true -> List.length (stText x) <= n -> Stm x).
  { intros x OX SX LX. apply (IH x LX OX), SX. }
  assert (SI : simple s = true -> Stm s).
  { intros SI. destruct s; try discriminate SI; pose proof OK as OK0; cbn [stOk] in OK.
    - apply (st_expr rs), OK.
    - eapply st_tok. left. reflexivity.
    - eapply st_tok. right. left. reflexivity.
    - eapply st_tok. right. right. left. reflexivity.
    - eapply st_tok. right. right. right. left. reflexivity.
    - apply (st_show rs), OK.
    - apply st_block, LST; [exact OK|len].
    - assert (OKs := OK). apply andb_true_iff in OK as [OK _]. apply andb_true_iff in OK as [OK _]. apply andb_true_iff in OK as [OK OB]. apply andb_true_iff in OK as [OK OE].
      apply andb_true_iff in OK as [OK SA]. apply andb_true_iff in OK as [_ OA]. change (flat_map _ elifs) with (flat_map elifText elifs) in LE.
      apply (st_if rs); [exact OK0| | |].
      + apply STM; [exact OA|exact SA|len].
      + intros p IP. pose proof (forallb_In _ _ _ _ OE IP) as X. cbv beta in X. apply andb_true_iff in X as [X X2]. apply andb_true_iff in X as [_ X1].
        apply STM; [exact X1|exact X2|]. pose proof (flat_in _ elifText elifs p IP) as LP. unfold elifText at 1 in LP. cbn [stText] in LE. change (flat_map _ elifs) with (flat_map elifText elifs) in LE. len.
      + intros x ->. apply andb_true_iff in OB as [OB _]. apply andb_true_iff in OB as [O1 O2]. apply STM; [exact O1|exact O2|len].
    - assert (OKs := OK). apply andb_true_iff in OK as [OK _]. apply andb_true_iff in OK as [OK _]. apply andb_true_iff in OK as [OK OB]. apply andb_true_iff in OK as [OK OE].
      apply andb_true_iff in OK as [_ OA]. cbn [stText] in LE. change (flat_map _ elifs) with (flat_map elifCText elifs) in LE.
      apply (st_ifC rs); [exact OK0| | |].
      + apply LST; [exact OA|len].
      + intros p IP. pose proof (forallb_In _ _ _ _ OE IP) as X. cbv beta in X. apply andb_true_iff in X as [_ X].
        apply LST; [exact X|]. pose proof (flat_in _ elifCText elifs p IP) as LP. unfold elifCText at 1 in LP. len.
      + intros x ->. apply andb_true_iff in OB as [OB _]. apply LST; [exact OB|len].
    - both OK. both OK. apply (st_while rs); try assumption. apply STM; [assumption|assumption|len].
    - both OK. apply (st_whileC rs); [exact OK|]. apply LST; [assumption|len].
    - both OK. both OK. apply (st_do rs); [exact OK|]. apply STM; [assumption|assumption|len].
    - both OK. both OK. both OK. both OK. apply (st_for rs); try assumption. apply STM; [assumption|assumption|len].
    - both OK. both OK. both OK. apply (st_forC rs); try assumption. apply LST; [assumption|len].
    - both OK. both OK. both OK. both OK. both OK. apply (st_foreach rs); try assumption. apply STM; [assumption|assumption|len].
    - both OK. both OK. both OK. both OK. apply (st_foreachC rs); try assumption. apply LST; [assumption|len].
    - both OK. cbn [stText] in LE. change (flat_map _ cases) with (flat_map oneCase cases) in LE. apply (st_switch rs); [exact OK|assumption|].
      intros p IP. pose proof (forallb_In _ _ _ _ OK1 IP) as X. cbv beta in X. apply andb_true_iff in X as [_ X]. apply LST; [exact X|].
      pose proof (flat_in _ oneCase cases p IP) as LP. unfold oneCase at 1 in LP. len.
    - both OK. cbn [stText] in LE. change (flat_map _ cases) with (flat_map oneCase cases) in LE. apply (st_switchC rs); [exact OK|assumption|].
      intros p IP. pose proof (forallb_In _ _ _ _ OK1 IP) as X. cbv beta in X. apply andb_true_iff in X as [_ X]. apply LST; [exact X|].
      pose proof (flat_in _ oneCase cases p IP) as LP. unfold oneCase at 1 in LP. len.
    - both OK. both OK. apply some_nonempty in OK. apply (st_declare rs); try assumption. apply STM; [assumption|assumption|len].
    - both OK. apply some_nonempty in OK. apply st_declareC; try assumption. apply LST; [assumption|len].
    - apply andb_true_iff in OK as [OK OF]. apply andb_true_iff in OK as [OL OC]. cbn [stText] in LE. change (flat_map _ cs) with (flat_map catchText cs) in LE.
      apply st_try; [|exact OC| |].
      + apply LST; [exact OL|len].
      + intros c IC. pose proof (forallb_In _ _ _ _ OC IC) as X. cbv beta in X. apply andb_true_iff in X as [_ X]. apply LST; [exact X|].
        pose proof (flat_in _ catchText cs c IC) as LP. unfold catchText at 1 in LP. len.
      + intros x ->. apply LST; [exact OF|len].
    - both OK. apply some_nonempty in OK. now apply (st_echo rs).
    - now apply (st_return rs).
    - now apply (st_break rs).
    - now apply (st_continue rs).
    - now apply (st_throw rs).
    - both OK. apply some_nonempty in OK. now apply (st_unset rs).
    - apply st_global.
    - apply some_nonempty in OK. now apply st_static.
    - both OK. apply some_nonempty in OK. now apply (st_const rs).
    - apply st_goto.
    - apply st_label.
    - both OK. apply some_nonempty in OK. now apply st_use. }
  split; [|exact SI]. destruct (simple s) eqn:SS; [apply (top_simple rs); [exact OK|exact SS|exact (SI eq_refl)]|].
  destruct s; try discriminate SS; cbn [stOk] in OK.
  - apply top_halt.
  - both OK. both OK. apply (top_function rs); [exact OK|]. apply LST; [assumption|len].
  - apply andb_true_iff in OK as [OH OM]. change (forallb _ ms) with (forallb memberOk ms) in OM. cbn [stText] in LE. change (flat_map _ ms) with (flat_map memberText ms) in LE.
    apply (top_class rs); [exact OH|exact OM|]. intros m l IM EL. pose proof (forallb_In _ _ _ _ OM IM) as X. unfold memberOk in X. rewrite EL in X.
    apply andb_true_iff in X as [_ X]. apply andb_true_iff in X as [_ X]. apply LST; [exact X|].
    pose proof (flat_in _ memberText ms m IM) as LP. unfold memberText at 1 in LP. rewrite EL in LP. unfold bodyText in LP. len.
Qed.
End T.
