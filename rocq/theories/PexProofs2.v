(** Every level reads what the next level reads. *)
From Coq Require Import List Bool NArith ZArith Lia Arith.
From Verif Require Import Chars LexModel ParseModel ParseSpec ParseProofs PexSpec PexProofs.
Import ListNotations.
Open Scope nat_scope.

Section Up.
Variable rs : Gen.
Context {Fs : Functions}.
Notation Good := (Good rs).
Notation Reads := (Reads rs).

Lemma readNode_list : forall l e vs, listLevel l = true -> readNode (ntOf l) (VEx e :: vs) = chainL e vs.
Proof.
  intros l e vs H. apply level_cases in H. cbn in H. repeat (destruct H as [<-|H]; [reflexivity|]). contradiction.
Qed.

(** An operand at the beginning, then an optional or repeated part that is not there. *)
Lemma Runs_opt_none : forall a s, (forall c x, a <> ICond c x) -> enters a s = false -> Runs rs (IAlt a (IAlt IEps IFail)) s (Ok [] s).
Proof.
  intros a s N E. apply Runs_alt_r; [destruct a; try exact E; exfalso; eapply N; reflexivity|].
  apply Runs_alt_l; [reflexivity|]. apply Runs_eps.
Qed.
Lemma Runs_star_none : forall a s, enters a s = false -> Runs rs (IStar a) s (Ok [] s).
Proof. intros a s E. apply Runs_star_stop. unfold enters in E. now apply orb_false_iff in E as [_ E]. Qed.

Lemma starts_S : forall l w, starts (S l) w -> starts l w.
Proof. intros l w. apply starts_le. lia. Qed.

Lemma reads_intro : forall l w e iv r, l <= 21 -> starts l w ->
  (forall s, rest s = w ++ r -> vst s = Normal ->
   exists ts s', Runs rs (rule (ntOf l)) s (Ok ts s') /\ readNode (ntOf l) (map read ts) = VEx e /\ post s r iv s') ->
  Reads l w e iv r.
Proof.
  intros l w e iv r L S0 H s R V. destruct (H s R V) as (ts & s' & RU & RD & PO).
  eexists. exists s'. split; [apply Runs_level; [exact L|eapply starts_tok; eassumption|exact RU]|]. split; [rewrite (read_node _ _ _ _ (nt_not l)); exact RD|exact PO].
Qed.

(** Levels that read an operand and perhaps something behind it. *)
Lemma up_tail : forall l tailItem w e iv r, l < 21 -> starts (S l) w -> stops l r ->
  rule (ntOf l) = ISeq (IN (ntOf (S l))) tailItem ->
  (forall s r, rest s = r -> stops l r -> Runs rs tailItem s (Ok [] s)) ->
  readNode (ntOf l) [VEx e] = VEx e ->
  Reads (S l) w e iv r -> Reads l w e iv r.
Proof.
  intros l tl w e iv r L S0 ST RL TL RN G. apply reads_intro; [lia|now apply starts_S|]. intros s R V.
  destruct (G s R V) as (t & s' & RU & RD & PO).
  exists ([t] ++ []), s'. split; [|split; [cbn [app map]; now rewrite RD|exact PO]].
  rewrite RL. eapply Runs_seq_ok; [exact RU|]. exact (TL s' r (proj1 PO) ST).
Qed.

Lemma up_list : forall l w e iv r, listLevel l = true \/ l = 7 -> starts (S l) w -> stops l r -> Reads (S l) w e iv r -> Reads l w e iv r.
Proof.
  intros l w e iv r HL S0 ST G.
  assert (L : l < 21). { destruct HL as [H| ->]; [|lia]. apply level_cases in H. cbn in H. lia. }
  assert (SEP : mem (sepOf l) (cont l) = true).
  { destruct HL as [H| ->]; [|vm_compute; reflexivity]. apply level_cases in H. cbn in H.
    repeat (destruct H as [<-|H]; [vm_compute; reflexivity|]). contradiction. }
  apply reads_intro; [lia|now apply starts_S|]. intros s R V.
  destruct (G s R V) as (t & s' & RU & RD & PO). exists [t], s'. rewrite (rule_list l HL). split; [|split; [|exact PO]].
  - apply Runs_list_stop; [exact RU|]. destruct PO as (PR & _). rewrite (yytoken_hd _ _ PR). apply teq_neq. intros E.
    unfold stops in ST. rewrite E in ST. congruence.
  - cbn [map]. rewrite RD. destruct HL as [H| ->]; [rewrite (readNode_list l _ _ H)|]; reflexivity.
Qed.

Ltac quick := intros; eapply no_enter; [eassumption|eassumption|vm_compute; reflexivity|vm_compute; reflexivity].

Lemma up_reads : forall l w e iv r, l < 21 -> starts (S l) w -> stops l r -> Reads (S l) w e iv r -> Reads l w e iv r.
Proof.
  intros l w e iv r L S0 ST G.
  destruct l as [|[|[|[|[|[|[|[|[|[|[|[|[|[|[|[|[|[|[|[|[|l]]]]]]]]]]]]]]]]]]]]]; try (apply up_list; [left; reflexivity|exact S0|exact ST|exact G]);
    try (apply up_list; [right; reflexivity|exact S0|exact ST|exact G]).
  - (* expr *)
    apply reads_intro; [lia|apply starts_S, S0|]. intros s R V.
    destruct (G s R V) as (t & s' & RU & RD & PO).
    exists [t], s'. split; [exact RU|]. split; [cbn [map]; rewrite RD; reflexivity|exact PO].
  - (* print *)
    apply reads_intro; [lia|apply starts_S, S0|]. intros s R V.
    destruct (G s R V) as (t & s' & RU & RD & PO).
    exists ([] ++ [t]), s'. split; [|split; [cbn [map app]; rewrite RD; reflexivity|exact PO]].
    cbn [rule ntOf nth ladder seqs alts]. eapply Runs_seq_ok; [|exact RU].
    apply Runs_opt_none; [discriminate|]. unfold enters.
    pose proof (starts_tok _ _ _ _ S0 R) as I0. cbn in I0.
    repeat (destruct I0 as [I0|I0]; [rewrite <- I0; vm_compute; reflexivity|]). contradiction.
  - (* assignment *)
    apply reads_intro; [lia|apply starts_S, S0|]. intros s R V.
    destruct (G (setIsVar s false) R V) as (t & s' & RU & RD & PO).
    exists ([] ++ [t] ++ []), s'. split; [|split; [cbn [map app]; rewrite RD; destruct e; reflexivity|exact PO]].
    cbn [rule ntOf nth ladder seqs]. eapply Runs_seq_ok; [exact (Runs_act rs (ASetIsVariable false) s)|].
    eapply Runs_seq_ok; [exact RU|]. cbn [alts].
    apply Runs_alt_r; [cbn [test]; eapply no_enter; [exact (proj1 PO)|exact ST|vm_compute; reflexivity|vm_compute; reflexivity]|].
    apply Runs_opt_none; [discriminate|]. eapply no_enter; [exact (proj1 PO)|exact ST|vm_compute; reflexivity|vm_compute; reflexivity].
  - (* conditional *)
    eapply up_tail; [lia|exact S0|exact ST|reflexivity| |reflexivity|exact G]. clear r ST G. intros s r R ST. apply Runs_opt_none; [discriminate|quick].
  - (* equality *)
    eapply up_tail; [lia|exact S0|exact ST|reflexivity| |reflexivity|exact G]. clear r ST G. intros s r R ST. apply Runs_opt_none; [discriminate|quick].
  - (* relational *)
    eapply up_tail; [lia|exact S0|exact ST|reflexivity| |reflexivity|exact G]. clear r ST G. intros s r R ST. cbn [alts].
    apply Runs_alt_r; [cbn [test]; quick|]. apply Runs_opt_none; [discriminate|quick].
  - (* shift *)
    eapply up_tail; [lia|exact S0|exact ST|reflexivity| |reflexivity|exact G]. clear r ST G. intros s r R ST. apply Runs_star_none. quick.
  - eapply up_tail; [lia|exact S0|exact ST|reflexivity| |reflexivity|exact G]. clear r ST G. intros s r R ST. apply Runs_star_none. quick.
  - eapply up_tail; [lia|exact S0|exact ST|reflexivity| |reflexivity|exact G]. clear r ST G. intros s r R ST. apply Runs_star_none. quick.
  - (* unary *)
    apply reads_intro; [lia|apply starts_S, S0|]. intros s R V.
    destruct (G s R V) as (t & s' & RU & RD & PO).
    exists [t], s'. split; [|split; [cbn [map]; rewrite RD; reflexivity|exact PO]].
    cbn [rule ntOf nth ladder alts].
    pose proof (starts_tok _ _ _ _ S0 R) as I0. cbn in I0.
    assert (EN : (forall i, nullable i = false -> N.land (first i) (setOf (heads 19)) = 0%N -> enters i s = false) /\ enters (IN n_unaryExpressionNotPlusminus) s = true).
    { split.
      - intros i N0 D. unfold enters. rewrite N0. cbn [orb]. unfold mem.
        assert (X : N.testbit (N.land (first i) (setOf (heads 19))) (pid (yytoken s)) = N.testbit (first i) (pid (yytoken s))).
        { rewrite N.land_spec. replace (N.testbit (setOf (heads 19)) (pid (yytoken s))) with true; [apply andb_true_r|].
          repeat (destruct I0 as [I0|I0]; [rewrite <- I0; vm_compute; reflexivity|]). contradiction. }
        rewrite <- X, D. apply N.bits_0.
      - unfold enters. repeat (destruct I0 as [I0|I0]; [rewrite <- I0; vm_compute; reflexivity|]). contradiction. }
    destruct EN as [EN EY].
    repeat (apply Runs_alt_r; [cbn [test seqs]; apply EN; vm_compute; reflexivity|]).
    apply Runs_alt_l; [exact EY|]. exact RU.
  - (* postfix and prefix operators *)
    apply reads_intro; [lia|apply starts_S, S0|]. intros s R V.
    destruct (G s R V) as (t & s' & RU & RD & PO).
    exists ([] ++ [t] ++ []), s'. split; [|split; [cbn [map app]; rewrite RD; reflexivity|exact PO]].
    cbn [rule ntOf nth ladder seqs]. eapply Runs_seq_ok.
    + apply Runs_star_stop. pose proof (starts_tok _ _ _ _ S0 R) as I0. cbn in I0.
      repeat (destruct I0 as [I0|I0]; [rewrite <- I0; vm_compute; reflexivity|]). contradiction.
    + eapply Runs_seq_ok; [exact RU|]. apply Runs_star_none. eapply no_enter; [exact (proj1 PO)|exact ST|vm_compute; reflexivity|vm_compute; reflexivity].
  - (* varExpression *)
    apply reads_intro; [lia|apply starts_S, S0|]. intros s R V.
    destruct (G s R V) as (t & s' & RU & RD & PO).
    exists [t], s'. split; [|split; [cbn [map]; rewrite RD; reflexivity|exact PO]].
    cbn [rule ntOf nth ladder alts].
    pose proof (starts_tok _ _ _ _ S0 R) as I0. cbn in I0.
    do 3 (apply Runs_alt_r; [cbn [test seqs plus]; unfold enters; repeat (destruct I0 as [I0|I0]; [rewrite <- I0; vm_compute; reflexivity|]); contradiction|]).
    do 2 (apply Runs_alt_r; [cbn [test holds]; rewrite V; reflexivity|]).
    apply Runs_alt_l; [cbn [test]; unfold enters; repeat (destruct I0 as [I0|I0]; [rewrite <- I0; vm_compute; reflexivity|]); contradiction|].
    exact RU.
  - lia.
Qed.
Lemma up : forall l w e iv, l < 21 -> Good (S l) w e iv -> Good l w e iv.
Proof.
  intros l w e iv L [S0 G]. split; [now apply starts_S|]. intros r ST. apply up_reads; [exact L|exact S0|exact ST|]. apply G. now apply stops_S.
Qed.
Lemma up_reads_le : forall l l' w e iv r, l <= l' -> l' <= 21 -> starts l' w -> stops l r -> Reads l' w e iv r -> Reads l w e iv r.
Proof.
  intros l l' w e iv r H. induction H as [|m H IH]; intros L S0 ST G; [exact G|]. apply IH; [lia|now apply starts_S|exact ST|].
  apply up_reads; [lia|exact S0|eapply stops_le; [exact H|lia|exact ST]|exact G].
Qed.
Lemma up_le : forall l l' w e iv, l <= l' -> l' <= 21 -> Good l' w e iv -> Good l w e iv.
Proof.
  intros l l' w e iv H. induction H as [|m H IH]; intros L G; [exact G|]. apply IH; [lia|]. apply up; [lia|exact G].
Qed.
End Up.
