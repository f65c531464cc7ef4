(** Counterexamples for C03, C04 and C06 (proof file). *)
From Verif Require Export LexRun3.
Open Scope nat_scope.

(** A document on which the lexer stops making progress. *)
Definition hangDoc : qstring := str "<?php " ++ [cDQ] ++ str "$a{$1" ++ [cDQ] ++ str ";".

Definition stuckState : LexState :=
  {| lx_pos := 9; lx_st := [SString; DefaultState; HtmlState; ErrorState]; lx_id := []; lx_halt := 0 |}.

Lemma stuck_step : exists t nl, nextToken asciiCC hangDoc stuckState = Some (stuckState, t, nl) /\ isEOF (t_kind t) = false.
Proof. do 2 eexists. split; vm_compute; reflexivity. Qed.

Lemma stuck_forever fuel : lexAll asciiCC fuel hangDoc stuckState = Some OutOfFuel.
Proof.
  induction fuel as [|f IH]; auto. cbn [lexAll].
  destruct stuck_step as [t [nl [E1 E2]]]. rewrite E1, E2, IH. reflexivity.
Qed.

Lemma hang fuel : lexAll asciiCC fuel hangDoc initHtml = Some OutOfFuel.
Proof.
  assert (S1 : exists l1 t nl, nextToken asciiCC hangDoc initHtml = Some (l1, t, nl) /\ isEOF (t_kind t) = false /\
          exists l2 t2 nl2, nextToken asciiCC hangDoc l1 = Some (l2, t2, nl2) /\ isEOF (t_kind t2) = false /\
          exists t3 nl3, nextToken asciiCC hangDoc l2 = Some ({| lx_pos := 9; lx_st := [StringVariable; SString; DefaultState; HtmlState; ErrorState]; lx_id := []; lx_halt := 0 |}, t3, nl3) /\ isEOF (t_kind t3) = false /\
          exists t4 nl4, nextToken asciiCC hangDoc {| lx_pos := 9; lx_st := [StringVariable; SString; DefaultState; HtmlState; ErrorState]; lx_id := []; lx_halt := 0 |} = Some (stuckState, t4, nl4) /\ isEOF (t_kind t4) = false).
  { repeat (eexists; try (split; [vm_compute; reflexivity|])); vm_compute; reflexivity. }
  destruct S1 as (l1 & t1 & n1 & E1 & F1 & l2 & t2 & n2 & E2 & F2 & t3 & n3 & E3 & F3 & t4 & n4 & E4 & F4).
  destruct fuel as [|f]; auto. cbn [lexAll]. rewrite E1, F1.
  destruct f as [|f]; auto. cbn [lexAll]. rewrite E2, F2.
  destruct f as [|f]; auto. cbn [lexAll]. rewrite E3, F3.
  destruct f as [|f]; auto. cbn [lexAll]. rewrite E4, F4.
  rewrite stuck_forever. reflexivity.
Qed.

(** Checkers used by the examples. *)
Fixpoint bddb (s : qstring) : bool :=
  match s with
  | [] => false
  | a :: t => match t with b :: d :: _ => (a =? 123)%N && (b =? 36)%N && isDigit asciiCC d | _ => false end || bddb t
  end.
Lemma bddb_ok s : bddb s = false -> ~ braceDollarDigit asciiCC s.
Proof.
  intros H [pre [d [r [-> Hd]]]]. induction pre as [|a pre IH]; cbn in *.
  - rewrite Hd in H. discriminate.
  - apply orb_false_iff in H. destruct H as [_ H]. auto.
Qed.
Lemma noY_ok s : ~ In 121%N (map (foldCase asciiCC) s) -> ~ yieldAtEnd asciiCC s.
Proof.
  intros H [pre [y [w [r [-> [Hy _]]]]]]. apply H. rewrite !map_app, Hy. apply in_or_app. right. left. reflexivity.
Qed.

Fixpoint runN (n : nat) (content : qstring) (l : LexState) : option LexState :=
  match n with
  | O => Some l
  | S k => match runN k content l with
           | Some l' => match nextToken asciiCC content l' with Some (l2, _, _) => Some l2 | None => None end
           | None => None end
  end.
Lemma runN_reach n content l l' : runN n content l = Some l' -> reachable asciiCC content l l'.
Proof.
  revert l'. induction n as [|n IH]; intros l' H; cbn in H.
  - injection H as <-. constructor.
  - destruct (runN n content l) as [l1|] eqn:E; [|discriminate].
    destruct (nextToken asciiCC content l1) as [[[l2 t] nl]|] eqn:E2; [|discriminate].
    injection H as <-. eapply reach_step; eauto.
Qed.
