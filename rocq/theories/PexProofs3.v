(** Atoms, parentheses and operators. *)
From Coq Require Import List Bool NArith ZArith Lia Arith.
From Verif Require Import Chars LexModel ParseModel ParseSpec ParseProofs PexSpec PexProofs PexProofs2.
Import ListNotations.
Open Scope nat_scope.

Section Atoms.
Variable rs : Gen.
Context {Fs : Functions}.
Notation Good := (Good rs).
Notation Reads := (Reads rs).

Ltac give :=
  match goal with |- exists t s', Runs _ _ ?s (Ok [t] s') /\ _ =>
    let v := eval vm_compute in (run rs 40 (IN n_varExpressionNormal) s) in
    match v with Some (Ok [?t] ?s') =>
      exists t, s'; split; [exists 40; vm_compute; reflexivity|split; [reflexivity|repeat split; intros; try reflexivity; try discriminate]] end end.

Lemma stops_list : forall l k, mem k (cont l) = false -> In k (filter (fun k => negb (mem k (cont l))) allToks).
Proof. intros l k H. apply filter_In. split; [apply In_allToks|]. now rewrite H. Qed.

Lemma good_var : Good 21 [T_VARIABLE] EVar true.
Proof.
  split; [split; [discriminate|left; reflexivity]|]. intros r ST s R V.
  destruct s as [re po si vs iv im ci bl pr rd]. cbn in R, V. subst re vs. cbn [app] in *.
  change (ntOf 21) with n_varExpressionNormal.
  destruct r as [|k r]; [give|]. unfold stops in ST. cbn [hd] in ST. apply stops_list in ST.
  vm_compute in ST. repeat (destruct ST as [<-|ST]; [give|]). contradiction.
Qed.
Lemma good_num : Good 21 [T_LNUMBER] ENum false.
Proof.
  split; [split; [discriminate|right; left; reflexivity]|]. intros r ST s R V.
  destruct s as [re po si vs iv im ci bl pr rd]. cbn in R, V. subst re vs. cbn [app] in *.
  change (ntOf 21) with n_varExpressionNormal.
  destruct r as [|k r]; [give|]. unfold stops in ST. cbn [hd] in ST. apply stops_list in ST.
  vm_compute in ST. repeat (destruct ST as [<-|ST]; [give|]). contradiction.
Qed.
End Atoms.
