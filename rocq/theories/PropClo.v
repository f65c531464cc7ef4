(** C77: variables in and behind closures are looked up in the function they stand in.  Vocabulary in CloSpec.v. *)
From Coq Require Import List Bool Arith Lia.
From Verif Require Import CloModel CloSpec CloProofs.
Import ListNotations.
Open Scope nat_scope.

(** A variable that is read in an argument, an assignment or a returned value, or outside of closures, and not behind a closure
    there, is reported as a use of what its own function declares under its name, or as undeclared if that is nothing (but
    not where it is the declaration itself) - whatever the functions declare. *)
Theorem C77_read_partial : forall find around n s x p, parsed true n -> NoDup (places n) -> Right n s (Var p x) ->
  forall t, In (p, x, t) (uses find around n) <-> t = find s x p /\ t <> Some p.
Proof. intros find around n s x p P N R t. exact (read_right find around n s p x t P N R). Qed.
Print Assumptions C77_read_partial.

(** A variable assigned to is reported as a use of what its own function has declared before, if anything. *)
Theorem C77_assigned_partial : forall find around n s c x p e, parsed true n -> NoDup (places n) -> Right n s (Asg c p x e) ->
  forall t, In (p, x, t) (uses find around n) <-> t = find s x p /\ exists q, t = Some q /\ q < p.
Proof. intros find around n s c x p e P N R t. exact (target_right find around n s c p x e t P N R). Qed.
Print Assumptions C77_assigned_partial.

(** A variable behind [use] is what is seen under its name from the closure, or from the function around; if no closure is
    written in the closure. *)
Theorem C77_captured_partial : forall find around n s f ty us b p x t, parsed true n -> NoDup (places n) -> Right n s (Clo f ty us b) ->
  quiet b -> In (p, x) us -> In (p, x, t) (uses find around n) -> t = around (Of f) x \/ t = around s x.
Proof. intros find around n s f ty us b p x t P N R Q Hu HI. exact (captured_right find around n s f ty us b p x t P N R Q Hu HI). Qed.
Print Assumptions C77_captured_partial.

(** In a file without closures, every variable is looked up in the function it stands in. *)
Theorem C77_no_closures : forall find around n, parsed true n -> NoDup (places n) -> noClosures n ->
  (forall s x p, Stands n s x p Read -> forall t, In (p, x, t) (uses find around n) <-> t = find s x p /\ t <> Some p) /\
  (forall s x p, Stands n s x p Target -> forall t, In (p, x, t) (uses find around n) <-> t = find s x p /\ exists q, t = Some q /\ q < p).
Proof.
  intros find around n P N NC. split; intros s x p H t.
  - inversion H as [s' ty b p' x' HB HS| |]; subst. apply (read_right find around n s p x t P N).
    exact (without_closures n s ty b _ HB HS eq_refl P NC).
  - inversion H as [|s' ty b c p' x' e HB HS|]; subst. apply (target_right find around n s c p x e t P N).
    destruct (same_any _ _ HS _ (body_parsed _ _ _ _ HB P)) as [s' PA]. assert (s' = false) by exact (proj1 PA). subst s'.
    exact (without_closures n s ty b _ HB HS PA P NC).
Qed.
Print Assumptions C77_no_closures.

(** In any file: a use is reported only where a variable is written, with its name; every variable that is read, and every
    variable behind [use], is looked up exactly once, in one of the functions of the file. *)
Theorem C77_only : forall find around n p x t, parsed true n -> In (p, x, t) (uses find around n) -> exists s k, Stands n s x p k.
Proof. intros find around n p x t P H. exact (uses_stand find around n p x t P H). Qed.
Print Assumptions C77_only.
Theorem C77_once : forall find around n s x p, parsed true n -> NoDup (places n) ->
  (Stands n s x p Read -> exists g, (exists ty b, Body n g ty b) /\ forall t, In (p, x, t) (uses find around n) <-> t = find g x p /\ t <> Some p) /\
  (Stands n s x p Captured -> exists g, (exists ty b, Body n g ty b) /\ forall t, In (p, x, t) (uses find around n) <-> t = around g x).
Proof.
  intros find around n s x p P N. split; intros H; [exact (read_somewhere find around n s x p P N H)|exact (captured_somewhere find around n s x p P N H)].
Qed.
Print Assumptions C77_once.

(** ** Cases *)
Ltac same := first [apply S_here
  | eapply S_stm; [cbn; left; reflexivity|same] | eapply S_stm; [cbn; right; left; reflexivity|same] | eapply S_stm; [cbn; right; right; left; reflexivity|same]
  | eapply S_op; [cbn; left; reflexivity|same] | eapply S_op; [cbn; right; left; reflexivity|same] | eapply S_op; [cbn; right; right; left; reflexivity|same]
  | apply S_arg; same | apply S_asg; same | apply S_exp; same | apply S_ret; same].
Ltac nodup := cbn; repeat (constructor; [cbn; intuition lia|]); constructor.

(** [$c = 1; f(function ($x) use ($c) { return $c . $x; }, $c); function g($y) { echo $y; }] *)
Definition theClosure : nd := Clo 21 false [(40, 1)] (Stm [Ret None (Op [Var 50 1; Var 60 2])]).
Definition good : nd := Stm [
  Exp None (Asg None 10 1 (Op []));
  Exp None (Op [Arg None theClosure; Arg None (Var 70 1)]);
  Fn None 80 false (Stm [Exp None (Var 90 3)])].
(** [$c] at 10 and behind [use] (40), [$x] at 30 and [$y] at 85 are parameters. *)
Definition table (s : scope) (x p : nat) : option nat :=
  match s, x with
  | File, 1 => if p <? 10 then None else Some 10
  | Of 21, 1 => Some 10
  | Of 21, 2 => Some 30
  | Of 80, 3 => Some 85
  | _, _ => None
  end.
Definition seen (s : scope) (x : nat) : option nat := table s x 1000.
Example C77_case : parsed true good /\ NoDup (places good) /\
  Right good (Of 21) (Var 50 1) /\ Right good (Of 21) (Var 60 2) /\ Right good File (Var 70 1) /\ Right good (Of 80) (Var 90 3) /\
  Right good File (Asg None 10 1 (Op [])) /\ Right good File theClosure /\ quiet (Stm [Ret None (Op [Var 50 1; Var 60 2])]) /\
  uses table seen good = [(50, 1, Some 10); (60, 2, Some 30); (40, 1, Some 10); (70, 1, Some 10); (90, 3, Some 85)].
Proof.
  assert (BC : Body good (Of 21) false (Stm [Ret None (Op [Var 50 1; Var 60 2])])).
  { apply (B_closure good File false good 21 false [(40, 1)]); [constructor|]. unfold good, theClosure. same. }
  assert (RC : Right good File theClosure).
  { apply (R_argument good File false good None theClosure theClosure); [constructor|unfold good, theClosure; same|constructor]. }
  split; [cbn; tauto|]. split; [nodup|]. repeat split; try exact RC.
  - apply (R_returned good 21 _ None (Op [Var 50 1; Var 60 2]) _ BC); [cbn; tauto|same|]. apply (E_op [] (Var 50 1)); [intros j []|constructor].
  - apply (R_returned good 21 _ None (Op [Var 50 1; Var 60 2]) _ BC); [cbn; tauto|same|]. apply (E_op [Var 50 1] (Var 60 2)); [|constructor].
    intros j [<-|[]] m Hm. inversion Hm. exact I.
  - apply (R_argument good File false good None (Var 70 1)); [constructor|unfold good; same|constructor].
  - apply (R_outside good (Of 80) (Stm [Exp None (Var 90 3)]) None (Var 90 3)); [|left; eapply Sm_stm; [left; reflexivity|constructor]|constructor].
    apply (Pl_function good File good None 80 false); [constructor|]. eapply Sm_stm; [right; right; left; reflexivity|constructor].
  - apply (R_target good File false good); [constructor|unfold good; same].
  - intros m Hm. inversion Hm as [|? ? ? Hk|? k ? Hk H1| | | |]; subst; [exact I|]. destruct Hk as [<-|[]].
    inversion H1 as [| | | | | |? ? ? H2]; subst; [exact I|]. inversion H2 as [|? k ? Hk H3| | | | |]; subst; [exact I|].
    destruct Hk as [<-|[<-|[]]]; inversion H3; exact I.
Qed.
(** [function g($y) { $y = $y + 1; if ($y) { echo $z; } }] *)
Definition plain : nd := Stm [Fn None 80 false (Stm [Exp None (Asg None 90 3 (Op [Var 95 3; Op []])); Stm [Exp None (Var 100 3); Stm [Exp None (Var 110 4)]]])].
Lemma plain_noClosures : noClosures plain.
Proof.
  assert (Q : forall f ty us b, ~ Same plain (Clo f ty us b)).
  { intros f ty us b H. inversion H as [| |? k ? Hk H1| | | |]; subst. destruct Hk as [<-|[]]. inversion H1. }
  assert (B : forall s ty b, Body plain s ty b -> b = plain \/ b = Stm [Exp None (Asg None 90 3 (Op [Var 95 3; Op []])); Stm [Exp None (Var 100 3); Stm [Exp None (Var 110 4)]]]).
  { intros s ty b H. induction H as [|s ty b f ty' us b' _ IH HS|s ty b c f ty' b' _ IH HS]; [left; reflexivity| |].
    - exfalso. destruct IH as [-> | ->]; [exact (Q _ _ _ _ HS)|].
      repeat match goal with H : Same (_ _) _ |- _ => inversion H; clear H; subst | H : Same (_ _ _) _ |- _ => inversion H; clear H; subst | H : Same (_ _ _ _ _) _ |- _ => inversion H; clear H; subst | H : In _ _ |- _ => destruct H as [<-|H] | H : In _ [] |- _ => destruct H end.
    - destruct IH as [-> | ->].
      + inversion HS as [| |? k ? Hk H1| | | |]; subst. destruct Hk as [<-|[]]. inversion H1; subst. right. reflexivity.
      + exfalso. repeat match goal with H : Same (_ _) _ |- _ => inversion H; clear H; subst | H : Same (_ _ _) _ |- _ => inversion H; clear H; subst | H : Same (_ _ _ _ _) _ |- _ => inversion H; clear H; subst | H : In _ _ |- _ => destruct H as [<-|H] | H : In _ [] |- _ => destruct H end. }
  intros s ty b f ty' us b' HB HS. destruct (B s ty b HB) as [-> | ->]; [exact (Q _ _ _ _ HS)|].
  repeat match goal with H : Same (_ _) _ |- _ => inversion H; clear H; subst | H : Same (_ _ _) _ |- _ => inversion H; clear H; subst | H : Same (_ _ _ _ _) _ |- _ => inversion H; clear H; subst | H : In _ _ |- _ => destruct H as [<-|H] | H : In _ [] |- _ => destruct H end.
Qed.
Example C77_plain_case : parsed true plain /\ NoDup (places plain) /\ noClosures plain /\
  Stands plain (Of 80) 4 110 Read /\ uses table seen plain = [(90, 3, Some 85); (95, 3, Some 85); (100, 3, Some 85); (110, 4, None)].
Proof.
  split; [cbn; tauto|]. split; [nodup|]. split; [exact plain_noClosures|]. split; [|reflexivity].
  eapply St_read; [eapply B_function; [constructor|unfold plain; same]|]. eapply S_stm; [right; left; reflexivity|]. same.
Qed.

(** ** What goes wrong *)
(** [$f = function ($x) { echo $x; };]: the parameter is looked for in the file; its use is marked as undeclared. *)
Theorem C77_echo_refuted : exists n find around s x p q, parsed true n /\ NoDup (places n) /\ Stands n s x p Read /\
  find s x p = Some q /\ q < p /\ In (p, x, None) (uses find around n).
Proof.
  exists (Stm [Exp None (Asg None 10 1 (Clo 20 false [] (Stm [Exp None (Var 50 2)])))]),
    (fun s x p => match s, x with Of 20, 2 => Some 30 | File, 1 => Some 10 | _, _ => None end), (fun _ _ => None), (Of 20), 2, 50, 30.
  split; [cbn; tauto|]. split; [nodup|]. split; [|split; [reflexivity|split; [lia|left; reflexivity]]].
  eapply St_read; [eapply B_closure; [constructor|same]|same].
Qed.
Print Assumptions C77_echo_refuted.
(** .. and if the file has a variable of that name, it is taken for that one. *)
Theorem C77_mistaken_refuted : exists n find around s x p q r, parsed true n /\ NoDup (places n) /\ Stands n s x p Read /\
  find s x p = Some q /\ find File x p = Some r /\ r <> q /\ In (p, x, Some r) (uses find around n) /\ ~ In (p, x, Some q) (uses find around n).
Proof.
  exists (Stm [Exp None (Asg None 5 2 (Op [])); Exp None (Asg None 10 1 (Clo 20 false [] (Stm [Exp None (Var 50 2)])))]),
    (fun s x p => match s, x with Of 20, 2 => Some 30 | File, 1 => Some 10 | File, 2 => Some 5 | _, _ => None end), (fun _ _ => None), (Of 20), 2, 50, 30, 5.
  split; [cbn; tauto|]. split; [nodup|]. split; [|split; [reflexivity|split; [reflexivity|split; [lia|split; [left; reflexivity|]]]]].
  - eapply St_read; [eapply B_closure; [constructor|same]|same].
  - intros [E|[]]. discriminate.
Qed.
Print Assumptions C77_mistaken_refuted.
(** [$x = 1; $a = [function () { return 1; }, $x];]: behind the closure, [$x] is looked for in the closure. *)
Theorem C77_behind_refuted : exists n find around x p q, parsed true n /\ NoDup (places n) /\ Stands n File x p Read /\
  find File x p = Some q /\ q < p /\ In (p, x, None) (uses find around n).
Proof.
  exists (Stm [Exp None (Asg None 5 2 (Op [])); Exp None (Asg None 10 1 (Op [Clo 20 false [] (Stm [Ret None (Op [])]); Var 50 2]))]),
    (fun s x p => match s, x with File, 1 => Some 10 | File, 2 => Some 5 | _, _ => None end), (fun _ _ => None), 2, 50, 5.
  split; [cbn; tauto|]. split; [nodup|]. split; [|split; [reflexivity|split; [lia|left; reflexivity]]].
  eapply St_read; [constructor|same].
Qed.
Print Assumptions C77_behind_refuted.
(** [$f = function ($x): int { return $x; };]: with a return type, the returned value is not looked at for types, and gets no
    context. *)
Theorem C77_typed_refuted : exists n find around f b x p q e, parsed true n /\ NoDup (places n) /\ Body n (Of f) true b /\ Same b (Ret None e) /\
  Early e (Var p x) /\ Stands n (Of f) x p Read /\ find (Of f) x p = Some q /\ q < p /\ In (p, x, None) (uses find around n).
Proof.
  exists (Stm [Exp None (Asg None 10 1 (Clo 20 true [] (Stm [Ret None (Var 50 2)])))]),
    (fun s x p => match s, x with Of 20, 2 => Some 30 | File, 1 => Some 10 | _, _ => None end), (fun _ _ => None), 20, (Stm [Ret None (Var 50 2)]), 2, 50, 30, (Var 50 2).
  split; [cbn; tauto|]. split; [nodup|]. split; [eapply B_closure; [constructor|same]|]. split; [same|]. split; [constructor|].
  split; [|split; [reflexivity|split; [lia|left; reflexivity]]].
  eapply St_read; [eapply B_closure; [constructor|same]|same].
Qed.
Print Assumptions C77_typed_refuted.
(** [$a = 1; f(function () use ($a) { return function ($a) { return $a; }; });]: the [$a] behind [use] is taken for the
    parameter of the inner closure. *)
Theorem C77_captured_refuted : exists n find around s x p q r g, parsed true n /\ NoDup (places n) /\ Stands n s x p Captured /\
  around s x = Some q /\ around g x = Some r /\ q < p /\ p < r /\ In (p, x, Some r) (uses find around n) /\ ~ In (p, x, Some q) (uses find around n).
Proof.
  exists (Stm [Exp None (Asg None 10 1 (Op [])); Exp None (Arg None (Clo 20 false [(30, 1)] (Stm [Ret None (Clo 40 false [] (Stm [Ret None (Var 60 1)]))])))]),
    (fun s x p => match s, x with Of 40, 1 => Some 50 | Of 20, 1 => Some 10 | File, 1 => Some 10 | _, _ => None end),
    (fun s x => match s, x with Of 40, 1 => Some 50 | Of 20, 1 => Some 10 | File, 1 => Some 10 | _, _ => None end), File, 1, 30, 10, 50, (Of 40).
  split; [cbn; tauto|]. split; [nodup|]. split; [|split; [reflexivity|split; [reflexivity|split; [lia|split; [lia|split; [right; left; reflexivity|]]]]]].
  - eapply St_captured; [constructor|same|left; reflexivity].
  - intros [E|[E|[]]]; discriminate.
Qed.
Print Assumptions C77_captured_refuted.
