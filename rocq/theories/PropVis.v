(** C76: assigning to a private or protected property from where that is not allowed is reported. *)
From Coq Require Import List Bool Arith.
From Verif Require Import VisModel VisSpec VisProofs.
Import ListNotations.
Open Scope nat_scope.

(** What is reported is not allowed. *)
Theorem C76_only_partial : forall w s x o d v, lawful w -> found w s o d -> fair w s d x ->
  check w s (Var o) x = Some v -> forbids w (class s) d x v.
Proof. exact report_only. Qed.
Print Assumptions C76_only_partial.
(** What is not allowed is reported. *)
Theorem C76_found_partial : forall w s x o d v, lawful w -> found w s o d -> seen w s d x ->
  forbids w (class s) d x v -> check w s (Var o) x = Some v.
Proof. exact report_found. Qed.
Print Assumptions C76_found_partial.
(** Properties of $this are never reported, and always allowed. *)
Theorem C76_this : forall w s x, check w s This x = None /\ forall m v, ~ forbids w (Some m) m x v.
Proof. intros w s x. split; [apply report_this|intros m v; apply this_allowed]. Qed.
Print Assumptions C76_this.

(** ** Cases: class 2 is below class 1; the others have no base *)
Definition family (p : nat -> nat -> option vis) : world.
Proof.
  refine {| parent := fun c => match c with 2 => Some 1 | _ => None end; chain := fun c => match c with 2 => [2; 1] | _ => [c] end; props := p |}.
  intros [|[|[|c]]]; reflexivity.
Defined.
(** Property 5 of one class. *)
Definition just (c : nat) (v : vis) (c' x : nat) : option vis := if (c' =? c) && (x =? 5) then Some v else None.
(** Code in a method of [me], with a global variable 7 that holds an object of class [d]. *)
Definition no (x : nat) : option (option nat) := None.
Definition holds (o d x : nat) : option (option nat) := if x =? o then Some (Some d) else None.
Definition at_ (me : option nat) (d : nat) : site := {| class := me; scopes := match me with Some _ => [holds 7 d] | None => [] end; globals := holds 7 d |}.

Ltac classes c := destruct c as [|[|[|[|c]]]].
Lemma lawful_just c v : lawful (family (just c v)).
Proof.
  intros a b x P I NE. cbn [props family] in *. unfold just in *. destruct ((a =? c) && (x =? 5)) eqn:E; [|discriminate].
  destruct ((b =? c) && (x =? 5)) eqn:F; [|left; reflexivity]. apply andb_prop in E, F. destruct E as [E _], F as [F _].
  apply Nat.eqb_eq in E, F. subst. contradiction.
Qed.
(** From outside, and from another class: both theorems apply. *)
Example C76_case : forall me, me = None \/ me = Some 3 ->
  let w := family (just 1 Protected) in let s := at_ me 2 in
  lawful w /\ found w s 7 2 /\ fair w s 2 5 /\ seen w s 2 5 /\ forbids w me 2 5 Protected /\ check w s (Var 7) 5 = Some Protected.
Proof.
  intros me E w s. split; [apply lawful_just|]. split; [|split; [|split; [|split]]].
  - constructor; [destruct E; subst; reflexivity|]. intros H. destruct E; subst; [contradiction H; reflexivity|]. eexists. reflexivity.
  - constructor.
    + intros c N. apply lookup_nearest in N. discriminate N.
    + intros m c M N I. destruct E; subst me; [discriminate M|]. injection M as <-. apply lookup_nearest in N. injection N as <-. cbn in I.
      destruct I as [I|[]]. discriminate I.
  - constructor.
    + split; [|destruct E; subst; reflexivity]. intros sc I. destruct E; subst; [destruct I|]. destruct I as [<-|[]]. reflexivity.
    + intros m M I. destruct E; subst me; [discriminate M|]. injection M as <-. cbn in I. destruct I as [I|[]]; discriminate I.
    + intros m c v M N. destruct E; subst me; [discriminate M|]. injection M as <-. apply lookup_nearest in N. discriminate N.
  - split.
    + intros (m & M & I & P). destruct E; subst me; [discriminate M|]. injection M as <-. discriminate P.
    + right. split; [reflexivity|]. split; [discriminate|]. exists 1. split.
      * constructor 2; [left; reflexivity|]. constructor; [reflexivity|discriminate].
      * intros (m & M & I). destruct E; subst me; [discriminate M|]. injection M as <-. cbn in I. intuition discriminate.
  - destruct E; subst; reflexivity.
Qed.
Example C76_private : check (family (just 3 Private)) (at_ (Some 4) 3) (Var 7) 5 = Some Private.
Proof. reflexivity. Qed.

(** ** Where the code goes wrong *)
(** class A { private $x; } class B extends A {} $o = new B; $o->x = 1; makes a new property. *)
Theorem C76_inherited_refuted : let w := family (just 1 Private) in let s := at_ None 2 in
  check w s (Var 7) 5 = Some Private /\ forall v, ~ forbids w None 2 5 v.
Proof.
  split; [reflexivity|]. intros v [_ [[_ P]|(_ & _ & c & I & _)]]; [discriminate P|].
  destruct (inherited_in _ _ _ _ _ I) as (J & P & _). destruct J as [<-|[<-|[]]]; discriminate P.
Qed.
Print Assumptions C76_inherited_refuted.
(** class A { function f() { global $o; $o->x = 1; } } class B extends A { protected $x; } $o = new B; *)
Theorem C76_below_refuted : let w := family (just 2 Protected) in let s := at_ (Some 1) 2 in
  check w s (Var 7) 5 = Some Protected /\ forall v, ~ forbids w (Some 1) 2 5 v.
Proof.
  split; [reflexivity|]. intros v [_ [[_ P]|(_ & _ & c & I & N)]]; [discriminate P|].
  destruct (inherited_in _ _ _ _ _ I) as (J & P & _). destruct J as [<-|[<-|[]]]; [|discriminate P].
  apply N. exists 1. split; [reflexivity|]. right. cbn. auto.
Qed.
Print Assumptions C76_below_refuted.
(** class A { private $x; } class B extends A { function f() { global $o; $o->x = 1; } } $o = new A; is an error. *)
Theorem C76_above_refuted : let w := family (just 1 Private) in let s := at_ (Some 2) 1 in
  check w s (Var 7) 5 = None /\ forbids w (Some 2) 1 5 Private.
Proof.
  split; [reflexivity|]. split; [|left; split; reflexivity]. intros (m & M & I & _). injection M as <-. destruct I as [I|[]]. discriminate I.
Qed.
Print Assumptions C76_above_refuted.
(** A property of the same name in the class where the code is, or a variable of that name, hides the error. *)
Theorem C76_same_name_refuted :
  let w := family (fun c x => if (c =? 3) && (x =? 5) then Some Private else if (c =? 4) && (x =? 5) then Some Public else None) in
  (check w (at_ (Some 4) 3) (Var 7) 5 = None /\ forbids w (Some 4) 3 5 Private) /\
  let s := {| class := None; scopes := []; globals := fun x => if x =? 5 then Some None else holds 7 3 x |} in
  check w s (Var 7) 5 = None /\ forbids w None 3 5 Private.
Proof.
  split; (split; [reflexivity|]); (split; [|left; split; reflexivity]); intros (m & M & I & _); [|discriminate M].
  injection M as <-. destruct I as [I|[]]. discriminate I.
Qed.
Print Assumptions C76_same_name_refuted.
(** The object is taken to be in the global variable of that name: one in a parameter is not found, or is taken to be of
    another class. *)
Theorem C76_variable_refuted : let w := family (just 3 Private) in
  (let s := {| class := None; scopes := [holds 7 3]; globals := no |} in
   classOf s (Var 7) = Some 3 /\ check w s (Var 7) 5 = None /\ forbids w None 3 5 Private) /\
  let s := {| class := None; scopes := [holds 7 4]; globals := holds 7 3 |} in
  classOf s (Var 7) = Some 4 /\ check w s (Var 7) 5 = Some Private /\ forall v, ~ forbids w None 4 5 v.
Proof.
  split; (split; [reflexivity|]); (split; [reflexivity|]).
  - split; [intros (m & M & _); discriminate M|left; split; reflexivity].
  - intros v [_ [[_ P]|(_ & _ & c & I & _)]]; [discriminate P|]. destruct (inherited_in _ _ _ _ _ I) as (J & P & _). destruct J as [<-|[]]; discriminate P.
Qed.
Print Assumptions C76_variable_refuted.
(** In a closure in a method, properties of its own class are reported. *)
Theorem C76_closure_refuted : let w := family (just 3 Private) in
  let s := {| class := Some 3; scopes := [holds 7 3; no]; globals := holds 7 3 |} in
  classOf s (Var 7) = Some 3 /\ check w s (Var 7) 5 = Some Private /\ forall v, ~ forbids w (Some 3) 3 5 v.
Proof. split; [reflexivity|]. split; [reflexivity|]. intros v. apply this_allowed. Qed.
Print Assumptions C76_closure_refuted.
