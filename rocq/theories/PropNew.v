(** C79: the class named behind new. *)
From Coq Require Import List Bool Arith NArith String.
From Verif Require Import PhpTypes Chars LookModel ExprModel ExprSpec ExprProofs ChainModel ChainSpec ChainProofs ChainRefut NewModel NewSpec NewProofs.
Import ListNotations.
Open Scope nat_scope.

(** Where only names follow, with indices at the end at most, exactly the right uses are made. *)
Theorem C79_members_partial : forall cc w, tidy cc w -> forall b r s, smoothFront cc b r ->
  (forall k us, Front cc b k us -> smooth cc w k r) ->
  exists k us vs s', Front cc b k us /\ Path cc w k r vs /\ classNameReference cc w b r s = Some s' /\ s_uses s' = s_uses s ++ us ++ vs.
Proof. exact reference_ok. Qed.
Print Assumptions C79_members_partial.

(** Reading it ends well unless ::${e} is among the parts with an expression [e] that leaves no declaration; and in that case it
    does not. *)
Theorem C79_ends_partial : forall cc w b l s, Forall calm l -> classNameReference cc w b l s <> None.
Proof. exact reference_calm. Qed.
Print Assumptions C79_ends_partial.
Theorem C79_crash : forall cc w v p e l r t s, i_found v = Some (Some t) -> i_found e = Some None ->
  classNameReference cc w (FromVar v []) (StaticExpr p e l :: r) s = None.
Proof. exact crash_general. Qed.
Print Assumptions C79_crash.

(** ** A program: class A { var $b: B; var $list; }  class B { var $name: string; var $a: A; } *)
Definition kA : ctx := Ctx 1 [prop "b" (obj 2) 1; prop "list" None 2] [].
Definition kB : ctx := Ctx 2 [prop "name" (Some (Integral KString)) 3; prop "a" (obj 1) 4] [].
Definition U : world :=
  {| ctxOf := fun c => if N.eqb c 1 then Some kA else if N.eqb c 2 then Some kB else None; varTy := fun _ => None; staticOf := fun _ => None |}.
Lemma clear_props c l n : (forall m, In m l -> mk m = Property) -> clear asciiCC true Property n (Ctx c l []).
Proof.
  intros H. cbn [clear].
  assert (D : (exists m, In m l /\ called asciiCC Property n m) \/ (forall m, In m l -> idOf asciiCC m <> n)).
  { induction l as [|m l IH]; [right; intros ? []|].
    destruct (IH (fun m' h => H m' (or_intror h))) as [(m' & A & B)|A]; [left; exists m'; split; [now right|exact B]|].
    assert (Hm : mk m = Property) by (apply H; now left).
    destruct (list_eq_dec N.eq_dec (mname m) n) as [E|E].
    - left. exists m. split; [now left|]. split; [exact Hm|exact E].
    - right. intros m' [<-|X]; [unfold idOf; now rewrite Hm|now apply A]. }
  destruct D as [D|D]; [left|right].
  - split; [exact D|]. intros m Hm _ _. now apply H.
  - split; [exact D|exact I].
Qed.
Lemma has_own n c l d : Has asciiCC false Property n (Ctx c l []) d -> exists m, In m l /\ d = (c, m) /\ mname m = n.
Proof. intros H. inversion H as [? ? ? m Hm [_ Hn]|? ? ? b ? _ Hb]; subst; [exists m; auto|destruct Hb]. Qed.
Example tidy_U : tidy asciiCC U.
Proof.
  intros c x n. cbn. destruct (N.eqb_spec c 1) as [->|_]; [|destruct (N.eqb_spec c 2) as [->|_]; [|discriminate]];
    intros H; injection H as <-; (split; [apply clear_props; intros m [<-|[<-|[]]]; reflexivity|]).
  all: intros d Hd; apply has_own in Hd; destruct Hd as (m & [<-|[<-|[]]] & -> & _) ; intros l; discriminate.
Qed.

Definition vA : inner := {| i_uses := [{| up := 0; ud := Some (9%N, 0) |}]; i_found := Some (Some (obj 1)) |}.
(** a literal; a variable of class A; an undeclared variable *)
Definition lit : inner := {| i_uses := []; i_found := None |}.
Definition vI : inner := {| i_uses := [{| up := 7; ud := Some (9%N, 7) |}]; i_found := Some (Some (obj 1)) |}.
Definition vU : inner := {| i_uses := [unknown 8]; i_found := Some None |}.
Definition start0 : st := {| s_found := None; s_uses := [] |}.
Definition run (v : inner) (l : list part) : option (list use) :=
  match classNameReference asciiCC U (FromVar v []) l start0 with Some s => Some (s_uses s) | None => None end.

Definition dB := (1%N, prop "b" (obj 2) 1).
Definition dName := (2%N, prop "name" (Some (Integral KString)) 3).
Definition dA := (2%N, prop "a" (obj 1) 4).
Definition dList := (1%N, prop "list" None 2).
Lemma has_b : Has asciiCC false Property (str "b") kA dB.
Proof. apply (H_own asciiCC false Property (str "b") 1%N [prop "b" (obj 2) 1; prop "list" None 2] []); [cbn; auto|split; reflexivity]. Qed.
Lemma has_list : Has asciiCC false Property (str "list") kA dList.
Proof. apply (H_own asciiCC false Property (str "list") 1%N [prop "b" (obj 2) 1; prop "list" None 2] []); [cbn; auto|split; reflexivity]. Qed.

(** new $a->b->a->list[$i]: the hypotheses are met. *)
Definition good : list part := [Name 1 (str "b") []; Name 2 (str "a") []; Name 3 (str "list") [vI]].
Example good_run : run vA good = Some (i_uses vA ++ [used 1 dB; used 2 dA; used 3 dList] ++ i_uses vI).
Proof. reflexivity. Qed.
Example good_smooth : forall k us, Front asciiCC (FromVar vA []) k us -> smooth asciiCC U k good.
Proof.
  intros k us H. inversion H as [v l k' Hk E1 E2 E3| | |]; subst. cbn in Hk.
  assert (k = Some 1%N) as -> by (rewrite <- (class_target _ _ Hk); reflexivity).
  apply (S_more asciiCC U 1%N kA _ _ 1 (str "b")); [reflexivity|reflexivity|exists dB; exact has_b|].
  intros d k' Hd Hk'. apply has_own in Hd. destruct Hd as (m & [<-|[<-|[]]] & -> & Hn); [|discriminate Hn].
  assert (k' = Some 2%N) as -> by (rewrite <- (class_target _ _ Hk'); reflexivity).
  apply (S_more asciiCC U 2%N kB _ _ 2 (str "a")); [reflexivity|reflexivity| |].
  { exists dA. apply (H_own asciiCC false Property (str "a") 2%N [prop "name" (Some (Integral KString)) 3; prop "a" (obj 1) 4] []); [cbn; auto|split; reflexivity]. }
  intros d k' Hd Hk2. apply has_own in Hd. destruct Hd as (m & [<-|[<-|[]]] & -> & Hn2); [discriminate Hn2|].
  assert (k' = Some 1%N) as -> by (rewrite <- (class_target _ _ Hk2); reflexivity).
  now apply (S_index asciiCC U 1%N kA _ 3 (str "list") [vI]).
Qed.
Example good_proved : exists k us vs s', Front asciiCC (FromVar vA []) k us /\ Path asciiCC U k good vs /\
  classNameReference asciiCC U (FromVar vA []) good start0 = Some s' /\ s_uses s' = s_uses start0 ++ us ++ vs.
Proof. apply C79_members_partial; [exact tidy_U|split; [intros l; discriminate|now left]|exact good_smooth]. Qed.

(** ** Where the code goes wrong.  In each, [Path] gives the uses due behind an object of class A. *)
Local Notation P l us := (Path asciiCC U (Some 1%N) l us).
Ltac prop_b := apply (P_property asciiCC U 1%N kA _ _ 1 (str "b") _ dB None); [reflexivity|reflexivity|exact has_b|reflexivity|].

(** new $a->b[0]->name: an element of [b] has no known class, but the name is connected to the property of the class of [b] itself. *)
Theorem C79_index_class_refuted : exists l us vs, P l us /\ run vA l = Some (i_uses vA ++ us ++ vs) /\ In (used 2 dName) vs.
Proof.
  exists [Name 1 (str "b") [lit]; Name 2 (str "name") []], [used 1 dB], [used 2 dName]. split; [|split; [reflexivity|now left]].
  change [used 1 dB] with ([used 1 dB] ++ all [lit] ++ []). prop_b.
  apply (P_noclass asciiCC U (Name 2 (str "name") []) [] []). constructor.
Qed.
Print Assumptions C79_index_class_refuted.
(** new $a->b[$i]->b: the second name is looked for in the class of the index. *)
Theorem C79_index_variable_refuted : exists l us vs, P l us /\ run vA l = Some (i_uses vA ++ us ++ vs) /\ In (used 2 dB) vs.
Proof.
  exists [Name 1 (str "b") [vI]; Name 2 (str "b") []], ([used 1 dB] ++ i_uses vI), [used 2 dB]. split; [|split; [reflexivity|now left]].
  change ([used 1 dB] ++ i_uses vI) with ([used 1 dB] ++ all [vI] ++ []). prop_b.
  apply (P_noclass asciiCC U (Name 2 (str "b") []) [] []). constructor.
Qed.
Print Assumptions C79_index_variable_refuted.
(** new $u->b[$i], nothing being known of $u; new $a->x->b[$i], A having no x; new $a->$x[$i]: the index is not looked at. *)
Theorem C79_lost_index_refuted :
  (Path asciiCC U None [Name 1 (str "b") [vI]] (i_uses vI) /\ run vU [Name 1 (str "b") [vI]] = Some (i_uses vU)) /\
  (P [Name 2 (str "x") []; Name 1 (str "b") [vI]] ([unknown 2] ++ i_uses vI) /\
     run vA [Name 2 (str "x") []; Name 1 (str "b") [vI]] = Some (i_uses vA ++ [unknown 2])) /\
  (P [ByVar vU [vI]] (i_uses vU ++ i_uses vI) /\ run vA [ByVar vU [vI]] = Some (i_uses vA ++ i_uses vU)).
Proof.
  assert (HN : Path asciiCC U None [Name 1 (str "b") [vI]] (i_uses vI)).
  { apply (P_noclass asciiCC U (Name 1 (str "b") [vI]) [] []). constructor. }
  split; [split; [exact HN|reflexivity]|]. split; [split; [|reflexivity]|split; [|reflexivity]].
  - change ([unknown 2] ++ i_uses vI) with ([unknown 2] ++ all [] ++ i_uses vI).
    apply (P_missing asciiCC U 1%N kA _ _ 2 (str "x")); [reflexivity|reflexivity| |exact HN].
    intros d Hd. apply has_own in Hd. destruct Hd as (m & [<-|[<-|[]]] & _ & Hn); discriminate Hn.
  - apply (P_dynamic asciiCC U 1%N (ByVar vU [vI]) [] []); [reflexivity|constructor].
Qed.
Print Assumptions C79_lost_index_refuted.
(** new $a->{e} and new $a->$$i: the expression, or variable, is not looked at; and with new $a->{e}->b the last name is looked for in
    the class of $a. *)
Theorem C79_braces_refuted : (P [Brace vI []] (i_uses vI) /\ run vA [Brace vI []] = Some (i_uses vA)) /\
  (P [ByIndirect vI []] (i_uses vI) /\ run vA [ByIndirect vI []] = Some (i_uses vA)) /\
  (P [Brace vI []; Name 2 (str "b") []] (i_uses vI) /\ run vA [Brace vI []; Name 2 (str "b") []] = Some (i_uses vA ++ [used 2 dB])).
Proof.
  repeat split.
  - apply (P_dynamic asciiCC U 1%N (Brace vI []) [] []); [reflexivity|constructor].
  - apply (P_dynamic asciiCC U 1%N (ByIndirect vI []) [] []); [reflexivity|constructor].
  - apply (P_dynamic asciiCC U 1%N (Brace vI []) [Name 2 (str "b") []] []); [reflexivity|].
    apply (P_noclass asciiCC U (Name 2 (str "b") []) [] []). constructor.
Qed.
Print Assumptions C79_braces_refuted.
(** $a is an A or null: the name is not connected. *)
Theorem C79_unsure_refuted : exists v t, i_found v = Some (Some t) /\ Class t (Some 1%N) /\
  P [Name 1 (str "b") []] [used 1 dB] /\ run v [Name 1 (str "b") []] = Some (i_uses v).
Proof.
  exists {| i_uses := []; i_found := Some (Some (Some (Unsure [Struct 1; Integral KNull]))) |}, (Some (Unsure [Struct 1; Integral KNull])).
  split; [reflexivity|]. split; [|split; [|reflexivity]].
  - right. exists [], [Integral KNull]. split; [reflexivity|]. split; [intros d []|intros d [X|[]]; discriminate X].
  - change [used 1 dB] with ([used 1 dB] ++ all [] ++ []).
    apply (P_property asciiCC U 1%N kA _ _ 1 (str "b") _ dB (Some 2%N)); [reflexivity|reflexivity|exact has_b|now left|constructor].
Qed.
Print Assumptions C79_unsure_refuted.
(** new $a::${$u}, $u being undeclared: last() of an empty list. *)
Theorem C79_crash_refuted : exists l, run vA l = None.
Proof. exists [StaticExpr 1 vU []]. reflexivity. Qed.
Print Assumptions C79_crash_refuted.
