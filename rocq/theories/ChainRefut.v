(** Where the code departs from PHP: programs for ChainModel.v. *)
From Coq Require Import List Bool Arith NArith String.
From Verif Require Import PhpTypes Chars LookModel ExprModel ExprSpec ExprProofs ChainModel ChainSpec ChainProofs.
Import ListNotations.
Open Scope nat_scope.

Definition prop (s : string) (t : option ty) (i : nat) : member := {| mk := Property; mname := str s; mpriv := false; mty := t; mret := None; mid := i |}.
Definition meth (s : string) (t : option ty) (i : nat) : member := {| mk := Method; mname := str s; mpriv := false; mty := None; mret := t; mid := i |}.
Definition const (s : string) (t : option ty) (i : nat) : member := {| mk := Constant; mname := str s; mpriv := false; mty := t; mret := None; mid := i |}.
Definition s0 : state := {| ty_ := None; uses := [] |}.
Definition obj (c : N) : option ty := Some (Struct c).
(** Class 1: A { function getB(): B; var list; const K; function name(): ..; private secret }, class 2: B { var name;
    function Get(): A }, class 3: C extends B { function name() }; $0 is an A, $1 a B, $2 a C, $3 of unknown type; class
    names at 100: A, 200: B, 300: C *)
Definition secret : member := {| mk := Property; mname := str "secret"; mpriv := true; mty := obj 2; mret := None; mid := 5 |}.
Definition cA : ctx := Ctx 1 [meth "getB" (obj 2) 1; prop "list" None 2; const "K" (obj 2) 3; meth "make" (obj 1) 4; secret; prop "make" None 6] [].
Definition cB : ctx := Ctx 2 [prop "name" (Some (Integral KString)) 1; meth "Get" (obj 1) 2] [].
Definition cC : ctx := Ctx 3 [meth "name" None 1] [cB].
Definition W : world :=
  {| ctxOf := fun c => if N.eqb c 1 then Some cA else if N.eqb c 2 then Some cB else if N.eqb c 3 then Some cC else None;
     varTy := fun p => match p with 0 => obj 1 | 1 => obj 2 | 2 => obj 3 | _ => None end;
     staticOf := fun p => match p with 100 => Some cA | 200 => Some cB | 300 => Some cC | _ => None end |}.
Lemma W_sound : sound W.
Proof.
  intros c x. cbn. destruct (N.eqb_spec c 1) as [->|_]; [|destruct (N.eqb_spec c 2) as [->|_]; [|destruct (N.eqb_spec c 3) as [->|_]; [|discriminate]]];
    intros H; injection H as <-; eexists _, _; (split; [reflexivity|]); cbn.
  1, 2: intros [].
  intros [X|[]]; discriminate.
Qed.

Local Notation ev e := (uses (eval asciiCC W e s0)).
Local Notation V := (Value asciiCC W).
Lemma is_class t c : targetClass t = Some c -> Class t (Some c).
Proof. intros H. apply target_iff. exact H. Qed.
Lemma is_none t : targetClass t = None -> Class t None.
Proof. intros H. pose proof (class_total t) as X. rewrite H in X. exact X. Qed.
Ltac cls := first [apply is_class; reflexivity|apply is_none; reflexivity].
Ltac own m := unfold cA, cB, cC; match goal with |- Has _ _ _ _ (Ctx ?c ?l ?i) _ => apply (H_own asciiCC _ _ _ c l i m); [cbn; tauto|split; reflexivity] end.

(** $a->list[$b]->name: the element of the list is of no known class, but name is looked for in the class of $b. *)
Lemma index_refuted : exists e, V e None [used 4 (1%N, prop "list" None 2)] /\ V (Member e 6 (str "name") false None) None [used 4 (1%N, prop "list" None 2)] /\
  ev (Member e 6 (str "name") false None) = [used 4 (1%N, prop "list" None 2); used 6 (2%N, prop "name" (Some (Integral KString)) 1)].
Proof.
  exists (Elem (Member (Var 0) 4 (str "list") false None) [Some (Var 1)]).
  assert (V (Elem (Member (Var 0) 4 (str "list") false None) [Some (Var 1)]) None ([used 4 (1%N, prop "list" None 2)] ++ [])) as H.
  { eapply V_elem with (k := None).
    - eapply (V_member asciiCC W (Var 0) 1%N cA 4 (str "list") false None [] (1%N, prop "list" None 2) None []); [apply V_var; cls|reflexivity|own (prop "list" None 2)|constructor|cls].
    - cbn. apply (Vs_cons asciiCC W (Var 1) (Some 2%N) [] [] []); [apply V_var; cls|constructor]. }
  split; [exact H|]. split; [|vm_compute; reflexivity].
  exact (V_noclass asciiCC W _ 6 (str "name") false None _ [] H (Vs_nil _ _)).
Qed.

(** $o->$name->x: x is looked for in the class of $name. *)
Lemma dynamic_refuted : exists e, V e None [] /\ V (Member e 6 (str "name") false None) None [] /\
  ev (Member e 6 (str "name") false None) = [used 6 (2%N, prop "name" (Some (Integral KString)) 1)].
Proof.
  exists (VarMember (Var 0) 1 (str "name") false None).
  assert (V (VarMember (Var 0) 1 (str "name") false None) None ([] ++ [])) as H.
  { eapply V_dynamic; [apply V_var; cls|constructor]. }
  split; [exact H|]. split; [|vm_compute; reflexivity].
  exact (V_noclass asciiCC W _ 6 (str "name") false None _ [] H (Vs_nil _ _)).
Qed.

(** $o::$p: the static property is taken for a local variable; no use of it is made, here and in whatever program. *)
Lemma static_variable_refuted : exists d, Class (varTy W 1) (Some 2%N) /\ Has asciiCC true Property (str "name") cB d /\
  forall w b p n args s, uses (eval asciiCC w (VarMember b p n true args) s) = uses (eval asciiCC w (VarMember b p n false args) s).
Proof.
  exists (2%N, prop "name" (Some (Integral KString)) 1). split; [cls|]. split; [own (prop "name" (Some (Integral KString)) 1)|]. reflexivity.
Qed.

(** A method hides the inherited property of the same name. *)
Lemma shadowed_refuted : V (Member (Var 2) 4 (str "name") false None) None [used 4 (2%N, prop "name" (Some (Integral KString)) 1)] /\
  ev (Member (Var 2) 4 (str "name") false None) = [unknown 4].
Proof.
  split; [|vm_compute; reflexivity].
  eapply (V_member asciiCC W (Var 2) 3%N cC 4 (str "name") false None [] _ None []); [apply V_var; cls|reflexivity| |constructor|cls].
  eapply H_base with (b := cB); [|left; reflexivity|own (prop "name" (Some (Integral KString)) 1)|reflexivity].
  intros m [<-|[]] [X _]. discriminate X.
Qed.

(** $o->K is connected to the constant K. *)
Lemma constant_refuted : V (Member (Var 0) 4 (str "K") false None) None [unknown 4] /\
  ev (Member (Var 0) 4 (str "K") false None) = [used 4 (1%N, const "K" (obj 2) 3)].
Proof.
  split; [|vm_compute; reflexivity].
  eapply (V_missing asciiCC W (Var 0) 1%N cA 4 (str "K") false None [] []); [apply V_var; cls|reflexivity| |constructor].
  intros d H. inversion H as [c own imps m A B E1 E2|c own imps b d' A B D P E1 E2]; subst; [|destruct B].
  destruct B as [B1 B2]. cbn in A. repeat (destruct A as [<-|A]; [cbn in B1; try discriminate B1; vm_compute in B2; discriminate B2|]). exact A.
Qed.

(** A::make() is connected to a property make declared after the method. *)
Lemma static_call_refuted : V (StaticCall 100 101 (str "make") []) (Some 1%N) [used 101 (1%N, meth "make" (obj 1) 4)] /\
  ev (StaticCall 100 101 (str "make") []) = [used 101 (1%N, prop "make" None 6)].
Proof.
  split; [|vm_compute; reflexivity].
  eapply (V_call asciiCC W 100 101 (str "make") [] cA _ (Some 1%N) []); [reflexivity|own (meth "make" (obj 1) 4)|constructor|cls].
Qed.

(** C::m() without a method m is not marked; behind -> it is. *)
Lemma missing_refuted : (forall d, ~ Has asciiCC false Method (str "nothing") cB d) /\ staticOf W 200 = Some cB /\
  ev (StaticCall 200 201 (str "nothing") []) = [] /\ ev (Member (Var 1) 4 (str "nothing") false (Some [])) = [unknown 4].
Proof.
  split; [|split; [reflexivity|split; vm_compute; reflexivity]].
  intros d H. inversion H as [c own imps m A B E1 E2|c own imps b d' A B D P E1 E2]; subst; [|destruct B].
  destruct B as [B1 B2]. cbn in A. repeat (destruct A as [<-|A]; [cbn in B1; try discriminate B1; vm_compute in B2; discriminate B2|]). exact A.
Qed.

(** f()[$a->list][0]: only the last index is visited. *)
Lemma lost_index_refuted : let e := Elem (Member (Var 0) 4 (str "GETB") false (Some [])) [Some (Member (Var 0) 7 (str "list") false None); Some (Node [] (Some (Integral KInt)))] in
  V e None [used 4 (1%N, meth "getB" (obj 2) 1); used 7 (1%N, prop "list" None 2)] /\ ev e = [used 4 (1%N, meth "getB" (obj 2) 1)].
Proof.
  split; [|vm_compute; reflexivity].
  change [used 4 (1%N, meth "getB" (obj 2) 1); used 7 (1%N, prop "list" None 2)] with ([used 4 (1%N, meth "getB" (obj 2) 1)] ++ [used 7 (1%N, prop "list" None 2)]).
  eapply V_elem with (k := Some 2%N).
  - eapply (V_member asciiCC W (Var 0) 1%N cA 4 (str "GETB") false (Some []) [] (1%N, meth "getB" (obj 2) 1) (Some 2%N) []); [apply V_var; cls|reflexivity|own (meth "getB" (obj 2) 1)|constructor|cls].
  - cbn. apply (Vs_cons asciiCC W _ None [used 7 (1%N, prop "list" None 2)] _ []).
    + eapply (V_member asciiCC W (Var 0) 1%N cA 7 (str "list") false None [] (1%N, prop "list" None 2) None []); [apply V_var; cls|reflexivity|own (prop "list" None 2)|constructor|cls].
    + apply (Vs_cons asciiCC W _ None [] [] []); [|constructor]. apply V_node; [constructor|cls].
Qed.

(** A program the theorems are about: $a->getB($x)->name *)
Definition inner : ex := Member (Var 0) 10 (str "getB") false (Some [Elem (Var 3) [Some (Node [] None)]]).
Lemma class_fun t c k : targetClass t = Some c -> Class t k -> k = Some c.
Proof.
  destruct k as [d|]; cbn; intros H K.
  - apply target_iff in K. congruence.
  - exfalso. apply (K c). apply target_iff. exact H.
Qed.
Lemma var_inv p c k us : targetClass (varTy W p) = Some c -> V (Var p) k us -> k = Some c.
Proof.
  intros H X. inversion X as [|p1 k1 K E1 E2 E3| | | | | | | | | | | | | |]; subst. exact (class_fun _ _ _ H K).
Qed.
Lemma has_getB d : Has asciiCC true Method (str "getB") cA d -> d = (1%N, meth "getB" (obj 2) 1).
Proof.
  intros H. inversion H as [c own imps m A B E1 E2|c own imps b d' A B D P E1 E2]; subst; [|destruct B].
  destruct B as [B1 B2]. cbn in A. repeat (destruct A as [<-|A]; [first [reflexivity|cbn in B1; discriminate B1|vm_compute in B2; discriminate B2]|]). destruct A.
Qed.
Lemma has_name v d : Has asciiCC v Property (str "name") cB d -> d = (2%N, prop "name" (Some (Integral KString)) 1).
Proof.
  intros H. inversion H as [c own imps m A B E1 E2|c own imps b d' A B D P E1 E2]; subst; [|destruct B].
  destruct B as [B1 B2]. cbn in A. repeat (destruct A as [<-|A]; [first [reflexivity|cbn in B1; discriminate B1|vm_compute in B2; discriminate B2]|]). destruct A.
Qed.
Lemma inner_inv c us : V inner (Some c) us -> c = 2%N.
Proof.
  intros H. inversion H as [| |e1 c1 x1 p1 n1 st1 a1 us1 d1 k1 vs1 A B C D E E1 E2 E3| | | | | | | | | | | | |]; subst.
  apply (var_inv 0 1%N) in A; [|reflexivity]. injection A as ->. cbn in B. injection B as <-. apply has_getB in C. subst d1.
  pose proof (class_fun (obj 2) 2%N _ eq_refl E) as X. congruence.
Qed.
Lemma plain_example : plain asciiCC W (Member inner 11 (str "name") false None).
Proof.
  assert (forall e, (forall b l, e <> Elem b l) -> (forall b p n st a, e <> VarMember b p n st a) -> firm asciiCC W e) as F by (intros; apply F_other; assumption).
  cbn [plain]. split; [|split; [apply F; discriminate|split; [exact I|]]].
  - cbn. split; [exact I|]. split; [apply F; discriminate|]. split; [repeat split; discriminate|].
    intros c us x A B. apply (var_inv 0 1%N) in A; [|reflexivity]. injection A as ->. cbn in B. injection B as <-. split.
    + left. split.
      * exists (meth "getB" (obj 2) 1). split; [left; reflexivity|split; reflexivity].
      * intros m _ _ [R|R]; [discriminate R|]. destruct (mk m); [reflexivity|destruct R|destruct R].
    + intros X. congruence.
  - intros c us x A B. apply inner_inv in A. subst c. cbn in B. injection B as <-. split.
    + left. split.
      * exists (prop "name" (Some (Integral KString)) 1). split; [left; reflexivity|split; reflexivity].
      * cbn. intros m [<-|[<-|[]]] X Y; [reflexivity|vm_compute in X; discriminate X].
    + intros _ d d' A B _. apply has_name in A, B. congruence.
Qed.
