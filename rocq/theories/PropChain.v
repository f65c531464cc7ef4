(** C73: member accesses lead to the member of the object's class. *)
From Coq Require Import List Bool Arith NArith String.
From Verif Require Import PhpTypes Chars LookModel ExprModel ExprSpec ChainModel ChainSpec ChainProofs ChainProofs2 ChainRefut.
Import ListNotations.
Open Scope nat_scope.

(** Each member named in an expression, in whatever depth, is connected to the member PHP reaches, and marked if there is
    none; and the class of the whole expression is known. *)
Theorem C73_members_partial : forall cc w e s, sound w -> plain cc w e ->
  exists k us, Value cc w e k us /\ uses (eval cc w e s) = uses s ++ us /\ (firm cc w e -> Class (ty_ (eval cc w e s)) k).
Proof. intros cc w e s S. exact (chain_ok cc w S e s). Qed.
Print Assumptions C73_members_partial.

(** In all expressions: a name is connected only to members with that name, of the classes the program has. *)
Theorem C73_named : forall cc w e s p c i, In {| up := p; ud := Some (c, i) |} (uses (eval cc w e s)) -> ~ In {| up := p; ud := Some (c, i) |} (uses s) ->
  exists n call x m, Named e p n call /\ (exists c', ctxOf w c' = Some x \/ exists q, staticOf w q = Some x) /\ Declares x (c, m) /\ mid m = i /\
    idOf cc m = (if call then lower cc n else n).
Proof. intros cc w e s p c i. exact (chain_named cc w e s p c i). Qed.
Print Assumptions C73_named.
Theorem C73_marked_named : forall cc w e s p, In {| up := p; ud := None |} (uses (eval cc w e s)) -> ~ In {| up := p; ud := None |} (uses s) ->
  exists n call, Named e p n call.
Proof. intros cc w e s p. exact (chain_unknown cc w e s p). Qed.
Print Assumptions C73_marked_named.

(** ** Where the code goes wrong (ChainRefut.v) *)
Local Notation V := (Value asciiCC W).
Local Notation ev e := (uses (eval asciiCC W e s0)).
Theorem C73_index_class_refuted : exists e, V e None [used 4 (1%N, prop "list" None 2)] /\ V (Member e 6 (str "name") false None) None [used 4 (1%N, prop "list" None 2)] /\
  ev (Member e 6 (str "name") false None) = [used 4 (1%N, prop "list" None 2); used 6 (2%N, prop "name" (Some (Integral KString)) 1)].
Proof. exact index_refuted. Qed.
Print Assumptions C73_index_class_refuted.
Theorem C73_variable_name_class_refuted : exists e, V e None [] /\ V (Member e 6 (str "name") false None) None [] /\
  ev (Member e 6 (str "name") false None) = [used 6 (2%N, prop "name" (Some (Integral KString)) 1)].
Proof. exact dynamic_refuted. Qed.
Print Assumptions C73_variable_name_class_refuted.
Theorem C73_static_of_object_refuted : exists d, Class (varTy W 1) (Some 2%N) /\ Has asciiCC true Property (str "name") cB d /\
  forall w b p n args s, uses (eval asciiCC w (VarMember b p n true args) s) = uses (eval asciiCC w (VarMember b p n false args) s).
Proof. exact static_variable_refuted. Qed.
Print Assumptions C73_static_of_object_refuted.
Theorem C73_shadowed_refuted : V (Member (Var 2) 4 (str "name") false None) None [used 4 (2%N, prop "name" (Some (Integral KString)) 1)] /\
  ev (Member (Var 2) 4 (str "name") false None) = [unknown 4].
Proof. exact shadowed_refuted. Qed.
Print Assumptions C73_shadowed_refuted.
Theorem C73_constant_as_property_refuted : V (Member (Var 0) 4 (str "K") false None) None [unknown 4] /\
  ev (Member (Var 0) 4 (str "K") false None) = [used 4 (1%N, const "K" (obj 2) 3)].
Proof. exact constant_refuted. Qed.
Print Assumptions C73_constant_as_property_refuted.
Theorem C73_static_call_refuted : V (StaticCall 100 101 (str "make") []) (Some 1%N) [used 101 (1%N, meth "make" (obj 1) 4)] /\
  ev (StaticCall 100 101 (str "make") []) = [used 101 (1%N, prop "make" None 6)].
Proof. exact static_call_refuted. Qed.
Print Assumptions C73_static_call_refuted.
Theorem C73_missing_unmarked_refuted : (forall d, ~ Has asciiCC false Method (str "nothing") cB d) /\ staticOf W 200 = Some cB /\
  ev (StaticCall 200 201 (str "nothing") []) = [] /\ ev (Member (Var 1) 4 (str "nothing") false (Some [])) = [unknown 4].
Proof. exact missing_refuted. Qed.
Print Assumptions C73_missing_unmarked_refuted.
Theorem C73_lost_index_refuted : let e := Elem (Member (Var 0) 4 (str "GETB") false (Some [])) [Some (Member (Var 0) 7 (str "list") false None); Some (Node [] (Some (Integral KInt)))] in
  V e None [used 4 (1%N, meth "getB" (obj 2) 1); used 7 (1%N, prop "list" None 2)] /\ ev e = [used 4 (1%N, meth "getB" (obj 2) 1)].
Proof. exact lost_index_refuted. Qed.
Print Assumptions C73_lost_index_refuted.

(** The hypotheses are met: $a->getB()->GET()->secret->name with an argument $b->name, and C::K->name *)
Example chain : ex :=
  Member (Member (Member (Member (Var 0) 10 (str "getB") false (Some [Member (Var 1) 11 (str "name") false None])) 12 (str "GET") false (Some []))
    13 (str "secret") false None) 14 (str "name") false None.
Example chain_uses : ev chain =
  [used 10 (1%N, meth "getB" (obj 2) 1); used 11 (2%N, prop "name" (Some (Integral KString)) 1); used 12 (2%N, meth "Get" (obj 1) 2);
   used 13 (1%N, secret); used 14 (2%N, prop "name" (Some (Integral KString)) 1)].
Proof. vm_compute. reflexivity. Qed.
Example missing_uses : ev (Member (Member (Var 0) 10 (str "getb") false (Some [])) 11 (str "nAME") false None) = [used 10 (1%N, meth "getB" (obj 2) 1); unknown 11].
Proof. vm_compute. reflexivity. Qed.
Example inherited_uses : ev (Member (Member (Var 2) 10 (str "get") false (Some [])) 11 (str "list") false None) = [used 10 (2%N, meth "Get" (obj 1) 2); used 11 (1%N, prop "list" None 2)].
Proof. vm_compute. reflexivity. Qed.
Example sound_W : sound W.
Proof. exact W_sound. Qed.
Example plain_chain : plain asciiCC W (Member inner 11 (str "name") false None).
Proof. exact plain_example. Qed.
Example plain_chain_uses : ev (Member inner 11 (str "name") false None) = [used 10 (1%N, meth "getB" (obj 2) 1); used 11 (2%N, prop "name" (Some (Integral KString)) 1)].
Proof. vm_compute. reflexivity. Qed.
