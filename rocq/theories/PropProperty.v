(** C67: the properties a class gets from its methods.  Vocabulary in PropertySpec.v. *)
From Coq Require Import List Bool Arith.
From Verif Require Import PhpTypes MergeModel VarModel VarSpec PropertySpec PropertyProofs3 PropertyProofs4.
Import ListNotations.
Open Scope nat_scope.

(** A class with the methods [ms] declares, besides what it declared before, nothing but properties
    its methods give a value through [$this]. *)
Theorem C67_only_partial : forall T F ms s x, isClass (cur s) = true ->
  (forall m, In m ms -> exists ps us b, m = Fun ps us b /\ okP (cft s) b) ->
  declared (cur (visit T F (Op ms) s)) x -> declared (cur s) x \/ exists ps us b, In (Fun ps us b) ms /\ GivesP b x.
Proof. intros T F ms s x HC HM. exact (proj1 (class_steps T F ms s HC HM) x). Qed.
Print Assumptions C67_only_partial.
(** It declares each such property (here or further down), unless the method has a parameter or
    variable of that name, or there is a global variable of that name. *)
Theorem C67_declared_partial : forall T F ms s x ps us b, isClass (cur s) = true ->
  (forall m, In m ms -> exists ps us b, m = Fun ps us b /\ okP (cft s) b) ->
  In (Fun ps us b) ms -> GivesP b x ->
  ~ Mentions b x -> ~ In x (map (fun q => snd (fst q)) ps) -> ~ In x (map snd us) -> ~ anyDeclared (outer s) x ->
  declared (cur (visit T F (Op ms) s)) x \/ upcoming (cur s) x.
Proof. intros T F ms s x ps us b HC HM. exact (proj2 (class_steps T F ms s HC HM) x ps us b). Qed.
Print Assumptions C67_declared_partial.
(** In a method, at any moment. *)
Theorem C67_method_partial : forall T F n s c r, outer s = c :: r -> isClass c = true -> isClass (cur s) = false -> okP (cft s) n ->
  exists c', outer (visit T F n s) = c' :: r /\ (forall x, declared c' x -> declared c x \/ GivesP n x) /\
    (forall x, GivesP n x -> ~ Mentions n x -> ~ declared (cur s) x -> ~ anyDeclared r x -> declared c' x \/ upcoming c x).
Proof. intros T F n s c r E HK HC HO. exact (visit_prop T F n s HO c r E HK HC). Qed.
Print Assumptions C67_method_partial.

(** ** What goes wrong outside *)
Definition v (x : nat) : nd := Var (BName x x false) [] [].
Definition prop (x : nat) : nd := Var (BName (10 * x) this false) [{| sname := Some (10 * x + 1, x); sindexed := false; scalled := false |}] [].
Definition file : scope := {| sk := KTop; own := []; imps := [] |}.
Definition class : scope := {| sk := KClass false false 0 []; own := []; imps := [] |}.
Definition start : st := {| fnd := fresh; cft := None; heap := []; cur := class; outer := [file]; last := Integral KMixed; closed := []; probs := [] |}.
Definition mixed (s : st) (n : nd) : ty := Integral KMixed.
Definition int (s : st) (n : nd) : ty := Integral KInt.
Definition names (c : scope) : list nat := map en (own c ++ imps c).
Lemma undeclared c x : ~ In x (names c) -> ~ declared c x.
Proof. intros H (e & He & <-). apply H. now apply in_map. Qed.

Lemma declared_by c l x : names c = l -> In x l -> declared c x.
Proof. intros <- H. apply in_map_iff in H as (e & E & He). exists e. auto. Qed.

(** [function __construct($name) { $this->name = $name; }] declares no property. *)
Theorem C67_parameter_refuted : exists ps b, GivesP b 1 /\ okP (cft start) b /\
  ~ declared (cur (visit int mixed (Fun ps [] b) start)) 1 /\ ~ upcoming class 1.
Proof.
  exists [(1, 1, Integral KString)], (Assign (prop 1) (v 1)). split; [apply H_assign; repeat constructor|].
  split; [cbn; repeat split; repeat constructor; discriminate|]. split; [apply undeclared; vm_compute; tauto|]. intros [].
Qed.
Print Assumptions C67_parameter_refuted.
(** The same with a global variable of that name. *)
Theorem C67_global_refuted : exists g b, GivesP b 1 /\ okP (cft start) b /\
  ~ declared (cur (visit int mixed (Fun [] [] b) (setOuter [g] start))) 1.
Proof.
  exists {| sk := KTop; own := [{| en := 1; ep := 1; ei := 0; ek := EVariable; ea := false |}]; imps := [] |}, (Assign (prop 1) Val).
  split; [apply H_assign; repeat constructor|]. split; [cbn; repeat split; repeat constructor; discriminate|]. apply undeclared. vm_compute. tauto.
Qed.
Print Assumptions C67_global_refuted.
(** [$x = null; $this->x = 5;] gives the local variable [$x] the type int. *)
Definition nullFirst (s : st) (n : nd) : ty := match heap s with [] => Integral KNull | _ => Integral KInt end.
Theorem C67_local_refuted : exists b c, GivesP b 1 /\ closed (visit nullFirst mixed (Fun [] [] b) start) = [c] /\
  map (fun e => (en e, typeAt (heap (visit nullFirst mixed (Fun [] [] b) start)) (ei e))) (own c) = [(1, Integral KInt)] /\
  ~ declared (cur (visit nullFirst mixed (Fun [] [] b) start)) 1.
Proof.
  exists (Op [Assign (v 1) Val; Assign (prop 1) Val]), {| sk := KBody; own := [{| en := 1; ep := 1; ei := 0; ek := EVariable; ea := false |}]; imps := [] |}.
  split; [|split; [vm_compute; reflexivity|split; [vm_compute; reflexivity|apply undeclared; vm_compute; tauto]]].
  apply (H_part _ (Assign (prop 1) Val)); [constructor; cbn; auto|]. apply H_assign. repeat constructor.
Qed.
Print Assumptions C67_local_refuted.
(** In a closure in a method, [$this->x = 1] declares nothing. *)
Theorem C67_closure_refuted : exists b f, GivesP f 1 /\ Inside b (Fun [] [] f) /\ okP (cft start) b /\ okP (cft start) f /\
  ~ declared (cur (visit int mixed (Fun [] [] b) start)) 1.
Proof.
  exists (Fun [] [] (Assign (prop 1) Val)), (Assign (prop 1) Val). split; [apply H_assign; repeat constructor|]. split; [constructor|].
  split; [exact I|]. split; [cbn; repeat split; repeat constructor; discriminate|]. apply undeclared. vm_compute. tauto.
Qed.
Print Assumptions C67_closure_refuted.
(** [sort($this->items())] declares a property with the name of the method. *)
Theorem C67_call_refuted : exists b, ~ GivesP b 1 /\ declared (cur (visit int mixed (Fun [] [] b) start)) 1.
Proof.
  exists (Call (Function (Some [true])) [Var (BName 5 this false) [{| sname := Some (6, 1); sindexed := false; scalled := true |}] []]). split.
  - intros H. apply givesP_call in H as [(k & [<-|[]] & H)|(i & a & H1 & H2 & H3)].
    + apply givesP_var in H as (k & [] & _).
    + destruct i as [|[|i]]; try discriminate. injection H1 as <-. inversion H3.
  - apply (declared_by _ [1]); [vm_compute; reflexivity|now left].
Qed.
Print Assumptions C67_call_refuted.
(** [$node->this->x = 1] is taken for [$this->x = 1]. *)
Theorem C67_this_refuted : exists b, ~ GivesP b 1 /\ declared (cur (visit int mixed (Fun [] [] b) start)) 1.
Proof.
  exists (Assign (Var (BName 5 9 false) [{| sname := Some (6, this); sindexed := false; scalled := false |}; {| sname := Some (7, 1); sindexed := false; scalled := false |}] []) Val). split.
  - intros H. apply givesP_assign in H as [[H|H]|H].
    + apply givesP_var in H as (k & [] & _).
    + revert H. apply givesP_leaf; [intros k H; inversion H|exact I].
    + inversion H as [? ? H1|]; subst. inversion H1.
  - apply (declared_by _ [1]); [vm_compute; reflexivity|now left].
Qed.
Print Assumptions C67_this_refuted.
(** [$this->x = 1; $this->x = "a";]: the property has the type of its first value only; a variable
    would have both (C66_types_partial). *)
Definition two (s : st) (n : nd) : ty := match heap s with [] => Integral KInt | _ => Integral KString end.
Theorem C67_type_refuted : exists b, okP (cft start) b /\
  map (fun e => (en e, typeAt (heap (visit two mixed (Fun [] [] b) start)) (ei e))) (own (cur (visit two mixed (Fun [] [] b) start))) = [(1, Integral KInt)] /\
  map (fun e => (en e, typeAt (heap (visit two mixed (Op [Assign (v 1) Val; Assign (Var (BName 3 1 false) [] []) Val]) start)) (ei e)))
    (own (cur (visit two mixed (Op [Assign (v 1) Val; Assign (Var (BName 3 1 false) [] []) Val]) start))) = [(1, Unsure [Integral KInt; Integral KString])].
Proof.
  exists (Op [Assign (prop 1) Val; Assign (Var (BName 3 this false) [{| sname := Some (4, 1); sindexed := false; scalled := false |}] []) Val]).
  split; [cbn; repeat split; repeat constructor; discriminate|]. split; vm_compute; reflexivity.
Qed.
Print Assumptions C67_type_refuted.

(** ** A case: [function a($p) { $this->x = $p; list($this->y, $l) = $p; foreach ($p as $this->z) {} }
     function b() { $this->w[] = 1; sort($this->x); }] *)
Definition methods : list nd := [
  Fun [(3, 20, Integral KMixed)] [] (Op [Assign (prop 1) (v 20); Op [Op [Elem (prop 2); Elem (v 21)]; v 20]; Foreach (v 20) (prop 3) None Val]);
  Fun [] [] (Op [Assign (Var (BName 50 this false) [{| sname := Some (51, 4); sindexed := true; scalled := false |}] []) Val; Call (Function (Some [true])) [prop 1]])].
Example C67_case : isClass (cur start) = true /\ (forall m, In m methods -> exists ps us b, m = Fun ps us b /\ okP (cft start) b) /\
  names (cur (visit int mixed (Op methods) start)) = [1; 2; 3; 4] /\
  exists ps us b, In (Fun ps us b) methods /\ GivesP b 4 /\ ~ Mentions b 4 /\ ~ anyDeclared (outer start) 4.
Proof.
  split; [reflexivity|]. split; [|split; [vm_compute; reflexivity|]].
  - intros m [<-|[<-|[]]]; eexists _, _, _; (split; [reflexivity|]); cbn; repeat split; repeat constructor; try discriminate.
    all: intros i a; destruct i as [|[|i]]; cbn; try discriminate; try reflexivity; intros [= <-]; cbn; repeat split.
  - eexists _, _, _. split; [right; left; reflexivity|]. split.
    + eapply H_part; [apply P_op; left; reflexivity|]. apply H_assign. repeat constructor.
    + split.
      * intros H. inversion H as [? ? HV| | | | |? k ? HP HM]; subst; [inversion HV|]. inversion HP as [? ? HI| | | | | | | | | | |]; subst. destruct HI as [<-|[<-|[]]].
        -- inversion HM as [? ? HV| | | | |? k ? HP' HM']; subst; [inversion HV|]. inversion HP'; subst.
           ++ inversion HM' as [? ? HV| | | | |? k ? HP2 HM2]; subst; [inversion HV|]. inversion HP2; subst. contradiction.
           ++ inversion HM' as [? ? HV| | | | |? k ? HP2 HM2]; subst; [inversion HV|]. inversion HP2.
        -- inversion HM as [? ? HV| | | | |? k ? HP' HM']; subst; [inversion HV|]. inversion HP' as [| | | |? ? ? HI| | | | | | |]; subst. destruct HI as [<-|[]].
           inversion HM' as [? ? HV| | | | |? k ? HP2 HM2]; subst; [inversion HV|]. inversion HP2; subst. contradiction.
      * intros (d & [<-|[]] & (e & [] & _)).
Qed.
