(** C66: the variables of a scope.  Vocabulary in VarSpec.v. *)
From Coq Require Import List Bool Arith.
From Verif Require Import PhpTypes MergeModel VarModel VarSpec VarProofs VarProofs2 VarProofs3 VarProofs4 VarProofs5.
Import ListNotations.
Open Scope nat_scope.

(** After the walk over [n], the current scope declares what it declared before and the variables
    [n] gives a value; for the pieces of [ok], whatever the types of expressions are. *)
Theorem C66_variables_partial : forall T F (V G : nat -> Prop) n s,
  (forall x, anyDeclared (outer s) x -> V x) -> (forall x, G x -> globals s x) ->
  isClass (cur s) = false -> isClass (topOf s) = false ->
  ok V (fun x => declared (cur s) x \/ Gives n x) G (cft s) n ->
  forall x, declared (cur (visit T F n s)) x <-> declared (cur s) x \/ Gives n x.
Proof.
  intros T F V G n s H1 H2 H3 H4 HO.
  exact (r_cur _ _ _ _ _ (visit_good T F n V _ G s HO {| e_outer := H1; e_cur := fun x H => or_introl H; e_glob := H2; e_sk := H3; e_top := H4 |} (fun x H => or_intror H))).
Qed.
Print Assumptions C66_variables_partial.

(** Each function and closure in [n], at any depth, gets a scope of its own that declares its
    parameters and the variables its body gives a value; the names of the scope around stay. *)
Theorem C66_functions_partial : forall T F (V G : nat -> Prop) n s,
  (forall x, anyDeclared (outer s) x -> V x) -> (forall x, G x -> globals s x) ->
  isClass (cur s) = false -> isClass (topOf s) = false ->
  ok V (fun x => declared (cur s) x \/ Gives n x) G (cft s) n ->
  exists new, closed (visit T F n s) = closed s ++ new /\
    Forall (fun c => exists f, Inside n f /\ scopeOf c f) new /\
    (forall f, Inside n f -> exists c, In c new /\ scopeOf c f).
Proof.
  intros T F V G n s H1 H2 H3 H4 HO.
  exact (r_closed _ _ _ _ _ (visit_good T F n V _ G s HO {| e_outer := H1; e_cur := fun x H => or_introl H; e_glob := H2; e_sk := H3; e_top := H4 |} (fun x H => or_intror H))).
Qed.
Print Assumptions C66_functions_partial.

(** The type of whatever [n] assigns to [$x], or gives it as a static or caught value, is among the
    types of a declaration of [$x] in the scope. *)
Theorem C66_types_partial : forall T F V N G g n s x a,
  ok V N G g n -> wellTyped s -> lasting a -> Puts T n x a -> hasType (visit (fun _ => T) F n s) x a.
Proof. intros T F V N G g n s x a. exact (visit_puts T F n V N G g s x a). Qed.
Print Assumptions C66_types_partial.

(** The same for every function and closure in [n], at any depth: when the walk is over, its scope still has
    the types of its parameters and of what its body puts in variables. *)
Theorem C66_function_types_partial : forall T F V N G g n s f,
  ok V N G g n -> wellTyped s -> Inside n f ->
  exists new c, closed (visit (fun _ => T) F n s) = closed s ++ new /\ In c new /\ scopeTypes T (heap (visit (fun _ => T) F n s)) c f.
Proof.
  intros T F V N G g n s f O W I. destruct (function_types T F n f I V N G g s O W) as (new & c & A & B & _ & C). exists new, c. auto.
Qed.
Print Assumptions C66_function_types_partial.

(** ** What goes wrong outside *)
Definition v (x : nat) : nd := Var (BName x x false) [] [].
Definition top : scope := {| sk := KTop; own := []; imps := [] |}.
Definition start : st := {| fnd := fresh; cft := None; heap := []; cur := top; outer := []; last := Integral KMixed; closed := []; probs := [] |}.
Definition mixed (s : st) (n : nd) : ty := Integral KMixed.
Definition int (s : st) (n : nd) : ty := Integral KInt.
Definition names (c : scope) : list nat := map en (own c ++ imps c).

Lemma declared_by : forall c l x, names c = l -> In x l -> declared c x.
Proof. intros c l x <- H. apply in_map_iff in H as (e & E & He). exists e. auto. Qed.
Lemma hasType_by : forall s l x a, map (fun e => (en e, atoms (typeAt (heap s) (ei e)))) (own (cur s) ++ imps (cur s)) = l ->
  (exists t, In (x, t) l /\ In a t) -> hasType s x a.
Proof. intros s l x a <- (t & H & Ht). apply in_map_iff in H as (e & E & He). injection E as E1 E2. subst. exists e. auto. Qed.

(** [$x && $y = f();] declares [$x], not [$y]. *)
Theorem C66_left_refuted : exists n, Gives n 2 /\ ~ Gives n 1 /\
  names (cur (visit int mixed n start)) = [1].
Proof.
  exists (Assign (Op [v 1; v 2]) Val). split; [|split].
  - apply G_assign. apply (T_op [v 1] (v 2)). constructor. constructor.
  - intros H. apply gives_assign in H as [[H|H]|H].
    + apply gives_op in H as (k & [<-|[<-|[]]] & H); apply gives_var in H as (j & [] & _).
    + inversion H as [| | | | | | | |? ? ? HP]; subst. inversion HP.
    + inversion H as [? ? H1|l m ? H1 E1]; subst; [inversion H1|].
      destruct l as [|a [|b [|c l]]]; cbn in E1; try discriminate. injection E1 as _ ->. inversion H1 as [? ? H2|]; subst. inversion H2.
  - reflexivity.
Qed.
Print Assumptions C66_left_refuted.
(** [function f($a) { foreach ($a as $x) {} }] in a file with a global [$x]: no [$x] in [f].
    The same with a property [$x], if [f] is a method. *)
Theorem C66_shadowed_refuted : exists n f c, Inside n f /\ closed (visit int mixed n start) = [c] /\
  ~ (forall x, In x (map (fun q => snd (fst q)) match f with Fun ps _ _ => ps | _ => [] end) \/ Gives match f with Fun _ _ b => b | _ => Val end x -> declared c x).
Proof.
  exists (Op [Assign (v 1) Val; Fun [(4, 3, Integral KMixed)] [] (Foreach (v 3) (v 1) None Val)]), (Fun [(4, 3, Integral KMixed)] [] (Foreach (v 3) (v 1) None Val)),
    {| sk := KBody; own := []; imps := [{| en := 3; ep := 4; ei := 1; ek := EVariable; ea := false |}] |}. split; [|split; [vm_compute; reflexivity|]].
  - apply inside_op. exists (Fun [(4, 3, Integral KMixed)] [] (Foreach (v 3) (v 1) None Val)). split; [right; now left|]. constructor.
  - intros H. destruct (H 1) as (e & He & Ex); [right; apply G_each1; constructor|]. change (In e [{| en := 3; ep := 4; ei := 1; ek := EVariable; ea := false |}]) in He. destruct He as [<-|[]]. discriminate.
Qed.
Print Assumptions C66_shadowed_refuted.
Definition method : st := {| fnd := fresh; cft := None; heap := [Integral KInt]; last := Integral KMixed; closed := []; probs := [];
  cur := {| sk := KBody; own := []; imps := [] |};
  outer := [{| sk := KClass false false 0 []; own := [{| en := 1; ep := 1; ei := 0; ek := EMember false; ea := false |}]; imps := [] |}; top] |}.
Theorem C66_property_refuted : exists n, Gives n 1 /\ ~ declared (cur (visit int mixed n method)) 1.
Proof.
  exists (Foreach Val (v 1) None Val). split; [apply G_each1; constructor|]. intros (e & [] & _).
Qed.
Print Assumptions C66_property_refuted.
(** [list($x[0]) = ..], [preg_match($p, $s, $x[0])]: nothing is declared. *)
Theorem C66_index_refuted : exists n, Gives n 1 /\ ~ declared (cur (visit int mixed n start)) 1.
Proof.
  exists (Elem (Var (BName 1 1 true) [] [])). split; [apply G_elem; constructor|]. intros (e & [] & _).
Qed.
Print Assumptions C66_index_refuted.
(** A method with a reference parameter: [$o->m($x)] declares no [$x].  A method without one, called
    in the second argument of a function whose first parameter is a reference,
    [sort($a, $o->m($y))], declares [$y]. *)
Theorem C66_method_refuted :
  (exists n, Gives n 1 /\ ~ declared (cur (visit int mixed n start)) 1) /\
  (exists n, ~ Gives n 1 /\ declared (cur (visit int mixed n start)) 1).
Proof.
  split.
  - exists (Var (BName 2 2 false) [{| sname := Some (3, 3); sindexed := false; scalled := true |}] [Call (Method [true]) [v 1]]). split; [|intros (e & [] & _)].
    apply gives_var. eexists. split; [now left|]. apply (G_ref (Method [true]) [v 1] 0 (v 1) 1); [reflexivity|reflexivity|constructor].
  - exists (Call (Function (Some [true; false])) [v 3; Var (BName 2 2 false) [{| sname := Some (3, 3); sindexed := false; scalled := true |}] [Call (Method []) [v 1]]]). split.
    + intros H. apply gives_call in H as [(k & [<-|[<-|[]]] & H)|(i & a & H1 & H2 & H3)].
      * apply gives_var in H as (k & [] & _).
      * apply gives_var in H as (k & [<-|[]] & H). apply gives_call in H as [(k & [<-|[]] & H)|(i & a & H1 & H2 & H3)]; [apply gives_var in H as (k & [] & _)|].
        cbn in H2. destruct i; discriminate.
      * destruct i as [|[|i]]; cbn in H1, H2; try discriminate.
        -- injection H1 as <-. inversion H3.
        -- destruct i; discriminate.
    + apply (declared_by _ [3; 1]); [vm_compute; reflexivity|cbn; tauto].
Qed.
Print Assumptions C66_method_refuted.
(** [global $x;] for a variable no known file declares: nothing is declared. *)
Theorem C66_global_refuted : exists n, Gives n 1 /\ ~ declared (cur (visit int mixed n method)) 1.
Proof. exists (GlobalVar 1 1). split; [apply G_global|]. intros (e & [] & _). Qed.
Print Assumptions C66_global_refuted.
(** [foreach ($a as $k => $v) { $v = 1; }] with strings in [$a]: the type of the elements is lost for
    [$v], and it becomes the type of the key. *)
Theorem C66_foreach_type_refuted : exists n, Gives n 1 /\ Gives n 2 /\
  map (fun e => (en e, typeAt (heap (visit int (fun _ _ => Integral KString) n start)) (ei e))) (own (cur (visit int (fun _ _ => Integral KString) n start)))
    = [(2, Integral KInt); (1, Integral KString)].
Proof.
  exists (Foreach Val (v 1) (Some (v 2)) (Assign (v 2) Val)). split; [apply G_each1; constructor|]. split; [apply G_each2; constructor|]. reflexivity.
Qed.
Print Assumptions C66_foreach_type_refuted.
(** [catch (Unknown $e) { $x = 1; }] gives [$e] the type of the last assignment. *)
Theorem C66_catch_type_refuted : exists b, Gives (Catch None 5 1 b) 1 /\
  hasType (visit int mixed (Catch None 5 1 b) start) 1 (Integral KInt).
Proof.
  exists (Assign (v 2) Val). split; [apply G_catch|]. eapply hasType_by; [vm_compute; reflexivity|]. eexists. split; [right; left; reflexivity|]. cbn. tauto.
Qed.
Print Assumptions C66_catch_type_refuted.
(** [$x = 1; $f = function() use ($x) { $x = "a"; };] changes the type of the [$x] outside. *)
Definition closureTypes (s : st) (n : nd) : ty := match closed s, outer s with [], [_] => Integral KString | _, _ => Integral KInt end.
Theorem C66_closure_type_refuted : exists f, ~ Gives f 1 /\
  typeAt (heap (visit closureTypes mixed (Op [Assign (v 1) Val; f]) start)) 0 = Unsure [Integral KInt; Integral KString].
Proof.
  exists (Fun [] [(7, 1)] (Assign (Var (BName 9 1 false) [] []) Val)). split; [apply gives_fun|]. reflexivity.
Qed.
Print Assumptions C66_closure_type_refuted.

(** ** A case: function f(&$p) is known;
    [$a = [1]; foreach ($a as $k => $w) { $s[] = $w; } list($c, list($d)) = $a; f($e);
     $g = function($q) use ($a) { static $r; $z = !$y = 1; try {} catch (E $ex) {} };] *)
Definition prog : nd := Op [
  Assign (v 1) Val;
  Foreach (v 1) (v 2) (Some (v 3)) (Assign (Var (BName 4 4 true) [] []) (v 3));
  Op [Op [Elem (v 5); Elem (Op [Elem (v 6)])]; v 1];
  Var BOther [] [Call (Function (Some [true])) [v 7]];
  Assign (v 8) (Fun [(20, 20, Integral KInt)] [(1, 1)]
    (Op [StaticVar 21 21 Val; Assign (v 22) (Assign (Op [v 23]) Val); Catch (Some (Struct 1)) 24 24 Val]))].
Example C66_case : ok (fun _ => False) (fun x => declared (cur start) x \/ Gives prog x) (fun _ => False) None prog /\ wellTyped start /\
  names (cur (visit int mixed prog start)) = [1; 4; 3; 2; 5; 6; 7; 8] /\ map names (closed (visit int mixed prog start)) = [[21; 23; 22; 24; 20; 1]] /\
  (exists f, Inside prog f) /\ Puts (fun _ => Integral KInt) prog 4 (Integral KArray) /\ hasType (visit int mixed prog start) 4 (Integral KArray).
Proof.
  split; [|split; [|split; [|split; [|split; [|split]]]]].
  - cbn. repeat split; try tauto; try discriminate; try (constructor; fail); try (intros [[] | ]; fail);
      try (intros i a; destruct i as [|[|i]]; cbn; try discriminate; try reflexivity; intros [= <-]; cbn; tauto || (repeat split; try tauto; discriminate)).
    all: intros i a; destruct i as [|[|i]]; cbn; try discriminate; intros [= <-] _; cbn; repeat split; tauto || discriminate.
  - repeat constructor.
  - reflexivity.
  - reflexivity.
  - eexists. apply (I_part prog (Assign (v 8) (Fun [(20, 20, Integral KInt)] [(1, 1)]
    (Op [StaticVar 21 21 Val; Assign (v 22) (Assign (Op [v 23]) Val); Catch (Some (Struct 1)) 24 24 Val])))); [constructor; cbn; tauto|].
    eapply I_part; [apply P_right|apply I_here].
  - apply (U_part _ prog (Foreach (v 1) (v 2) (Some (v 3)) (Assign (Var (BName 4 4 true) [] []) (v 3)))); [constructor; cbn; tauto|].
    eapply U_part; [apply P_body|]. apply U_index. constructor.
  - eapply hasType_by; [vm_compute; reflexivity|]. eexists. split; [right; left; reflexivity|]. cbn. tauto.
Qed.
