(** C19: inheritance stays acyclic and ancestor walks terminate. *)
From Verif Require Import InhModel InhSpec InhProofs.

(** Whatever the history, no class is ever its own proper ancestor. *)
Theorem C19_inheritance_acyclic : forall h s, Run h s -> forall c, ~ Ancestor s c c.
Proof. exact acyclic. Qed.
Print Assumptions C19_inheritance_acyclic.

(** The walk up the parents ends after at most as many rounds as classes were declared, and
    answers whether some parent forbids the redeclaration. *)
Theorem C19_parent_walk_terminates : forall h s meths c name abs, Run h s ->
  exists r, baseRedecl (length (known s)) s meths c name abs = Some r /\
            (r = true <-> ForbiddenAbove s meths c name abs).
Proof. exact walk_ok. Qed.
Print Assumptions C19_parent_walk_terminates.

(** Refusing cycles loses nothing else: a base that is not a descendant becomes an ancestor. *)
Theorem C19_declared_base_is_ancestor : forall h s r c b s', Tidy h -> Run h s ->
  step s (AddBase r c (Some b)) s' -> kind s c <> None -> kind s b <> None ->
  c <> b -> ~ Ancestor s b c -> Ancestor s' c b.
Proof. exact base_kept. Qed.
Print Assumptions C19_declared_base_is_ancestor.

(** Class 0 extends 1, then 1 extends 0 is refused with an error; a walk from 0 sees the final
    method of 1. *)
Definition h_ex : list Op := [Declare 0 Class; Reopen 0; Declare 1 Class; Reopen 1; AddBase true 0 (Some 1)].
Definition s_ex : St := link (reopen (declare (reopen (declare init 0 Class) 0) 1 Class) 1) 0 1.

Lemma run_ex : Run h_ex s_ex.
Proof.
  unfold h_ex, s_ex.
  assert (R1 : Run [Declare 0 Class; Reopen 0; Declare 1 Class; Reopen 1]
                   (reopen (declare (reopen (declare init 0 Class) 0) 1 Class) 1)).
  { change [Declare 0 Class; Reopen 0; Declare 1 Class; Reopen 1]
      with (((([] ++ [Declare 0 Class]) ++ [Reopen 0]) ++ [Declare 1 Class]) ++ [Reopen 1]).
    repeat (econstructor; try reflexivity). }
  change [Declare 0 Class; Reopen 0; Declare 1 Class; Reopen 1; AddBase true 0 (Some 1)]
    with ([Declare 0 Class; Reopen 0; Declare 1 Class; Reopen 1] ++ [AddBase true 0 (Some 1)]).
  econstructor; [exact R1|]. apply st_link.
  - cbn. discriminate.
  - cbn. discriminate.
  - intros H. inversion H as [|y z H1 H2]; subst. destruct H1.
  - intros H. inversion H as [|y z H1 H2]; subst. destruct H1.
Qed.

Example ex_tidy : Tidy h_ex.
Proof.
  unfold h_ex.
  change [Declare 0 Class; Reopen 0; Declare 1 Class; Reopen 1; AddBase true 0 (Some 1)]
    with (((([] ++ [Declare 0 Class]) ++ [Reopen 0]) ++ [Declare 1 Class]) ++ [Reopen 1] ++ [AddBase true 0 (Some 1)]).
  rewrite app_assoc. repeat constructor.
Qed.

Example ex_refused : exists s', step s_ex (AddBase true 1 (Some 0)) s' /\ bas s' 1 = [] /\ errs s' = [(1, 0)].
Proof.
  exists (refuse s_ex true 1 0). split; [|split; reflexivity].
  apply st_refuse; [cbn; discriminate|cbn; discriminate|].
  left. econstructor; [left; reflexivity|constructor].
Qed.

Example ex_walk : baseRedecl (length (known s_ex)) s_ex
   (fun c => if Nat.eqb c 1 then Some [{| m_name := 7; m_isFun := true; m_seen := true; m_final := true; m_abstract := false |}]
             else Some []) 0 7 false = Some true.
Proof. reflexivity. Qed.

(** Without the check the walk would not end: on a cyclic relation no fuel suffices. *)
Example ex_cycle_diverges : forall fuel,
  baseRedecl fuel {| kind := fun _ => Some Class; imp := fun c => [1 - c]; bas := fun c => [1 - c];
                     errs := []; known := [0; 1]; unresolved := false |} (fun _ => None) 0 7 false = None.
Proof.
  assert (G : forall fuel c, baseRedecl fuel {| kind := fun _ => Some Class; imp := fun c => [1 - c];
     bas := fun c => [1 - c]; errs := []; known := [0; 1]; unresolved := false |} (fun _ => None) c 7 false = None).
  { induction fuel as [|fuel IH]; intros c; [reflexivity|]. cbn [baseRedecl bas firstClass kind]. apply IH. }
  intros fuel. apply G.
Qed.
