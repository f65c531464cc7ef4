(** C20: namespaces opened are closed in reverse order. *)
From Verif Require Import NsModel NsSpec NsProofs.

(** Contexts and declarations are properly nested over the whole file. *)
Theorem C20_properly_nested : forall f, Nested (trace f).
Proof. exact file_nested. Qed.
Print Assumptions C20_properly_nested.

(** At the end of file only the top context is open, no declaration is, and neither the
    assertion on the kind of the closed context nor a stack underflow has been hit. *)
Theorem C20_end_of_file : forall f,
  ctxs (startVisiting f) = [(TopCtx, 0)] /\ decls (startVisiting f) = [] /\
  openNs (startVisiting f) = None /\ bad (startVisiting f) = false.
Proof. exact file_end. Qed.
Print Assumptions C20_end_of_file.

(** One namespace context is opened per component, in order, and closed in reverse order within
    its statement. *)
Theorem C20_one_context_per_component : forall f,
  opened (trace f) = nsNames f /\ closed (trace f) = nsClosings f.
Proof. intros f. destruct (file_ok f) as (_ & _ & A & B & _). exact (conj A B). Qed.
Print Assumptions C20_one_context_per_component.

(** Every statement of the file is visited exactly once, in order, in the namespace PHP puts it
    in. *)
Theorem C20_statements_in_their_namespace : forall f, visits (trace f) = placed [] f.
Proof. intros f. destruct (file_ok f) as (_ & _ & _ & _ & V). exact V. Qed.
Print Assumptions C20_statements_in_their_namespace.

Definition file_ex : list Outer :=
  [Plain (Leaf 1); Ns [10; 11] None; Plain (Scope 3 [Leaf 4]); Ns [12] (Some [Leaf 5]); Ns [] (Some [Leaf 6]);
   Ns [13] None; Plain (Leaf 7)].
Example file_ex_visits :
  visits (trace file_ex) = [(1, []); (4, [10; 11]); (5, [12]); (6, []); (7, [13])].
Proof. reflexivity. Qed.
Example file_ex_closed : closed (trace file_ex) = [11; 10; 12; 13].
Proof. reflexivity. Qed.
