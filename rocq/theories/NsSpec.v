(** What properly nested namespaces are, independent of the builder's stacks. *)
From Verif Require Import NsModel.

(** Properly nested event sequences: everything opened is closed, in reverse order. *)
Inductive Nested : list Event -> Prop :=
| n_nil : Nested []
| n_visit id ns : Nested [EVisit id ns]
| n_app a b : Nested a -> Nested b -> Nested (a ++ b)
| n_ctx k n a : Nested a -> Nested (EOpen k n :: a ++ [EClose k n])
| n_decl n a : Nested a -> Nested (EOpenDecl n :: a ++ [ECloseDecl n]).

(** The statements of a file, in order, with the namespace PHP puts them in. *)
Fixpoint leaves (x : Stmt) : list nat :=
  match x with
  | Leaf i => [i]
  | Scope _ b => flat_map leaves b
  end.
Fixpoint placed (cur : list nat) (f : list Outer) : list (nat * list nat) :=
  match f with
  | [] => []
  | Plain x :: r => map (fun i => (i, cur)) (leaves x) ++ placed cur r
  | Ns ns (Some b) :: r => map (fun i => (i, ns)) (flat_map leaves b) ++ placed [] r
  | Ns ns None :: r => placed ns r
  end.

Definition visits (t : list Event) : list (nat * list nat) :=
  flat_map (fun e => match e with EVisit i ns => [(i, ns)] | _ => [] end) t.

(** The namespace contexts opened, in order: one per component of each statement. *)
Definition nsNames (f : list Outer) : list nat :=
  flat_map (fun o => match o with Ns ns _ => ns | Plain _ => [] end) f.
Definition opened (t : list Event) : list nat :=
  flat_map (fun e => match e with EOpen NamespaceCtx n => [n] | _ => [] end) t.
Definition closed (t : list Event) : list nat :=
  flat_map (fun e => match e with EClose NamespaceCtx n => [n] | _ => [] end) t.
(** Closed in reverse order within each statement. *)
Definition nsClosings (f : list Outer) : list nat :=
  flat_map (fun o => match o with Ns ns _ => rev ns | Plain _ => [] end) f.
