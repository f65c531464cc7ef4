(** C69: the rules of the language are checked.  Vocabulary in SemSpec.v. *)
From Coq Require Import List String.
From Verif Require Import Chars SemModel SemSpec SemProofs4 SemProofs5.
Import ListNotations.
Open Scope nat_scope.

(** In every file these problems are reported exactly where the rule is broken: a default of a
    variadic parameter, a variadic parameter that is not the last, a yield outside functions, a
    reserved name of a class, a use statement without effect or of a taken name, constants of traits,
    constants called "class". *)
Theorem C69_reported : forall cc file w p,
  In w [VariadicDefault; VariadicNotLast; YieldOutside; ReservedName; NoEffect; NameTaken; TraitConst; ConstClass] ->
  (In (w, p) (check cc true false file) <-> Breaks cc file w p).
Proof. intros cc file w p W. apply reported. cbn in W. repeat destruct W as [<-|W]; try exact I. destruct W. Qed.
Print Assumptions C69_reported.

(** In files without unions, grouped use statements and names like int\A, also: a default other than
    null of a parameter whose type is a class, a reserved name as a type, a reserved alias. *)
Theorem C69_reported_partial : forall cc file w p, Plain cc file -> w <> PositionalAfterUnpacked ->
  (In (w, p) (check cc true false file) <-> Breaks cc file w p).
Proof. exact reported_plain. Qed.
Print Assumptions C69_reported_partial.

(** Positional arguments behind an unpacked one: each reported one is one, and a call that has one
    has a reported one. *)
Theorem C69_positional : forall cc file,
  (forall p, In (PositionalAfterUnpacked, p) (check cc true false file) -> Breaks cc file PositionalAfterUnpacked p) /\
  (forall pl f args p, Has file pl (Call f args) -> BreaksHere cc pl (Call f args) PositionalAfterUnpacked p ->
     exists a, In a args /\ In (PositionalAfterUnpacked, aPos a) (check cc true false file)).
Proof. exact positional. Qed.
Print Assumptions C69_positional.

(** Not each of them: f(...$a, 1, 2). *)
Theorem C69_positional_refuted : exists file p,
  Breaks asciiCC file PositionalAfterUnpacked p /\ ~ In (PositionalAfterUnpacked, p) (check asciiCC true false file).
Proof. exists twoPositional, 7. exact second_refuted. Qed.
Print Assumptions C69_positional_refuted.
(** function f(Foo|int $x = 5): a problem without a broken rule. *)
Theorem C69_union_default_refuted : exists file p,
  In (ClassDefault, p) (check asciiCC true false file) /\ ~ Breaks asciiCC file ClassDefault p.
Proof. exists unionDefault, 8. exact unionDefault_refuted. Qed.
Print Assumptions C69_union_default_refuted.
(** function f(): int|null: the same. *)
Theorem C69_union_null_refuted : exists file p,
  In (ReservedHint, p) (check asciiCC true false file) /\ ~ Breaks asciiCC file ReservedHint p.
Proof. exists unionNull, 8. exact unionNull_refuted. Qed.
Print Assumptions C69_union_null_refuted.
(** function f(int\A $x = 5): a broken rule without a problem, as int\A is taken for int. *)
Theorem C69_prefix_refuted : exists file p, Breaks asciiCC file ClassDefault p /\ check asciiCC true false file = [].
Proof. exists prefixed, 8. exact prefixed_refuted. Qed.
Print Assumptions C69_prefix_refuted.
(** use A\{B as string}: the same, as groups are not looked at. *)
Theorem C69_grouped_refuted : exists file p, Breaks asciiCC file ReservedAlias p /\ check asciiCC true false file = [].
Proof. exists grouped, 6. exact grouped_refuted. Qed.
Print Assumptions C69_grouped_refuted.
(** foreach ($a as $b[f(...$c, 1)]): the same problem twice. *)
Theorem C69_twice_refuted : exists file x a b c, check asciiCC true false file = a ++ x :: b ++ x :: c.
Proof. exists twice, (PositionalAfterUnpacked, 12), [], [], []. vm_compute. reflexivity. Qed.
Print Assumptions C69_twice_refuted.
(** class self: not one of the names the builder knows as reserved. *)
Theorem C69_self_refuted : exists p l, check asciiCC true false [TNode (Class KClass p (str "self") l)] = [].
Proof. exists 1, []. vm_compute. reflexivity. Qed.
Print Assumptions C69_self_refuted.
(** With "highlight semantic problems" switched off, most of these are still reported. *)
Theorem C69_setting_refuted : exists file, check asciiCC false false file <> [].
Proof. exists twoPositional. vm_compute. discriminate. Qed.
Print Assumptions C69_setting_refuted.

(** A file that breaks all of these rules, and is reported:
<<
use X; namespace N; use A as int; use A; trait T { const Class = yield; }
class NULL { function f(...$a, Foo $b = function(A\bool $x) { yield; g(...$c, 1); }, A\String ...$c = 1) {} }
>> *)
Definition everything : list top := [
  TNode (Use [{| uPos := 1; uParts := [str "X"]; uAlias := None; uGroup := None; uTaken := false |}]);
  TNamespace [str "N"] None;
  TNode (Use [{| uPos := 6; uParts := [str "A"]; uAlias := Some (8, str "int"); uGroup := None; uTaken := false |}]);
  TNode (Use [{| uPos := 7; uParts := [str "A"]; uAlias := None; uGroup := None; uTaken := true |}]);
  TNode (Class KTrait 11 (str "T") [MConst 14 (str "Class") (Yield 16 [])]);
  TNode (Class KClass 20 (str "NULL") [MMethod (Fun [
    prm 24 [] true None;
    prm 26 [name1 26 "Foo"] false (Some (29, str "function", Fun [prm 31 [HName 31 (str "A") [str "bool"]] false None] [] 
         (Some (Parts [Yield 35 []; Call [] [ar 38 true; ar 41 false]]))));
    prm 45 [HName 45 (str "A") [str "String"]] true (Some (51, str "1", val))] [] (Some val))])].
Example C69_case : check asciiCC true false everything =
  [(NoEffect, 1); (ReservedAlias, 8); (NameTaken, 7); (TraitConst, 14); (ConstClass, 14); (YieldOutside, 16);
   (ClassDefault, 29); (ReservedHint, 31); (PositionalAfterUnpacked, 41); (VariadicNotLast, 24);
   (VariadicDefault, 51); (ReservedHint, 45); (ReservedName, 20)].
Proof. vm_compute. reflexivity. Qed.
(** A plain file: function f(Foo $x = 5) {}. *)
Example C69_plain : Plain asciiCC oneDefault /\ check asciiCC true false oneDefault = [(ClassDefault, 6)].
Proof. split; [exact oneDefault_plain|vm_compute; reflexivity]. Qed.
