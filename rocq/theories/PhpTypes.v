(** The types the builders work with (values of KDevelop::AbstractType used by kdev-php). *)
From Verif Require Export Chars.
Open Scope nat_scope.

(** IntegralType::dataType values used by the plugin (duchain/builders, duchain/helper.cpp,
    duchain/expressionvisitor.cpp), including those of IntegralTypeExtended
    (duchain/types/integraltypeextended.h 29-33: Resource, Callable, Object).  [KNone] is the
    data type numbered 0, which a default-initialised number denotes. *)
Inductive ikind := KNone | KVoid | KNull | KBool | KInt | KFloat | KString | KMixed | KArray | KResource | KCallable | KObject.

(** StructureType (of the class declaration with this index), FunctionType (identified by an
    index), UnsureType, ArrayType, ReferenceType. *)
Inductive ty :=
| Integral (k : ikind)
| Struct (d : N)
| Func (d : N)
| Unsure (l : list ty)
| Arr (e : ty)
| Ref (b : ty).

Definition ikind_eqb (a b : ikind) : bool :=
  match a, b with
  | KNone, KNone | KVoid, KVoid | KNull, KNull | KBool, KBool | KInt, KInt | KFloat, KFloat | KString, KString
  | KMixed, KMixed | KArray, KArray | KResource, KResource | KCallable, KCallable | KObject, KObject => true
  | _, _ => false
  end.

(** AbstractType::equals / equality of IndexedType: structural. *)
Fixpoint teq (a b : ty) {struct a} : bool :=
  match a, b with
  | Integral x, Integral y => ikind_eqb x y
  | Struct x, Struct y => N.eqb x y
  | Func x, Func y => N.eqb x y
  | Unsure l, Unsure m =>
      (fix eql (l m : list ty) {struct l} : bool :=
        match l, m with
        | [], [] => true
        | x :: l', y :: m' => teq x y && eql l' m'
        | _, _ => false
        end) l m
  | Arr x, Arr y => teq x y
  | Ref x, Ref y => teq x y
  | _, _ => false
  end.

(** UnsureType::addType (KDevplatform): append unless already contained. *)
Definition memT (t : ty) (l : list ty) : bool := existsb (teq t) l.
Definition addT (l : list ty) (t : ty) : list ty := if memT t l then l else l ++ [t].

Section Ind.
Variable P : ty -> Prop.
Hypothesis HI : forall k, P (Integral k).
Hypothesis HS : forall d, P (Struct d).
Hypothesis HF : forall d, P (Func d).
Hypothesis HU : forall l, Forall P l -> P (Unsure l).
Hypothesis HA : forall e, P e -> P (Arr e).
Hypothesis HR : forall b, P b -> P (Ref b).
Fixpoint ty_ind' (t : ty) : P t :=
  match t with
  | Integral k => HI k | Struct d => HS d | Func d => HF d
  | Unsure l => HU l ((fix go l := match l return Forall P l with [] => Forall_nil _ | x :: l' => Forall_cons x (ty_ind' x) (go l') end) l)
  | Arr e => HA e (ty_ind' e)
  | Ref b => HR b (ty_ind' b)
  end.
End Ind.

Lemma ikind_eqb_eq a b : ikind_eqb a b = true <-> a = b.
Proof. destruct a, b; cbn; split; congruence. Qed.
Lemma teq_eq a b : teq a b = true <-> a = b.
Proof.
  revert b. induction a as [k|d|d|l HL|e IH|e IH] using ty_ind'; intros b; destruct b; cbn; try (split; congruence).
  - rewrite ikind_eqb_eq. split; congruence.
  - rewrite N.eqb_eq. split; congruence.
  - rewrite N.eqb_eq. split; congruence.
  - revert l0. induction HL as [|x l Hx HL IH]; intros [|y m]; try (split; congruence).
    rewrite andb_true_iff, Hx. split.
    + intros [-> H]. apply IH in H. congruence.
    + intros H. injection H as -> ->. split; auto. now apply IH.
  - rewrite IH. split; congruence.
  - rewrite IH. split; congruence.
Qed.
Lemma teq_refl a : teq a a = true. Proof. now apply teq_eq. Qed.
Lemma memT_in t l : memT t l = true <-> In t l.
Proof.
  unfold memT. rewrite existsb_exists. split.
  - intros [x [H1 H2]]. apply teq_eq in H2. now subst.
  - intros H. exists t. split; auto. apply teq_refl.
Qed.
Lemma addT_in x l t : In x (addT l t) <-> In x l \/ x = t.
Proof.
  unfold addT. destruct (memT t l) eqn:E.
  - apply memT_in in E. split; [auto|intros [H| ->]; auto].
  - rewrite in_app_iff. cbn. intuition congruence.
Qed.
Lemma addT_nodup l t : NoDup l -> NoDup (addT l t).
Proof.
  intros H. unfold addT. destruct (memT t l) eqn:E; auto.
  apply NoDup_rev in H. rewrite <- (rev_involutive (l ++ [t])), rev_app_distr. apply NoDup_rev. cbn. constructor; auto.
  rewrite <- in_rev. intros Hin. apply memT_in in Hin. congruence.
Qed.

(** The plain types a type stands for: the members of unions, looking through references. *)
Fixpoint atoms (t : ty) : list ty :=
  match t with
  | Unsure l => flat_map atoms l
  | Ref b => atoms b
  | _ => [t]
  end.
Definition isMixed (t : ty) : bool := match t with Integral KMixed => true | _ => false end.
Lemma isMixed_eq t : isMixed t = true <-> t = Integral KMixed.
Proof. destruct t as [[]| | | | |]; cbn; split; congruence. Qed.
