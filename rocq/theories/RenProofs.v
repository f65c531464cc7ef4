(** Proofs for C42. *)
From Verif Require Import Chars RenModel RenSpec.
Local Open Scope Z_scope.

Lemma replaced_iff name r r' : replaced name r r' <-> r' = withoutDollar r name.
Proof.
  unfold replaced, withoutDollar, shouldRemoveDollar. split.
  - intros [A B]. destruct (Z.eqb_spec (sLine r) (eLine r)); cbn [negb]; [|apply B; tauto].
    destruct (Z.eqb_spec (eCol r - sCol r) (Z.of_nat (List.length name) + 1)); [apply A|apply B]; try split; try lia.
  - intros ->. split; intros H.
    + destruct (Z.eqb_spec (sLine r) (eLine r)); cbn [negb]; [|tauto].
      destruct (Z.eqb_spec (eCol r - sCol r) (Z.of_nat (List.length name) + 1)); [reflexivity|lia].
    + destruct (Z.eqb_spec (sLine r) (eLine r)); cbn [negb]; [|reflexivity].
      destruct (Z.eqb_spec (eCol r - sCol r) (Z.of_nat (List.length name) + 1)); [|reflexivity]. exfalso. apply H. split; [assumption|lia].
Qed.
Lemma real_iff idx u : realUse idx u <-> (uDecl u =? idx) = true /\ isEmpty (uRange u) = false.
Proof. unfold realUse, isEmpty. rewrite Z.eqb_eq, andb_false_iff, !Z.eqb_neq. tauto. Qed.

Section R.
Variables (accept : list Change -> Change -> bool) (url : nat) (transform : Range -> Range) (oldName newName : qstring) (idx : Z).
Definition changeOf (u : Use) : Change :=
  {| chUrl := url; chRange := transform (withoutDollar (uRange u) oldName); chOld := oldName; chNew := newName |}.
(** What the loops amount to: the changes of a list of uses, until one is refused. *)
Fixpoint run (changes : list Change) (l : list Change) : list Change * bool :=
  match l with [] => (changes, true) | c :: r => if accept changes c then run (changes ++ [c]) r else (changes, false) end.
Definition realb (u : Use) : bool := (uDecl u =? idx) && negb (isEmpty (uRange u)).
Lemma run_app a b changes : run changes (a ++ b) = match run changes a with (ch, true) => run ch b | (ch, false) => (ch, false) end.
Proof. revert changes. induction a as [|x a IH]; intros ch; [reflexivity|]. cbn [app run]. destruct (accept ch x); [apply IH|reflexivity]. Qed.
Lemma applyUses_run uses changes : applyUses accept url transform oldName newName changes uses idx = run changes (map changeOf (filter realb uses)).
Proof.
  revert changes. induction uses as [|u l IH]; intros ch; [reflexivity|]. cbn [applyUses filter]. unfold realb at 1.
  destruct (uDecl u =? idx); cbn [negb andb]; [|apply IH].
  destruct (isEmpty (uRange u)); cbn [negb]; [apply IH|]. cbn [map run]. unfold addChange. fold (changeOf u).
  destruct (accept ch (changeOf u)); [apply IH|reflexivity].
Qed.
Lemma apply_run c : forall l, usesOf c l -> idx <> intMax -> forall changes,
  applyChanges accept url transform oldName newName changes c idx = run changes (map changeOf (filter realb l)).
Proof.
  intros l H NI. revert c l H.
  fix IH 3. intros c l H. destruct H as [uses children l Ha]. intros ch.
  cbn [applyChanges]. destruct (Z.eqb_spec idx intMax) as [|_]; [contradiction|].
  rewrite filter_app, map_app, run_app, applyUses_run. destruct (run ch _) as [ch1 [|]]; [|reflexivity].
  revert children l Ha ch1. fix IHl 3. intros children l Ha ch1. destruct Ha as [|c l a b Hc Hb]; [reflexivity|].
  rewrite filter_app, map_app, run_app. rewrite (IH c a Hc ch1). destruct (run ch1 _) as [ch2 [|]]; [|reflexivity].
  apply IHl. exact Hb.
Qed.
Lemma exactly_filter l : exactly (realUse idx) l (filter realb l).
Proof.
  induction l as [|u l IH]; [constructor|]. cbn [filter]. destruct (realb u) eqn:E.
  - constructor; [|exact IH]. apply real_iff. unfold realb in E. apply andb_true_iff in E as [A B]. split; [exact A|]. now apply negb_true_iff in B.
  - constructor; [|exact IH]. intros R. apply real_iff in R as [A B]. unfold realb in E. rewrite A, B in E. discriminate.
Qed.
Lemma exactly_fun {A} (P : A -> Prop) m l1 : exactly P m l1 -> forall l2, exactly P m l2 -> l1 = l2.
Proof.
  induction 1 as [|x m l Hx H IH|x m l Hx H IH]; intros l2 H2; inversion H2; subst; try contradiction; f_equal; auto.
Qed.
Lemma run_ok l changes : snd (run changes l) = true -> fst (run changes l) = changes ++ l.
Proof.
  revert changes. induction l as [|c l IH]; intros ch; cbn [run]; [rewrite app_nil_r; reflexivity|].
  destruct (accept ch c); [|discriminate]. intros H. rewrite IH by exact H. rewrite <- app_assoc. reflexivity.
Qed.
Lemma run_fail l changes : snd (run changes l) = false -> exists a c b, l = a ++ c :: b /\ fst (run changes l) = changes ++ a /\ accept (changes ++ a) c = false.
Proof.
  revert changes. induction l as [|c l IH]; intros ch; cbn [run]; [discriminate|].
  destruct (accept ch c) eqn:E.
  - intros H. destruct (IH _ H) as (a & d & b & -> & F & G). exists (c :: a), d, b. rewrite F. rewrite <- app_assoc in *. auto.
  - intros _. exists [], c, l. rewrite app_nil_r. auto.
Qed.
Lemma run_all l changes : (forall ch c, accept ch c = true) -> snd (run changes l) = true.
Proof. intros H. revert changes. induction l as [|c l IH]; intros ch; cbn [run]; [reflexivity|]. rewrite H. apply IH. Qed.
Definition declChange (d : nat * Range) : Change := {| chUrl := fst d; chRange := withoutDollar (snd d) oldName; chOld := oldName; chNew := newName |}.
Fixpoint present {A} (l : list (option A)) : list A := match l with [] => [] | Some x :: r => x :: present r | None :: r => present r end.
Lemma decls_run l changes : applyChangesToDeclarations accept oldName newName changes l = run changes (map declChange (present l)).
Proof.
  revert changes. induction l as [|[[u r]|] l IH]; intros ch; [reflexivity| |apply IH]. cbn [applyChangesToDeclarations present map run].
  unfold addChange. fold (declChange (u, r)). change {| chUrl := u; chRange := withoutDollar r oldName; chOld := oldName; chNew := newName |} with (declChange (u, r)).
  destruct (accept ch (declChange (u, r))); [apply IH|reflexivity].
Qed.
End R.
Lemma usesOf_ex c : exists l, usesOf c l.
Proof.
  revert c. fix IH 1. intros [uses children].
  assert (H : exists l, usesOfAll children l).
  { induction children as [|c l [b Hb]]; [eexists; constructor|]. destruct (IH c) as [a Ha]. eexists. econstructor; eauto. }
  destruct H as [l H]. eexists. constructor. exact H.
Qed.
Lemma text_name line r name : within line r -> textOf line r = name \/ textOf line r = cDOLLAR :: name ->
  textOf line (withoutDollar r name) = name /\
  forall new, edit line (withoutDollar r name) new = edit line r (if Nat.eqb (List.length (textOf line r)) (List.length name) then new else cDOLLAR :: new).
Proof.
  intros (Hl & Hc & He) H.
  assert (L : Z.of_nat (List.length (textOf line r)) = eCol r - sCol r).
  { unfold textOf. rewrite firstn_length, skipn_length. lia. }
  unfold withoutDollar, shouldRemoveDollar. rewrite Hl, Z.eqb_refl. cbn [negb]. destruct H as [H|H].
  - rewrite H in L. rewrite <- L. destruct (Z.eqb_spec (Z.of_nat (List.length name)) (Z.of_nat (List.length name) + 1)); [lia|].
    split; [exact H|]. intros new. rewrite H, Nat.eqb_refl. reflexivity.
  - rewrite H in L. cbn [List.length] in L. rewrite Nat2Z.inj_succ in L. unfold Z.succ in L. rewrite <- L, Z.eqb_refl.
    unfold textOf in *. cbn [sCol eCol].
    set (a := Z.to_nat (sCol r)) in *. replace (Z.to_nat (sCol r + 1)) with (S a) by lia.
    replace (Z.to_nat (eCol r - (sCol r + 1))) with (List.length name) by lia.
    replace (Z.to_nat (eCol r - sCol r)) with (S (List.length name)) in H by lia.
    assert (K : exists t, skipn a line = cDOLLAR :: t /\ skipn (S a) line = t /\ firstn (S a) line = firstn a line ++ [cDOLLAR]).
    { clear -H. clearbody a. revert a H. induction line as [|x line IH]; intros a H; [destruct a; discriminate|]. destruct a as [|a].
      - cbn in H. injection H as -> H. exists line. auto.
      - change (skipn (S a) (x :: line)) with (skipn a line) in *. destruct (IH a H) as (t & A & B & C). exists t. split; [exact A|]. split; [exact B|].
        change (firstn (S (S a)) (x :: line)) with (x :: firstn (S a) line). rewrite C. reflexivity. }
    destruct K as (t & A & B & C). rewrite A in H. cbn in H. injection H as H. split; [rewrite B; exact H|].
    intros new. replace (Z.to_nat (eCol r - sCol r)) with (S (List.length name)) by lia.
    rewrite A. cbn [firstn List.length]. rewrite H. replace (Nat.eqb (S (List.length name)) (List.length name)) with false by (symmetry; apply Nat.eqb_neq; lia).
    unfold edit. cbn [sCol eCol]. fold a. replace (Z.to_nat (sCol r + 1)) with (S a) by lia. rewrite C, <- app_assoc. reflexivity.
Qed.
